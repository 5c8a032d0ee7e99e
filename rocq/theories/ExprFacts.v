(** Basic facts about expressions: induction, equality, sorting. *)
From Coq Require Import String Permutation.
From Verif Require Import Num NumFacts Base Tree Elem Order Expr ExprSpec.

Section ExprInd.
  Variable P : expr -> Prop.
  Definition PT (t : term_ expr) : Prop := Forall P (tp t) /\ Forall P (tn t).
  Hypothesis hConst : forall c, P (EConst c).
  Hypothesis hName : forall s, P (EName s).
  Hypothesis hPred : forall s b, P (EPred s b).
  Hypothesis hCall : forall b f l, Forall P l -> P (ECall b f l).
  Hypothesis hRel : forall c l r, P l -> P r -> P (ERel c l r).
  Hypothesis hPM : forall c p n, Forall PT p -> Forall PT n -> P (EPM c p n).
  Hypothesis hTD : forall t, PT t -> P (ETD t).
  Hypothesis hAnd : forall l, Forall P l -> P (EAnd l).
  Hypothesis hOr : forall l, Forall P l -> P (EOr l).
  Fixpoint expr_ind' (e : expr) : P e :=
    let many := fix go (l : list expr) : Forall P l :=
        match l with
        | [] => Forall_nil P
        | x :: xs => Forall_cons x (expr_ind' x) (go xs)
        end in
    let one (t : term_ expr) : PT t :=
        match t with T c p n => conj (many p) (many n) end in
    let terms := fix go (l : list (term_ expr)) : Forall PT l :=
        match l with
        | [] => Forall_nil PT
        | x :: xs => Forall_cons x (one x) (go xs)
        end in
    match e with
    | EConst c => hConst c
    | EName s => hName s
    | EPred s b => hPred s b
    | ECall b f l => hCall b f l (many l)
    | ERel c l r => hRel c l r (expr_ind' l) (expr_ind' r)
    | EPM c p n => hPM c p n (terms p) (terms n)
    | ETD t => hTD t (one t)
    | EAnd l => hAnd l (many l)
    | EOr l => hOr l (many l)
    end.
End ExprInd.

Section SrcInd.
  Variable P : src -> Prop.
  Hypothesis hLit : forall c, P (XLit c).
  Hypothesis hSet : forall l, Forall P l -> P (XSet l).
  Hypothesis hName : forall s, P (XName s).
  Hypothesis hCmp : forall l r, P l -> Forall P (map snd r) -> P (XCmp l r).
  Hypothesis hNot : forall a, P a -> P (XNot a).
  Hypothesis hAnd : forall l, Forall P l -> P (XAnd l).
  Hypothesis hOr : forall l, Forall P l -> P (XOr l).
  Hypothesis hNeg : forall a, P a -> P (XNeg a).
  Hypothesis hPos : forall a, P a -> P (XPos a).
  Hypothesis hBin : forall o a b, P a -> P b -> P (XBin o a b).
  Hypothesis hCall : forall f l, Forall P l -> P (XCall f l).
  Fixpoint src_ind' (s : src) : P s :=
    let many := fix go (l : list src) : Forall P l :=
        match l with
        | [] => Forall_nil P
        | x :: xs => Forall_cons x (src_ind' x) (go xs)
        end in
    match s with
    | XLit c => hLit c
    | XSet l => hSet l (many l)
    | XName s => hName s
    | XCmp l r =>
        hCmp l r (src_ind' l)
          ((fix go (l : list (cmpop * src)) : Forall P (map snd l) :=
              match l as l return Forall P (map snd l) with
              | [] => Forall_nil P
              | (o, a) :: xs => @Forall_cons _ P a (map snd xs) (src_ind' a) (go xs)
              end) r)
    | XNot a => hNot a (src_ind' a)
    | XAnd l => hAnd l (many l)
    | XOr l => hOr l (many l)
    | XNeg a => hNeg a (src_ind' a)
    | XPos a => hPos a (src_ind' a)
    | XBin o a b => hBin o a b (src_ind' a) (src_ind' b)
    | XCall f l => hCall f l (many l)
    end.
End SrcInd.

(** ** The encoding is injective, so [expr_same] is equality *)

Lemma nat_idx_inj a b : nat_idx a = nat_idx b -> a = b.
Proof. unfold nat_idx. intros H; injection H; lia. Qed.
Lemma bool_idx_inj a b : bool_idx a = bool_idx b -> a = b.
Proof. destruct a, b; auto; discriminate. Qed.
Lemma num_rose_inj a b : num_rose a = num_rose b -> a = b.
Proof. destruct a, b; simpl; congruence || discriminate. Qed.
Lemma scal_rose_inj a b : scal_rose a = scal_rose b -> a = b.
Proof.
  destruct a, b; simpl; intros H; try discriminate; auto; injection H; intros; subst; auto.
  - f_equal. apply num_rose_inj. auto.
  - f_equal. destruct b, b0; auto; discriminate.
Qed.
Lemma map_inj {A B} (f : A -> B) : (forall x y, f x = f y -> x = y) -> forall l m, map f l = map f m -> l = m.
Proof.
  intros Hf. induction l as [|x l IH]; intros [|y m]; simpl; try discriminate; auto.
  intros H; injection H as H1 H2. f_equal; auto.
Qed.
Lemma map_inj_Forall {A B} (f : A -> B) l :
  Forall (fun x => forall y, f x = f y -> x = y) l -> forall m, map f l = map f m -> l = m.
Proof.
  induction 1 as [|x l Hx Hl IH]; intros [|y m]; simpl; try discriminate; auto.
  intros H; injection H as H1 H2. f_equal; auto.
Qed.
Lemma cst_rose_inj a b : cst_rose a = cst_rose b -> a = b.
Proof.
  destruct a as [[]| |], b as [[]| |]; simpl; intros H; try discriminate; auto; injection H; intros; subst; auto.
  - do 2 f_equal. apply num_rose_inj. auto.
  - do 2 f_equal. destruct b, b0; auto; discriminate.
  - f_equal. eapply map_inj; [apply scal_rose_inj|auto].
  - f_equal. eapply map_inj; [apply num_rose_inj|auto].
Qed.
Lemma cmp_rose_inj a b : cmp_rose a = cmp_rose b -> a = b.
Proof. destruct a, b; auto; discriminate. Qed.

Definition term_rose (t : term_ expr) : rose :=
  match t with T c p n => RL [nat_idx 9; RQ c; RL (map rose_of p); RL (map rose_of n)] end.

Lemma term_rose_inj t u :
  PT (fun e => forall e', rose_of e = rose_of e' -> e = e') t -> term_rose t = term_rose u -> t = u.
Proof.
  destruct t as [c p n], u as [c' p' n']. intros [H1 H2] H. simpl in *.
  injection H as -> Hp Hn. f_equal; eapply map_inj_Forall; eauto.
Qed.

Lemma rose_of_inj e : forall e', rose_of e = rose_of e' -> e = e'.
Proof.
  induction e as [c|s|s b|b f l IH|c l r IHl IHr|c p n Hp Hn|t Ht|l IH|l IH] using expr_ind';
    intros [c'|s'|s' b'|b' f' l'|c' l' r'|c' p' n'|t'|l'|l'] H;
    try (destruct b); try (destruct b'); try (destruct t); try (destruct t'); simpl in H; try discriminate H.
  - injection H as H. f_equal. apply cst_rose_inj; auto.
  - congruence.
  - congruence.
  - congruence.
  - injection H as -> Hl. f_equal. eapply map_inj_Forall; eauto.
  - injection H as -> Hl. f_equal. eapply map_inj_Forall; eauto.
  - injection H as Hc Hl Hr. f_equal; auto. apply cmp_rose_inj; auto.
  - injection H as -> H1 H2.
    f_equal; (eapply (map_inj_Forall term_rose); [|eassumption]; eapply Forall_impl; [|eassumption];
              intros t Ht u; apply term_rose_inj; auto).
  - f_equal. apply term_rose_inj; auto.
  - injection H as Hl. f_equal. eapply map_inj_Forall; eauto.
  - injection H as Hl. f_equal. eapply map_inj_Forall; eauto.
Qed.

Lemma expr_same_eq a b : expr_same a b = true <-> a = b.
Proof.
  unfold expr_same. destruct (rcmp (rose_of a) (rose_of b)) eqn:E.
  - apply rcmp_eq, rose_of_inj in E. tauto.
  - split; [congruence|]. intros ->. rewrite (proj2 (rcmp_eq _ _)) in E; congruence.
  - split; [congruence|]. intros ->. rewrite (proj2 (rcmp_eq _ _)) in E; congruence.
Qed.
Lemma expr_same_refl a : expr_same a a = true.
Proof. apply expr_same_eq; auto. Qed.
Lemma expr_eq_dec (a b : expr) : {a = b} + {a <> b}.
Proof.
  destruct (expr_same a b) eqn:E; [left|right].
  - apply expr_same_eq; auto.
  - intros H. apply expr_same_eq in H. congruence.
Qed.
Lemma list_same_e_eq l : forall m, list_same_e l m = true <-> l = m.
Proof.
  induction l as [|x l IH]; intros [|y m]; simpl; try (split; congruence).
  rewrite Bool.andb_true_iff, expr_same_eq, IH. split; [intros [-> ->]; auto|intros H; injection H; auto].
Qed.
Lemma similar_eq a b : similar a b = true <-> tp a = tp b /\ tn a = tn b.
Proof. unfold similar. rewrite Bool.andb_true_iff, !list_same_e_eq. tauto. Qed.
Lemma memb_In x l : memb x l = true <-> In x l.
Proof.
  unfold memb. rewrite existsb_exists. split.
  - intros (y & Hy & E). apply expr_same_eq in E. subst; auto.
  - intros H. exists x. split; auto. apply expr_same_refl.
Qed.
Lemma dedup_In x l : In x (dedup l) <-> In x l.
Proof.
  induction l as [|y l IH]; simpl; [tauto|]. destruct (memb y l) eqn:E.
  - apply memb_In in E. rewrite IH. split; auto. intros [->|H]; auto.
  - simpl. rewrite IH. tauto.
Qed.
Lemma dedup_NoDup l : NoDup (dedup l).
Proof.
  induction l as [|y l IH]; simpl; [constructor|]. destruct (memb y l) eqn:E; auto.
  constructor; auto. rewrite dedup_In. intros H. apply memb_In in H. congruence.
Qed.
Lemma dedup_nil l : dedup l = [] <-> l = [].
Proof.
  split; [|intros ->; auto]. intros H. destruct l as [|x l]; auto.
  assert (In x (dedup (x :: l))) by (apply dedup_In; left; auto). rewrite H in H0. destruct H0.
Qed.

(** A sort that follows Python's order. *)
Lemma py_sorted_perm l : Permutation l (py_sorted l).
Proof. apply isort_perm. Qed.
Lemma py_sorted_canon l m : Permutation l m -> py_sorted l = py_sorted m.
Proof. apply isort_canon. intros x y H. apply rose_of_inj; auto. Qed.
Lemma tree_sorted_perm l : Permutation l (tree_sorted l).
Proof. apply isort_perm. Qed.

Lemma scal_dedup_In x l : In x (scal_dedup l) <-> In x l.
Proof.
  assert (M : forall y m, scal_mem y m = true <-> In y m).
  { intros y m. unfold scal_mem. rewrite existsb_exists. split.
    - intros (z & Hz & E). apply scal_same_eq in E. subst; auto.
    - intros H. exists y. split; auto. apply scal_same_eq; auto. }
  induction l as [|y l IH]; simpl; [tauto|]. destruct (scal_mem y l) eqn:E.
  - apply M in E. rewrite IH. split; auto. intros [->|H]; auto.
  - simpl. rewrite IH. tauto.
Qed.
Lemma scal_set_In l : exists m, scal_set l = KSet m /\ forall x, In x m <-> In x l.
Proof.
  eexists; split; [reflexivity|]. intros x. rewrite <- (scal_dedup_In x l).
  split; apply Permutation_in; [symmetry|]; apply isort_perm.
Qed.

(** ** Sorting terms *)
Section SortTerms.
  Variable srt : list expr -> list expr.
  Hypothesis srt_perm : forall l, Permutation l (srt l).

  Lemma un_td_map l : map un_td (map ETD l) = l.
  Proof. rewrite map_map. apply map_id. Qed.
  Lemma srt_t_perm l : Permutation l (srt_t srt l).
  Proof.
    unfold srt_t. rewrite <- (un_td_map l) at 1. apply Permutation_map, srt_perm.
  Qed.
  Lemma srt_In x l : In x (srt l) <-> In x l.
  Proof. split; apply Permutation_in; [symmetry|]; apply srt_perm. Qed.
  Hypothesis srt_canon : forall l m, Permutation l m -> srt l = srt m.
  Lemma srt_t_canon l m : Permutation l m -> srt_t srt l = srt_t srt m.
  Proof. intros H. unfold srt_t. f_equal. apply srt_canon, Permutation_map, H. Qed.
End SortTerms.

(** ** Nested fixpoints as [mapM] *)
Lemma bind_ok_iff {A B} (r : res A) (f : A -> res B) y : bind r f = Ok y <-> exists x, r = Ok x /\ f x = Ok y.
Proof.
  destruct r; simpl; split.
  - eauto.
  - intros (x & H & H'); injection H as ->; auto.
  - discriminate.
  - intros (x & H & _); discriminate.
Qed.
Lemma rmap_ok_iff {A B} (f : A -> B) (r : res A) y : rmap f r = Ok y <-> exists x, r = Ok x /\ y = f x.
Proof.
  destruct r; simpl; split.
  - intros H; injection H as <-; eauto.
  - intros (x & H & ->); injection H as ->; auto.
  - discriminate.
  - intros (x & H & _); discriminate.
Qed.
Lemma mapM_Forall2 {A B} (f : A -> res B) l : forall r, mapM f l = Ok r <-> Forall2 (fun x y => f x = Ok y) l r.
Proof.
  induction l as [|x l IH]; intros r; simpl.
  - split; [intros H; injection H as <-; auto|intros H; inversion H; auto].
  - split.
    + intros H. apply bind_ok_iff in H as (y & Hy & H). apply bind_ok_iff in H as (ys & Hys & H).
      injection H as <-. constructor; auto. apply IH; auto.
    + intros H. inversion H as [|? y ? ys Hy Hys]; subst. rewrite Hy. simpl.
      apply IH in Hys. rewrite Hys. auto.
Qed.

Section DenoteEq.
  Variable user : string -> list arg -> res val.
  Variable field : string -> res val.
  Notation denote := (denote user field).
  Notation seval := (seval user field).
  Notation reval := (reval user field).

  Lemma denote_many l :
    (fix go (l : list expr) : res (list arg) :=
        match l with
        | [] => Ok []
        | a :: l => do v <- denote a; do vs <- go l; Ok (v :: vs)
        end) l = mapM denote l.
  Proof. induction l as [|x l IH]; simpl; auto. rewrite IH. auto. Qed.

  Definition num_of (e : expr) : res Num := do a <- denote e; arg_num a.
  Definition term_num (t : term_ expr) : res Num :=
    do ps <- mapM num_of (tp t); do ns <- mapM num_of (tn t);
    Ok (ndiv (nmul (nprod ps) (Fin (tc t))) (nprod ns)).

  Lemma mapM_compose {A B C} (f : A -> res B) (g : B -> res C) l r :
    mapM (fun x => do y <- f x; g y) l = Ok r <-> (exists ys, mapM f l = Ok ys /\ mapM g ys = Ok r).
  Proof.
    rewrite mapM_Forall2. split.
    - induction 1 as [|x y l ys Hx Hl (zs & H1 & H2)]; [exists []; auto|].
      apply bind_ok_iff in Hx as (z & Hz & Hg). exists (z :: zs). simpl.
      rewrite Hz, H1. simpl. rewrite Hg, H2. auto.
    - intros (ys & H1 & H2). apply mapM_Forall2 in H1. apply mapM_Forall2 in H2. revert r H2.
      induction H1 as [|x y l ys Hx Hl IH]; intros r H2; inversion H2; subst; constructor;
        [rewrite Hx; auto|auto].
  Qed.

  Lemma denote_call b f l : denote (ECall b f l) = do vs <- mapM denote l; rmap AV (efun user f vs).
  Proof. simpl. rewrite denote_many. auto. Qed.
  Lemma denote_and l : denote (EAnd l) = do vs <- mapM denote l; do bs <- truths vs; Ok (AV (VBool (forallb (fun b => b) bs))).
  Proof. simpl. rewrite denote_many. auto. Qed.
  Lemma denote_or l : denote (EOr l) = do vs <- mapM denote l; do bs <- truths vs; Ok (AV (VBool (existsb (fun b => b) bs))).
  Proof. simpl. rewrite denote_many. auto. Qed.

  Definition term_num0 (t : term_ expr) : res Num :=
    do ps <- mapM denote (tp t); do ps <- mapM arg_num ps;
    do ns <- mapM denote (tn t); do ns <- mapM arg_num ns;
    Ok (ndiv (nmul (nprod ps) (Fin (tc t))) (nprod ns)).
  Lemma term_num0_iff t x : term_num0 t = Ok x <-> term_num t = Ok x.
  Proof.
    unfold term_num0, term_num, num_of. split.
    - intros H. apply bind_ok_iff in H as (ps & H1 & H). apply bind_ok_iff in H as (ps' & H2 & H).
      apply bind_ok_iff in H as (ns & H3 & H). apply bind_ok_iff in H as (ns' & H4 & H).
      rewrite (proj2 (mapM_compose _ _ _ _) (ex_intro _ ps (conj H1 H2))). simpl.
      rewrite (proj2 (mapM_compose _ _ _ _) (ex_intro _ ns (conj H3 H4))). simpl. auto.
    - intros H. apply bind_ok_iff in H as (ps & H1 & H). apply bind_ok_iff in H as (ns & H2 & H).
      apply mapM_compose in H1 as (ps' & H1 & H1'). apply mapM_compose in H2 as (ns' & H2 & H2').
      rewrite H1; simpl. rewrite H1'; simpl. rewrite H2; simpl. rewrite H2'; simpl. auto.
  Qed.
  Lemma denote_td t a : denote (ETD t) = Ok a <-> exists x, term_num t = Ok x /\ a = AV (VNum x).
  Proof.
    destruct t as [c p n]. simpl. rewrite !denote_many.
    split.
    - intros H. apply bind_ok_iff in H as (x & H & E). injection E as <-.
      exists x. split; auto. apply term_num0_iff. exact H.
    - intros (x & H & ->). apply term_num0_iff in H. unfold term_num0 in H. cbn [tc tp tn] in H.
      rewrite H. auto.
  Qed.
  Lemma denote_pm c p n a : denote (EPM c p n) = Ok a <->
    exists ps ns, mapM term_num p = Ok ps /\ mapM term_num n = Ok ns
      /\ a = AV (VNum (nsub (nadd (nsum ps) (Fin c)) (nsum ns))).
  Proof.
    simpl.
    assert (G : forall l, (fix go (l : list (term_ expr)) : res (list Num) :=
        match l with
        | [] => Ok []
        | a :: l => do v <- match a with
                      | T c p n =>
                          do ps <- (fix go (l : list expr) : res (list arg) :=
        match l with
        | [] => Ok []
        | a :: l => do v <- denote a; do vs <- go l; Ok (v :: vs)
        end) p; do ps <- mapM arg_num ps;
                          do ns <- (fix go (l : list expr) : res (list arg) :=
        match l with
        | [] => Ok []
        | a :: l => do v <- denote a; do vs <- go l; Ok (v :: vs)
        end) n; do ns <- mapM arg_num ns;
                          Ok (ndiv (nmul (nprod ps) (Fin c)) (nprod ns))
                      end; do vs <- go l; Ok (v :: vs)
        end) l = mapM term_num0 l).
    { induction l as [|[c' p' n'] l IH]; simpl; auto. rewrite IH, !denote_many. auto. }
    rewrite !G.
    assert (K : forall l r, mapM term_num0 l = Ok r <-> mapM term_num l = Ok r).
    { intros l r. rewrite !mapM_Forall2. split; induction 1; constructor; auto; apply term_num0_iff; auto. }
    split.
    - intros H. apply bind_ok_iff in H as (ps & H1 & H). apply bind_ok_iff in H as (ns & H2 & H).
      injection H as <-. exists ps, ns. rewrite <- !K. auto.
    - intros (ps & ns & H1 & H2 & ->). rewrite <- K in H1, H2. rewrite H1; simpl. rewrite H2. auto.
  Qed.

  Lemma reval_call f l : reval (TCall f l) = do vs <- mapM reval l; rmap AV (efun user f vs).
  Proof.
    simpl. f_equal. induction l as [|x l IH]; simpl; auto. rewrite IH. auto.
  Qed.

  Lemma seval_many l :
    (fix go (l : list src) : res (list arg) :=
        match l with
        | [] => Ok []
        | a :: l => do v <- seval a; do vs <- go l; Ok (v :: vs)
        end) l = mapM seval l.
  Proof. induction l as [|x l IH]; simpl; auto. rewrite IH. auto. Qed.
End DenoteEq.
