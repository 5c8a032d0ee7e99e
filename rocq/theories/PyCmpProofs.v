(** Proofs about how expressions compare. *)
From Coq Require Import String Permutation Sorted.
From Verif Require Import Num NumFacts Base Tree Order Expr ExprFacts Axis PyCmp PyCmpSpec.

Section NodeInd.
  Variable P : node -> Prop.
  Hypothesis h1 : forall v, P (NConst v).
  Hypothesis h2 : forall s, P (NName s).
  Hypothesis h3 : forall v, P (NBcast v).
  Hypothesis h4 : forall b f l, Forall P l -> P (NCall b f l).
  Hypothesis h5 : forall b c p n, Forall P p -> Forall P n -> P (NRing b c p n).
  Hypothesis h6 : forall b l, Forall P l -> P (NLogic b l).
  Hypothesis h7 : forall c l r, P l -> P r -> P (NRel c l r).
  Hypothesis h8 : forall s b, P (NPred s b).
  Fixpoint node_ind' (a : node) : P a :=
    let many := fix go (l : list node) : Forall P l :=
        match l with
        | [] => Forall_nil P
        | x :: xs => Forall_cons x (node_ind' x) (go xs)
        end in
    match a with
    | NConst v => h1 v
    | NName s => h2 s
    | NBcast v => h3 v
    | NCall b f l => h4 b f l (many l)
    | NRing b c p n => h5 b c p n (many p) (many n)
    | NLogic b l => h6 b l (many l)
    | NRel c l r => h7 c l r (node_ind' l) (node_ind' r)
    | NPred s b => h8 s b
    end.
End NodeInd.

(** ** [==] is an equivalence *)

Lemma flat_sym a b : flat_eqb a b = flat_eqb b a.
Proof.
  unfold flat_eqb. destruct (pv_num a) eqn:A, (pv_num b) eqn:B; auto using neqb_sym.
  destruct a, b; auto using String.eqb_sym.
Qed.
Lemma flat_trans a b c : flat_eqb a b = true -> flat_eqb b c = true -> flat_eqb a c = true.
Proof.
  unfold flat_eqb. destruct (pv_num a) eqn:A, (pv_num b) eqn:B, (pv_num c) eqn:C; try discriminate.
  - rewrite !neqb_iff. intros [-> H] [-> _]. auto.
  - destruct a, b; try discriminate; destruct c; try discriminate; auto.
    rewrite !String.eqb_eq. congruence.
Qed.
Lemma subset_trans l m k : subset l m = true -> subset m k = true -> subset l k = true.
Proof.
  unfold subset. rewrite !forallb_forall. intros H K x Hx. specialize (H x Hx).
  apply existsb_exists in H. destruct H as (y & Hy & E). specialize (K y Hy).
  apply existsb_exists in K. destruct K as (z & Hz & F). apply existsb_exists. exists z.
  split; auto. eapply flat_trans; eauto.
Qed.
Lemma pv_eqb_sym a b : pv_eqb a b = pv_eqb b a.
Proof. unfold pv_eqb. destruct a, b; auto using flat_sym. apply andb_comm. Qed.
Lemma pv_eqb_trans a b c : pv_eqb a b = true -> pv_eqb b c = true -> pv_eqb a c = true.
Proof.
  destruct a as [| | | | |l], b as [| | | | |m], c as [| | | | |k]; try exact (flat_trans _ _ _);
    try (cbn; discriminate).
  cbn [pv_eqb]. rewrite !andb_true_iff. intros [A B] [C D]. split; eapply subset_trans; eauto.
Qed.
Lemma scalar_refl v : scalar v -> flat_eqb v v = true.
Proof.
  intros [H N]. unfold flat_eqb. destruct (pv_num v) eqn:E; [apply neqb_refl; auto|].
  destruct v; try discriminate; auto using String.eqb_refl. exfalso. eapply H; eauto.
Qed.
Lemma subset_refl l : Forall scalar l -> subset l l = true.
Proof.
  intros H. unfold subset. apply forallb_forall. intros x Hx. apply existsb_exists. exists x. split; auto.
  apply scalar_refl. rewrite Forall_forall in H. auto.
Qed.
Lemma pv_eqb_refl v : real_value v -> pv_eqb v v = true.
Proof.
  intros [H|(l & -> & H & _)].
  - destruct v; try (apply scalar_refl in H; exact H). exfalso. eapply H; eauto.
  - cbn. rewrite subset_refl; auto.
Qed.
Lemma finite_real v : finite_number v -> scalar v.
Proof. intros (q & E). split; [intros l ->; discriminate|]. intros x F. rewrite E in F. injection F as <-. auto. Qed.

Lemma tuple_refl l : Forall (fun a => node_eqb a a = true) l -> tuple_eqb node_eqb l l = true.
Proof. induction 1; cbn; auto. rewrite H, IHForall. auto. Qed.
Lemma Forall_mp {A} (P R : A -> Prop) l : Forall (fun a => P a -> R a) l -> Forall P l -> Forall R l.
Proof. rewrite !Forall_forall. auto. Qed.
Lemma node_refl a : no_nan a -> node_eqb a a = true.
Proof.
  unfold no_nan. induction a as [v|s|v|b f l IH|b c p n IHp IHn|b l IH|c l r IHl IHr|s b] using node_ind'; intros H;
    inversion H; subst; cbn [node_eqb]; rewrite ?String.eqb_refl; cbn [andb]; auto using pv_eqb_refl.
  - apply tuple_refl. eapply Forall_mp; eauto.
  - rewrite pv_eqb_refl by (left; apply finite_real; auto).
    rewrite !tuple_refl by (eapply Forall_mp; eauto). auto.
  - apply tuple_refl. eapply Forall_mp; eauto.
  - rewrite IHl, IHr; auto.
  - apply Bool.eqb_reflx.
Qed.
Lemma tuple_sym l : Forall (fun a => forall b, node_eqb a b = node_eqb b a) l ->
  forall m, tuple_eqb node_eqb l m = tuple_eqb node_eqb m l.
Proof. induction 1; intros [|y m]; cbn; auto. rewrite H, IHForall. auto. Qed.
Lemma beqb_sym x y : Bool.eqb x y = Bool.eqb y x.
Proof. destruct x, y; auto. Qed.
Lemma node_sym a : forall b, node_eqb a b = node_eqb b a.
Proof.
  induction a as [v|s|v|b f l IH|b c p n IHp IHn|b l IH|c l r IHl IHr|s b] using node_ind'; intros d;
    destruct d as [v'|s'|v'|b' f' l'|b' c' p' n'|b' l'|c' l' r'|s' b']; cbn [node_eqb];
    rewrite ?andb_false_r; auto; rewrite (String.eqb_sym (class_name _)); f_equal.
  - apply pv_eqb_sym.
  - apply String.eqb_sym.
  - apply pv_eqb_sym.
  - rewrite String.eqb_sym, tuple_sym; auto.
  - rewrite pv_eqb_sym, (tuple_sym p), (tuple_sym n); auto.
  - apply tuple_sym; auto.
  - rewrite String.eqb_sym, IHl, IHr. auto.
  - rewrite String.eqb_sym, beqb_sym. auto.
Qed.
Lemma tuple_trans l : Forall (fun a => forall b c, node_eqb a b = true -> node_eqb b c = true -> node_eqb a c = true) l ->
  forall m k, tuple_eqb node_eqb l m = true -> tuple_eqb node_eqb m k = true -> tuple_eqb node_eqb l k = true.
Proof.
  induction 1; intros [|y m] [|z k]; cbn; auto; try discriminate.
  rewrite !andb_true_iff. intros [A B] [C D]. split; eauto.
Qed.
Lemma node_trans a : forall b c, node_eqb a b = true -> node_eqb b c = true -> node_eqb a c = true.
Proof.
  induction a as [v|s|v|b f l IH|b c p n IHp IHn|b l IH|c l r IHl IHr|s b] using node_ind'; intros d e;
    destruct d as [v'|s'|v'|b' f' l'|b' c' p' n'|b' l'|c' l' r'|s' b']; cbn [node_eqb]; rewrite ?andb_false_r; try discriminate;
    destruct e as [v2|s2|v2|b2 f2 l2|b2 c2 p2 n2|b2 l2|c2 l2 r2|s2 b2]; cbn [node_eqb]; rewrite ?andb_false_r; try discriminate;
    rewrite !andb_true_iff, ?String.eqb_eq.
  - intros [A B] [C D]. split; [congruence|]. eapply pv_eqb_trans; eauto.
  - intros [A B] [C D]. split; congruence.
  - intros [A B] [C D]. split; [congruence|]. eapply pv_eqb_trans; eauto.
  - intros (A & B & C) (D & E & F). repeat split; try congruence. eapply tuple_trans; eauto.
  - intros (A & (B & C) & D) (E & (F & G) & K). repeat split; try congruence; try (eapply tuple_trans; eauto).
    eapply pv_eqb_trans; eauto.
  - intros [A B] [C D]. split; [congruence|]. eapply tuple_trans; eauto.
  - intros (A & (B & C) & D) (E & (F & G) & K). repeat split; try congruence; eauto.
  - intros (A & B & C) (D & E & F). apply Bool.eqb_prop in C. apply Bool.eqb_prop in F. subst.
    repeat split; try congruence. apply Bool.eqb_reflx.
Qed.

(** ** The order, through an encoding into nested tuples *)

Definition nums_rose (v : pv) : list rose := match pv_num v with Some x => [num_rose x] | None => [] end.
Definition vrose (v : pv) : rose :=
  RL [RS (type_name v); RL (match v with VStr s => [RS s] | _ => nums_rose v end)].
Fixpoint nrose (a : node) : rose :=
  RL (RS (class_name a) ::
      match a with
      | NConst v | NBcast v => [vrose v]
      | NName s => [RS s]
      | NCall _ f l => [RS f; RL (map nrose l)]
      | NRing _ c p n => [RL (nums_rose c); RL (map nrose p); RL (map nrose n)]
      | NLogic _ l => [RL (map nrose l)]
      | NRel c l r => [RS c; nrose l; nrose r]
      | NPred s b => [RS s; bool_idx b]
      end).

(** What a three-way comparison says about [==] and [<]. *)
Definition tells (c : comparison) (eq : bool) (lt : res bool) : Prop :=
  match c with
  | Eq => eq = true /\ lt <> Ok true
  | Lt => eq = false /\ lt = Ok true
  | Gt => eq = false /\ lt = Ok false
  end.
Lemma tells_cons x y l m e f e' f' : tells (rcmp x y) e f -> tells (lcmp l m) e' f' ->
  tells (lcmp (x :: l) (y :: m)) (e && e') (if e then f' else f).
Proof. intros H K. cbn [lcmp]. destruct (rcmp x y); cbn in H; destruct H as [-> H]; cbn; auto. Qed.
Lemma tells_one x y e f : tells (rcmp x y) e f -> tells (lcmp [x] [y]) e f.
Proof. cbn [lcmp]. destruct (rcmp x y); auto. Qed.
Lemma tells_str s t : tells (String.compare s t) (String.eqb s t) (Ok (str_ltb s t)).
Proof.
  unfold str_ltb. destruct (String.compare s t) eqn:E; cbn.
  - apply scmp_eq in E. subst. rewrite String.eqb_refl. split; congruence.
  - split; auto. destruct (String.eqb_spec s t); auto. subst. rewrite (proj2 (scmp_eq t t)) in E by auto. congruence.
  - split; auto. destruct (String.eqb_spec s t); auto. subst. rewrite (proj2 (scmp_eq t t)) in E by auto. congruence.
Qed.
Lemma tells_num x y : isnan x = false -> isnan y = false ->
  tells (rcmp (num_rose x) (num_rose y)) (neqb x y) (Ok (nltb x y)).
Proof.
  destruct x as [p| | |], y as [q| | |]; try discriminate; intros _ _; cbn; try (split; congruence).
  destruct (qcmp p q) eqn:E; cbn.
  - apply qcmp_eq in E. subst. split.
    + pose proof (neqb_refl (Fin q) eq_refl). auto.
    + pose proof (nltb_irrefl (Fin q)) as H. cbn in H. rewrite H. congruence.
  - unfold qcmp, Qccompare in E. apply Qlt_alt in E. split.
    + apply qeqb_false. intros ->. revert E. apply Qlt_irrefl.
    + f_equal. apply qltb_iff. auto.
  - assert (F : qcmp q p = Lt) by (rewrite qcmp_opp, E; auto).
    unfold qcmp, Qccompare in F. apply Qlt_alt in F. split.
    + apply qeqb_false. intros ->. revert F. apply Qlt_irrefl.
    + f_equal. apply qltb_false. apply Qlt_le_weak. auto.
Qed.
Lemma tells_tuple T l : Forall (fun a => uniform T a -> forall b, uniform T b -> tells (rcmp (nrose a) (nrose b)) (node_eqb a b) (node_ltb a b)) l ->
  Forall (uniform T) l -> forall m, Forall (uniform T) m ->
  tells (lcmp (map nrose l) (map nrose m)) (tuple_eqb node_eqb l m) (tuple_ltb node_eqb node_ltb l m).
Proof.
  induction 1 as [|a l Ha _ IH]; intros Hl [|b m] Hm; try (cbn; split; congruence).
  inversion Hl; inversion Hm; subst. apply tells_cons; auto.
Qed.

Lemma tells_ext c c' e e' l l' : tells c e l -> c = c' -> e = e' -> l = l' -> tells c' e' l'.
Proof. intros; subst; auto. Qed.
Lemma rcmp_one x y : lcmp [x] [y] = rcmp x y.
Proof. cbn [lcmp]. destruct (rcmp x y); auto. Qed.
Lemma rcmp_typed t x y : rcmp (RL [RS t; RL [x]]) (RL [RS t; RL [y]]) = rcmp x y.
Proof.
  rewrite rcmp_list. cbn [lcmp]. rewrite (proj2 (rcmp_eq (RS t) _)) by auto. rewrite rcmp_list, rcmp_one.
  destruct (rcmp x y); auto.
Qed.

Lemma tells_const T u v : scalar_of T u -> scalar_of T v -> tells (rcmp (vrose u) (vrose v)) (pv_eqb u v) (const_ltb u v).
Proof.
  intros [->|[(s & ->)|(x & X & NX & TX)]] [->|[(t & ->)|(y & Y & NY & TY)]].
  - cbn. split; [auto|discriminate].
  - cbn. auto.
  - destruct v; try discriminate; cbn; auto.
  - cbn. auto.
  - unfold const_ltb, vrose. cbn [type_name pv_eqb flat_eqb pv_num pv_ltb]. rewrite String.eqb_refl.
    rewrite rcmp_typed. apply tells_str.
  - destruct v; try discriminate; cbn; auto.
  - destruct u; try discriminate; cbn; auto.
  - destruct u; try discriminate; cbn; auto.
  - assert (E : pv_eqb u v = neqb x y).
    { unfold pv_eqb, flat_eqb. rewrite X, Y. destruct u; try discriminate; auto. }
    assert (L : const_ltb u v = Ok (nltb x y)).
    { unfold const_ltb, pv_ltb. rewrite TX, TY, String.eqb_refl, X, Y. auto. }
    rewrite E, L. unfold vrose. rewrite TX, TY.
    assert (U : (match u with VStr s => [RS s] | _ => nums_rose u end) = [num_rose x])
      by (unfold nums_rose; rewrite X; destruct u; try discriminate; auto).
    assert (V : (match v with VStr s => [RS s] | _ => nums_rose v end) = [num_rose y])
      by (unfold nums_rose; rewrite Y; destruct v; try discriminate; auto).
    rewrite U, V, rcmp_typed. apply tells_num; auto.
Qed.
Lemma tells_ring c d : finite_number c -> finite_number d ->
  tells (lcmp (nums_rose c) (nums_rose d)) (pv_eqb c d) (pv_ltb c d).
Proof.
  intros (x & X) (y & Y).
  assert (E : pv_eqb c d = neqb (Fin x) (Fin y)).
  { unfold pv_eqb, flat_eqb. rewrite X, Y. destruct c; try discriminate; auto. }
  rewrite E. unfold pv_ltb, nums_rose. rewrite X, Y. rewrite rcmp_one. apply tells_num; auto.
Qed.

Lemma tells_bool p q : tells (rcmp (bool_idx p) (bool_idx q)) (Bool.eqb p q) (Ok (negb p && q)).
Proof. destruct p, q; cbn; split; congruence. Qed.

Lemma tells_class (a b : node) k m (e : bool) (l : res bool) :
  (class_name a = class_name b -> tells (lcmp k m) e l) ->
  tells (lcmp (RS (class_name a) :: k) (RS (class_name b) :: m))
    (String.eqb (class_name a) (class_name b) && e)
    (if String.eqb (class_name a) (class_name b) then l else Ok (str_ltb (class_name a) (class_name b))).
Proof.
  intros H. cbn [lcmp rcmp]. pose proof (tells_str (class_name a) (class_name b)) as S.
  destruct (String.compare (class_name a) (class_name b)) eqn:E.
  - apply scmp_eq in E. rewrite E, String.eqb_refl. apply H. auto.
  - destruct S as [-> S]. split; auto.
  - destruct S as [-> S]. split; auto.
Qed.

Lemma node_tells T a : uniform T a -> forall b, uniform T b -> tells (rcmp (nrose a) (nrose b)) (node_eqb a b) (node_ltb a b).
Proof.
  induction a as [v|s|v|b f l IH|b c p n IHp IHn|b l IH|c l r IHl IHr|s b] using node_ind'; intros Ha d Hd;
    destruct d as [v'|s'|v'|b' f' l'|b' c' p' n'|b' l'|c' l' r'|s' b'];
    cbn [nrose node_eqb node_ltb]; rewrite rcmp_list; apply tells_class; intros Hc;
    try (exfalso; cbn in Hc; repeat match type of Hc with context [if ?x then _ else _] => destruct x end; discriminate);
    inversion Ha; inversion Hd; subst.
  - apply tells_one. eapply tells_const; eauto.
  - apply tells_one. apply tells_str.
  - apply tells_one. eapply tells_const; eauto.
  - apply tells_cons; [apply tells_str|]. apply tells_one. rewrite rcmp_list. eapply tells_tuple; eauto.
  - rewrite <- andb_assoc. apply tells_cons; [rewrite rcmp_list; apply tells_ring; auto|].
    apply tells_cons; [|apply tells_one]; rewrite rcmp_list; eapply tells_tuple; eauto.
  - apply tells_one. rewrite rcmp_list. eapply tells_tuple; eauto.
  - rewrite <- andb_assoc. apply tells_cons; [apply tells_str|].
    apply tells_cons; auto. apply tells_one. specialize (IHr ltac:(auto) r' ltac:(auto)).
    destruct (rcmp (nrose r) (nrose r')); cbn in IHr |- *; destruct IHr as [E L]; rewrite E; auto.
    split; auto. discriminate.
  - eapply tells_ext; [apply (tells_cons (RS s) (RS s')); [apply (tells_str s s')|apply tells_one, (tells_bool b b')]|..]; auto.
Qed.

(** ** The order of Expr.v is Python's *)

Lemma rcmp_tagged i x y : rcmp (RL [nat_idx i; x]) (RL [nat_idx i; y]) = rcmp x y.
Proof. rewrite rcmp_list. cbn [lcmp]. rewrite (proj2 (rcmp_eq (nat_idx i) _)) by auto. destruct (rcmp x y); auto. Qed.

Lemma const_agrees T c d u v : stands_c c u -> stands_c d v -> scalar_of T u -> scalar_of T v ->
  rcmp (cst_rose c) (cst_rose d) = rcmp (vrose u) (vrose v).
Proof.
  intros Hc Hd U V.
  assert (K : forall w x, scalar_of T w -> pv_num w = Some x -> type_name w = T).
  { intros w x [->|[(s & ->)|(y & Y & _ & E)]] W; try discriminate. auto. }
  inversion Hc; subst; inversion Hd; subst; try reflexivity;
    try (exfalso; pose proof (K _ _ U eq_refl) as K1; pose proof (K _ _ V eq_refl) as K2; cbn in K1, K2; congruence).
  - destruct b, b0; reflexivity.
  - unfold vrose, nums_rose. cbn [cst_rose type_name pv_num]. rewrite rcmp_typed, rcmp_tagged. auto.
  - unfold vrose, nums_rose. cbn [cst_rose type_name pv_num]. rewrite rcmp_typed, rcmp_tagged. auto.
  - unfold vrose, nums_rose. cbn [cst_rose type_name pv_num]. rewrite rcmp_typed, rcmp_tagged. auto.
Qed.

Lemma list_agrees T m : Forall (fun n => uniform T n -> forall a b k, stands a n -> stands b k -> uniform T k ->
      rcmp (rose_of a) (rose_of b) = rcmp (nrose n) (nrose k)) m ->
  Forall (uniform T) m -> forall l l' m', Forall2 stands l m -> Forall2 stands l' m' -> Forall (uniform T) m' ->
  lcmp (map rose_of l) (map rose_of l') = lcmp (map nrose m) (map nrose m').
Proof.
  induction 1 as [|n m Hn _ IH]; intros Hu l l' m' S S' U'; inversion S; subst; inversion S'; subst; auto.
  inversion Hu; inversion U'; subst. cbn [map lcmp]. erewrite Hn by eauto. erewrite IH by eauto. auto.
Qed.
Lemma lcmp_cons x y l m : lcmp (x :: l) (y :: m) = match rcmp x y with Eq => lcmp l m | c => c end.
Proof. auto. Qed.
Lemma class_agrees (i j : nat) (s t : string) l m l' m' :
  rcmp (nat_idx i) (nat_idx j) = String.compare s t ->
  (s = t -> lcmp l m = lcmp l' m') ->
  rcmp (RL (nat_idx i :: l)) (RL (nat_idx j :: m)) = rcmp (RL (RS s :: l')) (RL (RS t :: m')).
Proof.
  intros H K. rewrite !rcmp_list, !lcmp_cons, H. cbn [rcmp].
  destruct (String.compare s t) eqn:E; auto. apply K, scmp_eq, E.
Qed.
Definition class_idx (a : node) : nat :=
  match a with
  | NCall true _ _ => 0 | NCall false _ _ => 1 | NConst _ => 2 | NLogic false _ => 3 | NLogic true _ => 4
  | NName _ => 5 | NRing false _ _ _ => 6 | NPred _ _ => 7 | NRel _ _ _ => 8 | NRing true _ _ _ => 9
  | NBcast _ => 0
  end.
Definition parts (e : expr) : list rose :=
  match e with
  | EConst c => [cst_rose c]
  | EName s => [RS s]
  | EPred s b => [RS s; bool_idx b]
  | ECall _ f l => [RS f; RL (map rose_of l)]
  | ERel c l r => [cmp_rose c; rose_of l; rose_of r]
  | EPM c p n => [RQ c; RL (map rose_of (map ETD p)); RL (map rose_of (map ETD n))]
  | ETD (T c p n) => [RQ c; RL (map rose_of p); RL (map rose_of n)]
  | EAnd l | EOr l => [RL (map rose_of l)]
  end.
Lemma rose_parts a n : stands a n -> rose_of a = RL (nat_idx (class_idx n) :: parts a).
Proof.
  intros H. inversion H; subst; cbn [class_idx]; try reflexivity.
  - destruct b; reflexivity.
  - cbn [rose_of parts]. rewrite !map_map. reflexivity.
Qed.
Definition nparts (a : node) : list rose :=
  match a with
  | NConst v | NBcast v => [vrose v]
  | NName s => [RS s]
  | NCall _ f l => [RS f; RL (map nrose l)]
  | NRing _ c p n => [RL (nums_rose c); RL (map nrose p); RL (map nrose n)]
  | NLogic _ l => [RL (map nrose l)]
  | NRel c l r => [RS c; nrose l; nrose r]
  | NPred s b => [RS s; bool_idx b]
  end.
Lemma nrose_parts a : nrose a = RL (RS (class_name a) :: nparts a).
Proof. destruct a; reflexivity. Qed.
Lemma idx_agrees a b : (forall v, a <> NBcast v) -> (forall v, b <> NBcast v) ->
  rcmp (nat_idx (class_idx a)) (nat_idx (class_idx b)) = String.compare (class_name a) (class_name b).
Proof.
  intros A B.
  destruct a as [v|s|v|[] f l|[] c p n|[] l|c l r|s x]; try (exfalso; eapply A; reflexivity);
  destruct b as [v'|s'|v'|[] f' l'|[] c' p' n'|[] l'|c' l' r'|s' x']; try (exfalso; eapply B; reflexivity);
  reflexivity.
Qed.
Lemma stands_bcast a n : stands a n -> forall v, n <> NBcast v.
Proof. intros H v E. subst. inversion H. Qed.
Lemma sign_agrees c d : rcmp (cmp_rose c) (cmp_rose d) = rcmp (RS (sign_text c)) (RS (sign_text d)).
Proof. destruct c, d; reflexivity. Qed.
Lemma number_agrees c d q r : pv_num c = Some (Fin q) -> pv_num d = Some (Fin r) ->
  rcmp (RQ q) (RQ r) = lcmp (nums_rose c) (nums_rose d).
Proof.
  intros E F. unfold nums_rose. rewrite E, F, rcmp_one. cbn [num_rose]. rewrite rcmp_tagged. auto.
Qed.

Lemma order_agrees T n : uniform T n -> forall a b k, stands a n -> stands b k -> uniform T k ->
  rcmp (rose_of a) (rose_of b) = rcmp (nrose n) (nrose k).
Proof.
  induction n as [v|s|v|x f l IH|x c p n IHp IHn|x l IH|c l r IHl IHr|s x] using node_ind'; intros Ha a b k Sa Sb Hk;
    rewrite (rose_parts _ _ Sa), (rose_parts _ _ Sb), !nrose_parts;
    (apply class_agrees; [apply idx_agrees; eapply stands_bcast; eauto|]); intros Hc;
    destruct k as [v'|s'|v'|x' f' l'|x' c' p' n'|x' l'|c' l' r'|s' x'];
    try (exfalso; cbn in Hc; repeat match type of Hc with context [if ?x then _ else _] => destruct x end; discriminate);
    inversion Ha; inversion Hk; subst; inversion Sa; subst; inversion Sb; subst; cbn [parts nparts];
    try (cbn in Hc; discriminate); try reflexivity.
  - rewrite !rcmp_one. eapply const_agrees; eauto.
  - rewrite !lcmp_cons, !rcmp_list. erewrite list_agrees by eauto. reflexivity.
  - rewrite !lcmp_cons, !rcmp_list. erewrite (list_agrees T p IHp ltac:(auto) _ _ p') by eauto.
    erewrite (list_agrees T n IHn ltac:(auto) _ _ n') by eauto. erewrite number_agrees by eauto. reflexivity.
  - rewrite !lcmp_cons, !rcmp_list. erewrite (list_agrees T p IHp ltac:(auto) _ _ p') by eauto.
    erewrite (list_agrees T n IHn ltac:(auto) _ _ n') by eauto. erewrite number_agrees by eauto. reflexivity.
  - rewrite !lcmp_cons, !rcmp_list. erewrite list_agrees by eauto. reflexivity.
  - rewrite !lcmp_cons, !rcmp_list. erewrite list_agrees by eauto. reflexivity.
  - rewrite !lcmp_cons, sign_agrees. erewrite IHl, IHr by eauto. reflexivity.
Qed.

(** ** Sorting *)

Lemma uniform_real T a : uniform T a -> no_nan a.
Proof.
  unfold uniform, no_nan. induction a as [v|s|v|b f l IH|b c p n IHp IHn|b l IH|c l r IHl IHr|s b] using node_ind'; intros H;
    inversion H; subst; constructor; auto; try (eapply Forall_mp; eauto).
  - left. destruct H1 as [->|[(s & ->)|(x & X & N & _)]]; (split; [intros; try discriminate|]); try (cbn; discriminate).
    + intros ->. discriminate.
    + intros y Y. congruence.
  - left. destruct H1 as [->|[(s & ->)|(x & X & N & _)]]; (split; [intros; try discriminate|]); try (cbn; discriminate).
    + intros ->. discriminate.
    + intros y Y. congruence.
Qed.
Lemma nrose_eq T a b : uniform T a -> uniform T b -> (node_eqb a b = true <-> nrose a = nrose b).
Proof.
  intros A B. pose proof (node_tells T a A b B) as H. rewrite <- rcmp_eq. destruct (rcmp (nrose a) (nrose b)); cbn in H;
    destruct H as [-> _]; split; congruence.
Qed.
Lemma nrose_lt T a b : uniform T a -> uniform T b -> (node_ltb a b = Ok true <-> rcmp (nrose a) (nrose b) = Lt).
Proof.
  intros A B. pose proof (node_tells T a A b B) as H. destruct (rcmp (nrose a) (nrose b)); cbn in H;
    destruct H as [_ H]; split; congruence.
Qed.

Definition id_rose (r : rose) : rose := r.
Lemma sorted_rose T l out : Forall (uniform T) l -> sorts_to l out -> StronglySorted (le id_rose) (map nrose out).
Proof.
  intros U [P S]. assert (V : Forall (uniform T) out) by (rewrite <- P; auto). clear P U.
  induction S as [|x out S IH F]; cbn [map]; constructor; inversion V; subst; auto.
  rewrite Forall_forall in F |- *. intros r Hr. apply in_map_iff in Hr. destruct Hr as (y & <- & Hy).
  unfold le, lower, id_rose. destruct (rcmp (nrose x) (nrose y)) eqn:E; auto.
  exfalso. apply (F y Hy). rewrite nrose_lt; eauto. rewrite rcmp_opp, E; auto.
  match goal with H : Forall _ _ |- _ => rewrite Forall_forall in H; apply H; auto end.
Qed.
Lemma eq_maps T l : forall m, Forall (uniform T) l -> Forall (uniform T) m ->
  (Forall2 (fun x y => node_eqb x y = true) l m <-> map nrose l = map nrose m).
Proof.
  induction l as [|x l IH]; intros [|y m] U V; cbn; split; intros H; auto; try discriminate; inversion H; subst;
    inversion U; inversion V; subst.
  - f_equal; [eapply nrose_eq; eauto|]. apply IH; auto.
  - constructor; [eapply nrose_eq; eauto|]. apply IH; auto.
Qed.
Lemma sorted_canonical T l m lo mo : Forall (uniform T) l -> Forall (uniform T) m ->
  same_items l m -> sorts_to l lo -> sorts_to m mo -> Forall2 (fun x y => node_eqb x y = true) lo mo.
Proof.
  intros U V (m' & P & E) Sl Sm.
  assert (V' : Forall (uniform T) m') by (rewrite <- P; auto).
  assert (UL : Forall (uniform T) lo) by (rewrite <- (proj1 Sl); auto).
  assert (UM : Forall (uniform T) mo) by (rewrite <- (proj1 Sm); auto).
  eapply eq_maps; eauto. apply (sorted_unique id_rose); auto.
  - exact (sorted_rose T l lo U Sl).
  - exact (sorted_rose T m mo V Sm).
  - apply (eq_maps T) in E; auto. rewrite <- (Permutation_map nrose (proj1 Sl)), E, <- (Permutation_map nrose P).
    apply Permutation_map. apply (proj1 Sm).
Qed.
Lemma isort_sorts T l : Forall (uniform T) l -> sorts_to l (isort nrose l).
Proof.
  intros U. split; [apply isort_perm|].
  assert (V : Forall (uniform T) (isort nrose l)) by (rewrite <- isort_perm; auto).
  pose proof (isort_sorted nrose l) as S. induction S as [|x out S IH F]; constructor; inversion V; subst; auto.
  rewrite Forall_forall in F, H2 |- *. intros y Hy L. specialize (F y Hy). apply (nrose_lt T) in L; auto.
  unfold le, lower in F. rewrite (rcmp_opp (nrose y) (nrose x)), L in F. discriminate.
Qed.

Lemma F2_flip {A B} (R : A -> B -> Prop) l m : Forall2 R l m -> Forall2 (fun b a => R a b) m l.
Proof. induction 1; constructor; auto. Qed.
Lemma F2_in_r {A B} (R : A -> B -> Prop) l m : Forall2 R l m -> forall b, In b m -> exists a, In a l /\ R a b.
Proof. induction 1; intros b []; subst; cbn; [eauto|]. destruct (IHForall2 b H1) as (a & ? & ?). eauto. Qed.
Lemma F2_perm {A B} (R : A -> B -> Prop) l l' : Permutation l l' -> forall m, Forall2 R l m -> exists m', Permutation m m' /\ Forall2 R l' m'.
Proof.
  induction 1; intros k F.
  - inversion F; subst. exists []. auto.
  - inversion F; subst. destruct (IHPermutation _ H4) as (m' & P & G). exists (y :: m'). auto.
  - inversion F as [|? ? ? ? A1 F1]; subst. inversion F1 as [|? ? ? ? A2 F2]; subst.
    exists (y1 :: y0 :: l'0). split; [apply perm_swap|]. auto.
  - destruct (IHPermutation1 _ F) as (m1 & P1 & F1). destruct (IHPermutation2 _ F1) as (m2 & P2 & F2).
    exists m2. split; auto. rewrite P1. auto.
Qed.
Lemma sorted_agrees T l ns out : Forall2 stands l ns -> Forall (uniform T) ns -> sorts_to ns out ->
  Forall2 stands (py_sorted l) out.
Proof.
  intros S U [P O].
  destruct (F2_perm _ _ _ P _ (F2_flip _ _ _ S)) as (l2 & P2 & S2).
  assert (V : Forall (uniform T) out) by (rewrite <- P; auto).
  replace (py_sorted l) with l2; [apply F2_flip in S2; exact S2|].
  apply (sorted_unique rose_of); [intros x y H; apply rose_of_inj; auto| |apply isort_sorted|].
  - clear - S2 V O. revert l2 S2. induction O as [|x out O IH F]; intros l2 S2; inversion S2; subst; constructor;
      inversion V; subst; auto.
    apply Forall_forall. intros b Hb.
    destruct (F2_in_r _ _ _ H3 b Hb) as (n & Hn & Sn).
    rewrite Forall_forall in F, H4. specialize (F n Hn). unfold le, lower.
    rewrite (order_agrees T x H2 _ _ n H1 Sn (H4 n Hn)).
    destruct (rcmp (nrose x) (nrose n)) eqn:E; auto. exfalso. apply F. apply (nrose_lt T); auto.
    rewrite rcmp_opp, E. auto.
  - rewrite <- P2. apply isort_perm.
Qed.

(** ** Hashes *)

Lemma HNum_inj x y : HNum x = HNum y -> x = y.
Proof. intros H. change x with (match HNum x with HNum x => x | _ => x end). rewrite H. reflexivity. Qed.
Lemma scalar_key a b : scalar a -> scalar b -> (flat_eqb a b = true <-> flat_key a = flat_key b).
Proof.
  intros [NA A] [NB B]. unfold flat_eqb.
  destruct a as [|x|x|x|x|x]; try (exfalso; eapply NA; reflexivity);
    destruct b as [|y|y|y|y|y]; try (exfalso; eapply NB; reflexivity); cbn [pv_num flat_key];
    rewrite ?neqb_iff, ?String.eqb_eq; try (split; congruence);
    (split; [intros [H _]; rewrite H; reflexivity|]); intros H; apply HNum_inj in H; (split; [exact H|]);
    try reflexivity; apply A; reflexivity.
Qed.
Lemma scalar_flat a : scalar a -> pv_key a = Ok (flat_key a).
Proof. intros [H _]. destruct a; auto. exfalso. eapply H. reflexivity. Qed.

Definition all_num (l : list hkey) : Prop := forall k, In k l -> exists x, k = HNum x.
Definition all_str (l : list hkey) : Prop := forall k, In k l -> exists x, k = HStr x.
Definition unnum (k : hkey) : Num := match k with HNum x => x | _ => NaN end.
Definition unstr (k : hkey) : string := match k with HStr x => x | _ => "" end.
Definition str_rose (s : string) : rose := RS s.

Lemma ins_perm x l s : ins x l = Ok s -> Permutation (x :: l) s.
Proof.
  revert s. induction l as [|y l IH]; intros s; cbn [ins].
  - intros H. injection H as <-. auto.
  - destruct (pv_ltb y x) as [[|]|e]; cbn [bind]; try discriminate.
    + destruct (ins x l) as [r|e] eqn:E; cbn [rmap]; try discriminate. intros H. injection H as <-.
      rewrite perm_swap. constructor. auto.
    + intros H. injection H as <-. auto.
Qed.
Lemma sorted_set_perm l : forall s, sorted_set l = Ok s -> Permutation l s.
Proof.
  induction l as [|x l IH]; intros s; cbn [sorted_set].
  - intros H. injection H as <-. auto.
  - destruct (sorted_set l) as [r|e]; cbn [bind]; try discriminate. intros H. apply ins_perm in H.
    rewrite <- H. constructor. auto.
Qed.
Lemma pv_ltb_err a b e : pv_ltb a b = Err e -> e = TypeError.
Proof. unfold pv_ltb. destruct (pv_num a), (pv_num b), a, b; congruence. Qed.
Lemma ins_err x l e : ins x l = Err e -> e = TypeError.
Proof.
  induction l as [|y l IH]; cbn [ins]; try discriminate.
  destruct (pv_ltb y x) as [[|]|e'] eqn:E; cbn [bind]; try discriminate.
  - destruct (ins x l); cbn [rmap]; [discriminate|]. intros H. injection H as <-. auto.
  - intros H. injection H as <-. eapply pv_ltb_err; eauto.
Qed.
Lemma sorted_set_err l e : sorted_set l = Err e -> e = TypeError.
Proof.
  induction l as [|x l IH]; cbn [sorted_set]; try discriminate.
  destruct (sorted_set l) as [r|e']; cbn [bind]; [apply ins_err|]. intros H. injection H as <-. auto.
Qed.

Lemma num_key v x : scalar v -> flat_key v = HNum x -> pv_num v = Some x /\ isnan x = false.
Proof. intros [N H] E. assert (F : pv_num v = Some x) by (destruct v; cbn in *; congruence). auto. Qed.
Lemma str_key v x : scalar v -> flat_key v = HStr x -> v = VStr x.
Proof. intros [N H] E. destruct v; cbn in *; congruence. Qed.

Lemma ins_num x s : scalar x -> Forall scalar s -> all_num (map flat_key (x :: s)) ->
  exists r, ins x s = Ok r /\ map (fun v => unnum (flat_key v)) r = insert num_rose (unnum (flat_key x)) (map (fun v => unnum (flat_key v)) s).
Proof.
  intros Hx Hs N. destruct (N (flat_key x) (or_introl eq_refl)) as (q & Q).
  induction Hs as [|y s Hy Hs IH]; cbn [ins map insert].
  - eexists. split; [reflexivity|]. auto.
  - destruct (N (flat_key y) (or_intror (or_introl eq_refl))) as (p & P).
    destruct (num_key _ _ Hx Q) as [X NX]. destruct (num_key _ _ Hy P) as [Y NY].
    unfold pv_ltb at 1. rewrite X, Y. cbn [bind]. rewrite Q, P. cbn [unnum]. unfold lower.
    pose proof (tells_num p q NY NX) as T. rewrite (rcmp_opp (num_rose p) (num_rose q)).
    assert (N' : all_num (map flat_key (x :: s))) by (intros k [K|K]; apply N; cbn; auto).
    destruct (IH N') as (r & R & M).
    destruct (rcmp (num_rose p) (num_rose q)); cbn [tells CompOpp] in *.
    + destruct T as [_ T]. destruct (nltb p q); [congruence|]. eexists. split; [reflexivity|]. cbn [map]. rewrite Q, P. auto.
    + destruct T as [_ T]. injection T as ->. rewrite R. cbn [rmap]. eexists. split; [reflexivity|]. cbn [map].
      rewrite P. cbn [unnum]. rewrite M, Q. auto.
    + destruct T as [_ T]. injection T as ->. eexists. split; [reflexivity|]. cbn [map]. rewrite Q, P. auto.
Qed.
Lemma ins_str x s : scalar x -> Forall scalar s -> all_str (map flat_key (x :: s)) ->
  exists r, ins x s = Ok r /\ map (fun v => unstr (flat_key v)) r = insert str_rose (unstr (flat_key x)) (map (fun v => unstr (flat_key v)) s).
Proof.
  intros Hx Hs N. destruct (N (flat_key x) (or_introl eq_refl)) as (q & Q).
  induction Hs as [|y s Hy Hs IH]; cbn [ins map insert].
  - eexists. split; [reflexivity|]. auto.
  - destruct (N (flat_key y) (or_intror (or_introl eq_refl))) as (p & P).
    pose proof (str_key _ _ Hx Q) as X. pose proof (str_key _ _ Hy P) as Y.
    unfold pv_ltb at 1. rewrite X, Y. cbn [pv_num bind flat_key unstr]. unfold lower, str_rose.
    pose proof (tells_str p q) as T. rewrite (rcmp_opp (RS p) (RS q)). cbn [rcmp].
    assert (N' : all_str (map flat_key (x :: s))) by (intros k [K|K]; apply N; cbn; auto).
    destruct (IH N') as (r & R & M). rewrite X in R, M.
    destruct (String.compare p q); cbn [tells CompOpp] in *.
    + destruct T as [_ T]. destruct (str_ltb p q); [congruence|]. eexists. split; [reflexivity|]. auto.
    + destruct T as [_ T]. injection T as ->. rewrite R. cbn [rmap]. eexists. split; [reflexivity|]. cbn [map].
      rewrite M. auto.
    + destruct T as [_ T]. injection T as ->. eexists. split; [reflexivity|]. auto.
Qed.
Lemma all_num_perm l m : Permutation l m -> all_num l -> all_num m.
Proof. intros P H k K. apply H. rewrite P. auto. Qed.
Lemma all_str_perm l m : Permutation l m -> all_str l -> all_str m.
Proof. intros P H k K. apply H. rewrite P. auto. Qed.
Lemma sorted_num l : Forall scalar l -> all_num (map flat_key l) ->
  exists s, sorted_set l = Ok s /\ map flat_key s = map HNum (isort num_rose (map unnum (map flat_key l))).
Proof.
  intros S N.
  assert (E : exists s, sorted_set l = Ok s /\ map (fun v => unnum (flat_key v)) s = isort num_rose (map unnum (map flat_key l))).
  { induction S as [|x l Hx Hl IH]; [exists []; auto|].
    destruct IH as (s & Es & Ms); [intros k K; apply N; cbn; auto|].
    pose proof (sorted_set_perm _ _ Es) as P.
    destruct (ins_num x s) as (r & R & M); auto; [rewrite <- P; auto|eapply all_num_perm; [|exact N]; cbn; constructor; apply Permutation_map; auto|].
    exists r. cbn [sorted_set]. rewrite Es. cbn [bind]. split; auto. rewrite M, Ms. auto. }
  destruct E as (s & Es & Ms). exists s. split; auto. rewrite <- Ms, map_map.
  pose proof (sorted_set_perm _ _ Es) as P. apply map_ext_in. intros v Hv.
  destruct (N (flat_key v)) as (x & ->); auto. apply in_map. rewrite P. auto.
Qed.
Lemma sorted_str l : Forall scalar l -> all_str (map flat_key l) ->
  exists s, sorted_set l = Ok s /\ map flat_key s = map HStr (isort str_rose (map unstr (map flat_key l))).
Proof.
  intros S N.
  assert (E : exists s, sorted_set l = Ok s /\ map (fun v => unstr (flat_key v)) s = isort str_rose (map unstr (map flat_key l))).
  { induction S as [|x l Hx Hl IH]; [exists []; auto|].
    destruct IH as (s & Es & Ms); [intros k K; apply N; cbn; auto|].
    pose proof (sorted_set_perm _ _ Es) as P.
    destruct (ins_str x s) as (r & R & M); auto; [rewrite <- P; auto|eapply all_str_perm; [|exact N]; cbn; constructor; apply Permutation_map; auto|].
    exists r. cbn [sorted_set]. rewrite Es. cbn [bind]. split; auto. rewrite M, Ms. auto. }
  destruct E as (s & Es & Ms). exists s. split; auto. rewrite <- Ms, map_map.
  pose proof (sorted_set_perm _ _ Es) as P. apply map_ext_in. intros v Hv.
  destruct (N (flat_key v)) as (x & ->); auto. apply in_map. rewrite P. auto.
Qed.

(** A set that can be sorted has one element or elements of one kind. *)
Lemma sorted_kinds l : Forall scalar l ->
  all_num (map flat_key l) \/ all_str (map flat_key l) \/ List.length l <= 1 \/ sorted_set l = Err TypeError.
Proof.
  induction 1 as [|x l Hx Hl IH]; [right; right; left; cbn; lia|].
  destruct (sorted_set l) as [s|e] eqn:E.
  2:{ right. right. right. cbn. rewrite E. cbn. rewrite (sorted_set_err _ _ E). auto. }
  pose proof (sorted_set_perm _ _ E) as P.
  destruct s as [|y s]. { apply Permutation_sym, Permutation_nil in P. subst. right. right. left. cbn. lia. }
  assert (Hy : scalar y) by (rewrite Forall_forall in Hl; apply Hl; rewrite P; left; auto).
  assert (C : forall e, pv_ltb y x = Err e -> sorted_set (x :: l) = Err TypeError).
  { intros e H. cbn. rewrite E. cbn. rewrite H. cbn. rewrite (pv_ltb_err _ _ _ H). auto. }
  assert (K : (exists p q, flat_key x = HNum p /\ flat_key y = HNum q) \/ (exists p q, flat_key x = HStr p /\ flat_key y = HStr q) \/
              pv_ltb y x = Err TypeError).
  { destruct Hx as [Nx Fx], Hy as [Ny Fy]. clear - Nx Ny.
    destruct x; try (exfalso; eapply Nx; reflexivity); destruct y; try (exfalso; eapply Ny; reflexivity); cbn;
      (right; right; reflexivity) || (left; do 2 eexists; split; reflexivity) || (right; left; do 2 eexists; split; reflexivity). }
  destruct K as [(p & q & A & B)|[(p & q & A & B)|K]]; [| |right; right; right; eapply C; eauto].
  - assert (Iy : In (HNum q) (map flat_key l)) by (rewrite <- B; apply in_map; rewrite P; left; auto).
    destruct IH as [N|[N|[N|N]]]; [| | |discriminate].
    + left. intros k [<-|H]; eauto.
    + destruct (N _ Iy). discriminate.
    + left. destruct l as [|z [|w l]]; cbn in N, Iy; try lia; try contradiction. destruct Iy as [Iy|[]].
      intros k [<-|[<-|[]]]; eauto.
  - assert (Iy : In (HStr q) (map flat_key l)) by (rewrite <- B; apply in_map; rewrite P; left; auto).
    destruct IH as [N|[N|[N|N]]]; [| | |discriminate].
    + destruct (N _ Iy). discriminate.
    + right. left. intros k [<-|H]; eauto.
    + right. left. destruct l as [|z [|w l]]; cbn in N, Iy; try lia; try contradiction. destruct Iy as [Iy|[]].
      intros k [<-|[<-|[]]]; eauto.
Qed.

Lemma str_rose_inj a b : str_rose a = str_rose b -> a = b.
Proof. unfold str_rose. congruence. Qed.
Definition set_key (l : list pv) : res (list hkey) := rmap (map flat_key) (sorted_set l).
Lemma set_key_perm l m : Forall scalar l -> Forall scalar m -> Permutation (map flat_key l) (map flat_key m) -> set_key l = set_key m.
Proof.
  assert (S1 : forall l, List.length l <= 1 -> set_key l = Ok (map flat_key l)).
  { intros [|x [|y k]] H; cbn in *; try lia; auto. }
  assert (G : forall l m, Forall scalar l -> Forall scalar m -> Permutation (map flat_key l) (map flat_key m) ->
     all_num (map flat_key l) \/ all_str (map flat_key l) \/ List.length l <= 1 -> set_key l = set_key m).
  { clear l m. intros l m Hl Hm P [N|[N|N]].
    - destruct (sorted_num l Hl N) as (s & E & M). destruct (sorted_num m Hm (all_num_perm _ _ P N)) as (t & F & M').
      unfold set_key. rewrite E, F. cbn [rmap]. rewrite M, M'. f_equal. f_equal.
      apply isort_canon; [exact num_rose_inj|]. apply Permutation_map. auto.
    - destruct (sorted_str l Hl N) as (s & E & M). destruct (sorted_str m Hm (all_str_perm _ _ P N)) as (t & F & M').
      unfold set_key. rewrite E, F. cbn [rmap]. rewrite M, M'. f_equal. f_equal.
      apply isort_canon; [exact str_rose_inj|]. apply Permutation_map. auto.
    - assert (N' : List.length m <= 1) by (apply Permutation_length in P; rewrite !map_length in P; lia).
      rewrite !S1 by auto. f_equal. destruct l as [|x [|y l]]; cbn in N; try lia; cbn in P.
      + apply Permutation_nil in P. auto.
      + apply Permutation_length_1_inv in P. auto. }
  intros Hl Hm P. destruct (sorted_kinds l Hl) as [N|[N|[N|N]]]; auto.
  destruct (sorted_kinds m Hm) as [M|[M|[M|M]]]; try (symmetry; apply G; auto; apply Permutation_sym; auto).
  unfold set_key. rewrite N, M. auto.
Qed.
Lemma keys_nodup l : Forall scalar l -> ForallOrdPairs (fun a b => pv_eqb a b = false) l -> NoDup (map flat_key l).
Proof.
  intros S F. induction F as [|x l Hx F IH]; cbn; constructor; inversion S; subst; auto.
  intros I. apply in_map_iff in I. destruct I as (y & E & Hy). rewrite Forall_forall in Hx, H2.
  specialize (Hx y Hy). assert (pv_eqb x y = flat_eqb x y) as W.
  { destruct H1 as [N _]. destruct x; auto. exfalso. eapply N. reflexivity. }
  rewrite W in Hx. symmetry in E. apply scalar_key in E; auto. congruence.
Qed.
Lemma subset_incl l m : Forall scalar l -> Forall scalar m -> subset l m = true -> incl (map flat_key l) (map flat_key m).
Proof.
  intros L M S k K. apply in_map_iff in K. destruct K as (x & <- & Hx). unfold subset in S. rewrite forallb_forall in S.
  specialize (S x Hx). apply existsb_exists in S. destruct S as (y & Hy & E). rewrite Forall_forall in L, M.
  apply scalar_key in E; auto. rewrite E. apply in_map. auto.
Qed.
Lemma pv_key_eq a b : real_value a -> real_value b -> pv_eqb a b = true -> pv_key a = pv_key b.
Proof.
  intros [A|(l & -> & L & DL)] [B|(m & -> & M & DM)] E.
  - rewrite !scalar_flat by auto. f_equal. apply scalar_key; auto. destruct A as [N _].
    destruct a; auto. exfalso. eapply N. reflexivity.
  - exfalso. destruct A as [N _]. destruct a; try discriminate. eapply N. reflexivity.
  - exfalso. destruct B as [N _]. destruct b; try discriminate. eapply N. reflexivity.
  - cbn [pv_eqb] in E. apply andb_true_iff in E. destruct E as [E F].
    assert (P : Permutation (map flat_key l) (map flat_key m)).
    { apply NoDup_Permutation; try (apply keys_nodup; auto). intros k. split; apply subset_incl; auto. }
    pose proof (set_key_perm l m L M P) as S. unfold set_key in S. cbn [pv_key].
    destruct (sorted_set l), (sorted_set m); cbn in *; congruence.
Qed.
Lemma tuple_keys_eq l : Forall (fun a => no_nan a -> forall b, no_nan b -> node_eqb a b = true -> node_key a = node_key b) l ->
  Forall no_nan l -> forall m, Forall no_nan m -> tuple_eqb node_eqb l m = true -> tuple_keys node_key l = tuple_keys node_key m.
Proof.
  induction 1 as [|a l Ha _ IH]; intros L [|b m] M E; cbn in E; try discriminate; auto.
  apply andb_true_iff in E. destruct E as [E F]. inversion L; inversion M; subst. cbn [tuple_keys].
  rewrite (Ha ltac:(auto) b ltac:(auto) E), (IH ltac:(auto) m ltac:(auto) F). auto.
Qed.
Lemma node_key_eq a : no_nan a -> forall b, no_nan b -> node_eqb a b = true -> node_key a = node_key b.
Proof.
  induction a as [v|s|v|x f l IH|x c p n IHp IHn|x l IH|c l r IHl IHr|s x] using node_ind'; intros Ha d Hd E;
    destruct d as [v'|s'|v'|x' f' l'|x' c' p' n'|x' l'|c' l' r'|s' x']; cbn [node_eqb] in E;
    rewrite ?andb_false_r in E; try discriminate;
    apply andb_true_iff in E; destruct E as [Ec E]; apply String.eqb_eq in Ec;
    inversion Ha; inversion Hd; subst; cbn [node_key].
  - rewrite (pv_key_eq v v'); auto.
  - apply String.eqb_eq in E. congruence.
  - rewrite (pv_key_eq v v'); auto.
  - apply andb_true_iff in E. destruct E as [E F]. apply String.eqb_eq in E. subst.
    rewrite (tuple_keys_eq l IH ltac:(auto) l' ltac:(auto) F). auto.
  - rewrite !andb_true_iff in E. destruct E as [[E F] G].
    rewrite (tuple_keys_eq p IHp ltac:(auto) p' ltac:(auto) F), (tuple_keys_eq n IHn ltac:(auto) n' ltac:(auto) G), Ec.
    replace (flat_key c') with (flat_key c); auto. apply scalar_key; try (apply finite_real; auto).
    destruct c; auto. match goal with H : finite_number (VSet _) |- _ => destruct H; discriminate end.
  - rewrite (tuple_keys_eq l IH ltac:(auto) l' ltac:(auto) E), Ec. auto.
  - rewrite !andb_true_iff in E. destruct E as [[E F] G]. apply String.eqb_eq in E. subst.
    rewrite (IHl ltac:(auto) l' ltac:(auto) F), (IHr ltac:(auto) r' ltac:(auto) G). auto.
  - apply andb_true_iff in E. destruct E as [E F]. apply String.eqb_eq in E. apply Bool.eqb_prop in F. subst. auto.
Qed.

(** ** Call trees *)

Definition tparts (t : tree) : list rose :=
  match t with
  | TConst c | TBcast c => [cst_rose c]
  | TName s => [RS s]
  | TPred s b => [RS s; bool_idx b]
  | TCall f l => [RS f; RL (map tree_rose l)]
  end.
Lemma tree_parts a n : stands_tree a n -> tree_rose a = RL (nat_idx (class_idx n) :: tparts a).
Proof. intros H. inversion H; subst; reflexivity. Qed.
Lemma tree_idx a b x y : stands_tree a x -> stands_tree b y ->
  rcmp (nat_idx (class_idx x)) (nat_idx (class_idx y)) = String.compare (class_name x) (class_name y).
Proof. intros A B. inversion A; subst; inversion B; subst; reflexivity. Qed.
Lemma tree_list_agrees T m : Forall (fun n => uniform T n -> forall a b k, stands_tree a n -> stands_tree b k -> uniform T k ->
      rcmp (tree_rose a) (tree_rose b) = rcmp (nrose n) (nrose k)) m ->
  Forall (uniform T) m -> forall l l' m', Forall2 stands_tree l m -> Forall2 stands_tree l' m' -> Forall (uniform T) m' ->
  lcmp (map tree_rose l) (map tree_rose l') = lcmp (map nrose m) (map nrose m').
Proof.
  induction 1 as [|n m Hn _ IH]; intros Hu l l' m' S S' U'; inversion S; subst; inversion S'; subst; auto.
  inversion Hu; inversion U'; subst. cbn [map lcmp]. erewrite Hn by eauto. erewrite IH by eauto. auto.
Qed.
Lemma tree_order_agrees T n : uniform T n -> forall a b k, stands_tree a n -> stands_tree b k -> uniform T k ->
  rcmp (tree_rose a) (tree_rose b) = rcmp (nrose n) (nrose k).
Proof.
  induction n as [v|s|v|x f l IH|x c p n IHp IHn|x l IH|c l r IHl IHr|s x] using node_ind'; intros Ha a b k Sa Sb Hk;
    rewrite (tree_parts _ _ Sa), (tree_parts _ _ Sb), !nrose_parts;
    (apply class_agrees; [eapply tree_idx; eauto|]); intros Hc;
    destruct k as [v'|s'|v'|x' f' l'|x' c' p' n'|x' l'|c' l' r'|s' x'];
    try (exfalso; cbn in Hc; repeat match type of Hc with context [if ?x then _ else _] => destruct x end; discriminate);
    inversion Ha; inversion Hk; subst; inversion Sa; subst; inversion Sb; subst; cbn [tparts nparts];
    try (cbn in Hc; discriminate); try reflexivity.
  - rewrite !rcmp_one. eapply const_agrees; eauto.
  - rewrite !rcmp_one. eapply const_agrees; eauto.
  - rewrite !lcmp_cons, !rcmp_list. erewrite tree_list_agrees by eauto. reflexivity.
Qed.
Lemma tree_rose_inj a : forall b, tree_rose a = tree_rose b -> a = b.
Proof.
  induction a as [c|s|s x|c|f l IH] using tree_ind'; intros b H; destruct b as [d|t|t y|d|g m]; cbn in H; try discriminate.
  - injection H as H. apply cst_rose_inj in H. congruence.
  - congruence.
  - injection H as -> H. destruct x, y; try reflexivity; discriminate.
  - injection H as H. apply cst_rose_inj in H. congruence.
  - injection H as -> H. f_equal. revert m H. induction IH as [|a l Ha _ IHl]; intros [|b m] H; try discriminate; auto.
    cbn in H. injection H as H K. f_equal; auto.
Qed.
Lemma tree_sorted_agrees T l ns out : Forall2 stands_tree l ns -> Forall (uniform T) ns -> sorts_to ns out ->
  Forall2 stands_tree (tree_sorted l) out.
Proof.
  intros S U [P O].
  destruct (F2_perm _ _ _ P _ (F2_flip _ _ _ S)) as (l2 & P2 & S2).
  assert (V : Forall (uniform T) out) by (rewrite <- P; auto).
  replace (tree_sorted l) with l2; [apply F2_flip in S2; exact S2|].
  apply (sorted_unique tree_rose); [intros x y H; apply tree_rose_inj; auto| |apply isort_sorted|].
  - clear - S2 V O. revert l2 S2. induction O as [|x out O IH F]; intros l2 S2; inversion S2; subst; constructor;
      inversion V; subst; auto.
    apply Forall_forall. intros b Hb.
    destruct (F2_in_r _ _ _ H3 b Hb) as (n & Hn & Sn).
    rewrite Forall_forall in F, H4. specialize (F n Hn). unfold le, lower.
    rewrite (tree_order_agrees T x H2 _ _ n H1 Sn (H4 n Hn)).
    destruct (rcmp (nrose x) (nrose n)) eqn:E; auto. exfalso. apply F. apply (nrose_lt T); auto.
    rewrite rcmp_opp, E. auto.
  - rewrite <- P2. apply isort_perm.
Qed.

(** ** Sets that cannot be hashed *)
Lemma mixed_set l x y e : Forall scalar l -> In x l -> In y l -> flat_eqb x y = false -> pv_ltb x y = Err e -> sorted_set l = Err TypeError.
Proof.
  intros S X Y D E. destruct (sorted_kinds l S) as [N|[N|[N|N]]]; auto; exfalso.
  - rewrite Forall_forall in S. destruct (N _ (in_map _ _ _ X)) as (p & P), (N _ (in_map _ _ _ Y)) as (q & Q).
    apply num_key in P; auto. apply num_key in Q; auto. unfold pv_ltb in E. rewrite (proj1 P), (proj1 Q) in E. discriminate.
  - rewrite Forall_forall in S. destruct (N _ (in_map _ _ _ X)) as (p & P), (N _ (in_map _ _ _ Y)) as (q & Q).
    apply str_key in P; auto. apply str_key in Q; auto. subst. discriminate.
  - destruct l as [|z [|w l]]; cbn in N, X, Y; try lia; try contradiction. destruct X as [<-|[]], Y as [<-|[]].
    inversion S; subst. rewrite scalar_refl in D; auto. discriminate.
Qed.

(** ** Axes *)
Lemma nums_key a : forall b, nums_eqb a b = true -> map HNum a = map HNum b.
Proof.
  induction a as [|x a IH]; intros [|y b] H; cbn in H; try discriminate; auto.
  apply andb_true_iff in H. destruct H as [H K]. apply neqb_eq in H. cbn. f_equal; [congruence|auto].
Qed.
Lemma axis_key_eq a b : axis_eqb a b = true -> axis_key a = axis_key b.
Proof.
  destruct a, b; cbn [axis_eqb]; try discriminate; rewrite ?andb_true_iff, ?String.eqb_eq, ?Z.eqb_eq, ?Nat.eqb_eq; intros H;
    repeat match goal with H : _ /\ _ |- _ => destruct H end;
    repeat match goal with
           | H : neqb _ _ = true |- _ => apply neqb_eq in H
           | H : Bool.eqb _ _ = true |- _ => apply Bool.eqb_prop in H
           | H : nums_eqb _ _ = true |- _ => apply nums_key in H
           end; subst; try reflexivity.
  unfold axis_key. match goal with H : map HNum _ = _ |- _ => rewrite H end. reflexivity.
Qed.
