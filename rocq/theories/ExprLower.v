(** Lowering to function calls keeps the value: proofs for C20. *)
From Coq Require Import String Permutation.
From Verif Require Import Num NumFacts Base Tree Elem Order Expr ExprSpec ExprFacts.

(** ** Multiplication of numbers is a commutative monoid *)
Lemma ninf_sign_mul x y :
  ninf_sign (x * y)%Qc = match ninf_sign x with
                         | PInf => ninf_sign y
                         | NInf => nneg (ninf_sign y)
                         | _ => NaN
                         end.
Proof.
  destruct (ninf_sign_cases x) as [[H1 E1]|[[H1 E1]|[H1 E1]]]; rewrite E1;
    destruct (ninf_sign_cases y) as [[H2 E2]|[[H2 E2]|[H2 E2]]]; rewrite ?E2;
    destruct (ninf_sign_cases (x * y)%Qc) as [[H3 ->]|[[H3 ->]|[H3 ->]]]; auto; exfalso; clear E1 E2;
    try (apply Qc_ext_iff in H1); try (apply Qc_ext_iff in H2); try (apply Qc_ext_iff in H3); qc_push; nra.
Qed.
Lemma nmul_assoc a b c : nmul a (nmul b c) = nmul (nmul a b) c.
Proof.
  destruct a as [x| | |], b as [y| | |], c as [z| | |]; cbn [nmul nneg]; auto;
    try (rewrite Qcmult_assoc; auto; fail);
    rewrite ?ninf_sign_mul;
    repeat match goal with
           | |- context [ninf_sign ?q] => destruct (ninf_sign_cases q) as [[? ->]|[[? ->]|[? ->]]]
           end; cbn [nmul nneg]; rewrite ?ninf_sign_mul; auto;
    repeat match goal with
           | |- context [ninf_sign ?q] => destruct (ninf_sign_cases q) as [[? ->]|[[? ->]|[? ->]]]
           end; auto; try (exfalso; subst; qc_push; lra).
Qed.

Lemma ndiv_1_r x : ndiv x none1 = x.
Proof.
  destruct x as [q| | |]; auto. unfold ndiv, none1, nz. simpl. f_equal. apply Qc_ext. qc_push. field.
Qed.

(** ** Equal arguments *)
Lemma same_arg_refl a : same_arg a a.
Proof. left; auto. Qed.
Lemma same_arg_sym a b : same_arg a b -> same_arg b a.
Proof.
  intros [->|[(v & H1 & H2)|(l & m & -> & -> & H)]]; [left; auto|right; left; eauto|].
  right; right. exists m, l. repeat split; auto; apply H.
Qed.
Lemma same_arg_val a b : same_arg a b -> arg_val a = arg_val b.
Proof. intros [->|[(v & H1 & H2)|(l & m & -> & -> & H)]]; congruence || auto. Qed.
Lemma same_arg_trans a b c : same_arg a b -> same_arg b c -> same_arg a c.
Proof.
  intros H1 H2. pose proof (same_arg_val _ _ H1) as E1. pose proof (same_arg_val _ _ H2) as E2.
  destruct H1 as [->|[(v & V1 & V2)|(l & m & -> & -> & H)]]; auto.
  - right; left. exists v. split; congruence.
  - destruct H2 as [<-|[(v & V1 & V2)|(l' & m' & E & -> & H')]].
    + right; right. exists l, m. auto.
    + discriminate.
    + injection E as <-. right; right. exists l, m'. repeat split; auto; intros K.
      * apply H', H; auto.
      * apply H, H'; auto.
Qed.
Lemma same_arg_num a b : same_arg a b -> arg_num a = arg_num b.
Proof. intros H. unfold arg_num. rewrite (same_arg_val a b H). auto. Qed.
Lemma same_arg_truth a b : same_arg a b -> arg_truth a = arg_truth b.
Proof. intros H. unfold arg_truth. rewrite (same_arg_val a b H). auto. Qed.
Lemma existsb_same {A} (f : A -> bool) l m : (forall s, In s l <-> In s m) -> existsb f l = existsb f m.
Proof.
  intros H. destruct (existsb f l) eqn:E1, (existsb f m) eqn:E2; auto.
  - apply existsb_exists in E1 as (x & Hx & E). assert (existsb f m = true); [|congruence].
    apply existsb_exists. exists x. split; auto. apply H; auto.
  - apply existsb_exists in E2 as (x & Hx & E). assert (existsb f l = true); [|congruence].
    apply existsb_exists. exists x. split; auto. apply H; auto.
Qed.
Definition as_set (a : arg) : option (list scal) := match a with AC (KSet l) => Some l | _ => None end.
Lemma same_arg_set a b : same_arg a b ->
  match as_set a, as_set b with
  | Some l, Some m => forall s, In s l <-> In s m
  | None, None => True
  | _, _ => False
  end.
Proof.
  intros [->|[(v & H1 & H2)|(l & m & -> & -> & H)]]; simpl.
  - destruct (as_set b); tauto.
  - destruct a as [[]|], b as [[]|]; simpl in *; auto; discriminate.
  - auto.
Qed.

Section Lower.
  Variable user : string -> list arg -> res val.
  Hypothesis Hb : broadcasts user.
  Variable field : string -> res val.
  Notation denote := (denote user field).
  Notation reval := (reval user field).

  Lemma isin_match (x y : arg) (k : list scal -> res val) :
    match x with AC (KSet l) => k l | _ => @Err val TypeError end
    = match as_set x with Some l => k l | None => Err TypeError end.
  Proof. destruct x as [[]|]; auto. Qed.

  Lemma efun_same f l m : Forall2 same_arg l m -> efun user f l = efun user f m.
  Proof.
    intros H. unfold efun.
    assert (N : forall g, (match l with [a; b] => num2 g a b | _ => @Err val TypeError end)
                     = match m with [a; b] => num2 g a b | _ => Err TypeError end).
    { intros g. destruct H as [|a b l m Ha [|a' b' l' m' Ha' [|]]]; auto.
      unfold num2. rewrite (same_arg_num _ _ Ha), (same_arg_num _ _ Ha'). auto. }
    assert (C : forall g, (match l with [a; b] => cmp2 g a b | _ => @Err val TypeError end)
                     = match m with [a; b] => cmp2 g a b | _ => Err TypeError end).
    { intros g. destruct H as [|a b l m Ha [|a' b' l' m' Ha' [|]]]; auto.
      unfold cmp2. rewrite (same_arg_val _ _ Ha), (same_arg_val _ _ Ha'). auto. }
    assert (B : forall g, (match l with [a; b] => bool2 g a b | _ => @Err val TypeError end)
                     = match m with [a; b] => bool2 g a b | _ => Err TypeError end).
    { intros g. destruct H as [|a b l m Ha [|a' b' l' m' Ha' [|]]]; auto.
      unfold bool2. rewrite (same_arg_truth _ _ Ha), (same_arg_truth _ _ Ha'). auto. }
    rewrite !N, !C, !B.
    repeat (match goal with |- (if ?b then _ else _) = _ => destruct b; [auto|] end; auto).
    - destruct H as [|a b l m Ha [|a' b' l' m' Ha' [|]]]; auto.
      + rewrite (isin_match a' a'), (isin_match b' b').
        pose proof (same_arg_set _ _ Ha') as S. destruct (as_set a'), (as_set b'); try tauto.
        rewrite (same_arg_val _ _ Ha). destruct (arg_val b); simpl; auto.
        do 2 f_equal. apply existsb_same; auto.
      + destruct a' as [[]|], b' as [[]|]; auto.
    - destruct H as [|a b l m Ha [|]]; auto. rewrite (same_arg_truth _ _ Ha). auto.
    - destruct H as [|a b l m Ha [|a' b' l' m' Ha' [|a'' b'' l'' m'' Ha'' [|]]]]; auto.
      rewrite (same_arg_truth _ _ Ha), (same_arg_val _ _ Ha'), (same_arg_val _ _ Ha''). auto.
  Qed.

  (** ** Balanced and grouped reduction *)
  Section Monoid.
    Variables (V : Type) (proj : arg -> res V) (inj : V -> val) (op : V -> V -> V) (unit : V) (f : string).
    Hypothesis proj_inj : forall v, proj (AV (inj v)) = Ok v.
    Hypothesis eval_op : forall a b x y, proj a = Ok x -> proj b = Ok y -> efun user f [a; b] = Ok (inj (op x y)).
    Hypothesis op_assoc : forall a b c, op a (op b c) = op (op a b) c.
    Hypothesis op_comm : forall a b, op a b = op b a.
    Hypothesis op_unit : forall a, op a unit = a.

    Definition has (t : tree) (x : V) : Prop := exists a, reval t = Ok a /\ proj a = Ok x.
    Definition total (l : list V) : V := fold_right op unit l.

    Lemma has_fun t x y : has t x -> has t y -> x = y.
    Proof. intros (a & H1 & H2) (b & H3 & H4). congruence. Qed.
    Lemma total_app l m : total (l ++ m) = op (total l) (total m).
    Proof.
      induction l as [|x l IH]; simpl.
      - rewrite op_comm, op_unit. auto.
      - rewrite IH, op_assoc. auto.
    Qed.
    Lemma total_perm l m : Permutation l m -> total l = total m.
    Proof.
      induction 1; simpl; auto; try congruence.
    Qed.
    Lemma has_call s t x y : has s x -> has t y -> has (TCall f [s; t]) (op x y).
    Proof.
      intros (a & H1 & H2) (b & H3 & H4). exists (AV (inj (op x y))). split; auto.
      rewrite reval_call. simpl. rewrite H1; simpl. rewrite H3; simpl.
      rewrite (eval_op a b x y) by auto. auto.
    Qed.
    Lemma has_linear t x n : 1 <= n -> has t x -> has (linear f t n) (total (repeat x n)).
    Proof.
      intros Hn Ht. induction n as [|[|n] IH]; [lia| |].
      - simpl. rewrite op_unit. auto.
      - change (linear f t (S (S n))) with (TCall f [t; linear f t (S n)]).
        apply (has_call t (linear f t (S n)) x (total (repeat x (S n)))); auto. apply IH; lia.
    Qed.
    Lemma reduce_fuel_has fuel : forall ts xs, length ts < fuel -> ts <> [] -> Forall2 has ts xs ->
      exists t, reduce_fuel fuel f ts = Ok t /\ has t (total xs).
    Proof.
      induction fuel as [|fuel IH]; intros ts xs Hl Hn H; [lia|].
      destruct H as [|t x ts xs Ht H]; [congruence|].
      destruct H as [|t' x' ts xs Ht' H].
      - exists t. simpl. rewrite op_unit. auto.
      - set (l := t :: t' :: ts) in *. set (vs := x :: x' :: xs).
        assert (HF : Forall2 has l vs) by (repeat constructor; auto).
        assert (Ll : 2 <= length l) by (simpl; lia).
        set (h := Nat.div2 (length l)).
        assert (Hh : 1 <= h /\ h < length l).
        { unfold h. pose proof (Nat.div2_odd (length l)). destruct (Nat.odd (length l)); simpl in *; lia. }
        pose proof (firstn_skipn h l) as El. pose proof (firstn_skipn h vs) as Ev.
        assert (HF2 : Forall2 has (firstn h l) (firstn h vs) /\ Forall2 has (skipn h l) (skipn h vs)).
        { clearbody h. clear - HF. revert h. clearbody l vs. induction HF as [|a b l m Ha Hl IHl]; intros [|h]; simpl; split; auto.
          - constructor; auto. apply IHl.
          - apply IHl. }
        destruct HF2 as [F1 F2].
        assert (Lf : length (firstn h l) = h) by (apply firstn_length_le; lia).
        assert (Ls : length (skipn h l) = length l - h) by apply skipn_length.
        destruct (IH (firstn h l) (firstn h vs)) as (t1 & R1 & T1); auto.
        { lia. }
        { intros K. rewrite K in Lf. simpl in Lf. lia. }
        destruct (IH (skipn h l) (skipn h vs)) as (t2 & R2 & T2); auto.
        { lia. }
        { intros K. apply (f_equal (@length _)) in K. rewrite Ls in K. change (length l - h = 0) in K. lia. }
        exists (TCall f [t1; t2]). split.
        + change (reduce_fuel (S fuel) f l) with
            (do a <- reduce_fuel fuel f (firstn h l); do b <- reduce_fuel fuel f (skipn h l); Ok (TCall f [a; b])).
          rewrite R1; cbn [bind]. rewrite R2. auto.
        + rewrite <- Ev, total_app. apply has_call; auto.
    Qed.
    Lemma reduce_has ts xs : ts <> [] -> Forall2 has ts xs -> exists t, reduce f ts = Ok t /\ has t (total xs).
    Proof. intros. apply reduce_fuel_has; auto. Qed.

    (** Grouping repeated factors is a permutation. *)
    Lemma tdedup_In x l : In x (tdedup l) <-> In x l.
    Proof.
      induction l as [|y l IH]; simpl; [tauto|]. destruct (mem y l) eqn:E.
      - apply mem_In in E. rewrite IH. split; auto. intros [->|H]; auto.
      - simpl. rewrite IH. tauto.
    Qed.
    Lemma tdedup_NoDup l : NoDup (tdedup l).
    Proof.
      induction l as [|y l IH]; simpl; [constructor|]. destruct (mem y l) eqn:E; auto.
      constructor; auto. rewrite tdedup_In. apply mem_nIn; auto.
    Qed.
    Lemma tcount_occ x l : tcount x l = count_occ tree_eq_dec l x.
    Proof.
      unfold tcount. induction l as [|y l IH]; auto. cbn [filter count_occ].
      destruct (tree_eq_dec y x) as [->|N].
      - rewrite (proj2 (tree_same_eq x x)) by auto. simpl. auto.
      - destruct (tree_same x y) eqn:E; auto. apply tree_same_eq in E. congruence.
    Qed.
    Lemma group_perm l u : NoDup u -> (forall x, In x u <-> In x l) ->
      Permutation l (flat_map (fun x => repeat x (tcount x l)) u).
    Proof.
      intros Hu Hi. apply (Permutation_count_occ tree_eq_dec). intros x.
      assert (G : forall v, NoDup v ->
                count_occ tree_eq_dec (flat_map (fun x => repeat x (tcount x l)) v) x
                = if in_dec tree_eq_dec x v then count_occ tree_eq_dec l x else 0).
      { induction v as [|y v IH]; intros Hv; auto. inversion Hv; subst.
        cbn [flat_map]. rewrite count_occ_app, IH by auto.
        destruct (tree_eq_dec x y) as [<-|N].
        - rewrite count_occ_repeat_eq by auto. rewrite tcount_occ.
          destruct (in_dec tree_eq_dec x v); [contradiction|].
          destruct (in_dec tree_eq_dec x (x :: v)) as [|K]; [lia|]. exfalso; apply K; left; auto.
        - rewrite count_occ_repeat_neq by auto.
          destruct (in_dec tree_eq_dec x v) as [I|I]; destruct (in_dec tree_eq_dec x (y :: v)) as [J|J]; auto.
          + exfalso; apply J; right; auto.
          + destruct J; [congruence|contradiction]. }
      rewrite G by auto. destruct (in_dec tree_eq_dec x u) as [I|I]; auto.
      apply count_occ_not_In. rewrite <- Hi. auto.
    Qed.

    Variable tsrt : list tree -> list tree.
    Hypothesis tsrt_perm : forall l, Permutation l (tsrt l).

    Lemma duplicates_has ts xs : ts <> [] -> Forall2 has ts xs ->
      exists t, duplicates tsrt f ts = Ok t /\ has t (total xs).
    Proof.
      intros Hn HF. unfold duplicates.
      assert (K : exists t, (if Nat.eqb (length (tdedup ts)) (length ts) then reduce f ts
           else reduce f (map (fun x => linear f x (tcount x ts)) (tsrt (tdedup ts)))) = Ok t /\ has t (total xs)).
      2: { destruct ts as [|t [|t' ts]]; auto. }
      destruct (Nat.eqb _ _); [apply reduce_has; auto|].
      set (u := tsrt (tdedup ts)).
      assert (Hu : NoDup u) by (eapply Permutation_NoDup; [apply tsrt_perm|apply tdedup_NoDup]).
      assert (Hi : forall x, In x u <-> In x ts).
      { intros x. rewrite <- (tdedup_In x ts). split; apply Permutation_in; [symmetry|]; apply tsrt_perm. }
      (* a value for every factor *)
      assert (G : exists g : tree -> V, (forall t, In t ts -> has t (g t)) /\ xs = map g ts).
      { exists (fun t => match reval t with Ok a => match proj a with Ok x => x | _ => unit end | _ => unit end).
        clear - HF. induction HF as [|t x ts xs Ht HF [IH1 IH2]]; simpl; [split; auto; intros ? []|].
        destruct Ht as (a & H1 & H2). split.
        - intros t' [<-|Ht']; auto. rewrite H1, H2. exists a; auto.
        - rewrite H1, H2. f_equal. auto. }
      destruct G as (g & Hg & ->).
      assert (F2 : Forall2 has (map (fun x => linear f x (tcount x ts)) u)
                               (map (fun x => total (repeat (g x) (tcount x ts))) u)).
      { assert (Iu : forall x, In x u -> In x ts) by (intros; apply Hi; auto).
        clear Hi Hu. revert Iu. induction u as [|x u IH]; simpl; intros Iu; constructor; auto.
        apply has_linear; auto. rewrite tcount_occ.
        apply (count_occ_In tree_eq_dec). auto. }
      assert (Un : u <> []).
      { destruct ts as [|t0 ts]; [congruence|]. assert (I : In t0 u) by (apply Hi; left; auto).
        intros E; rewrite E in I; auto. }
      destruct (reduce_has _ _ (fun K => Un (map_eq_nil _ _ K)) F2) as (t & R & T).
      exists t. split; auto.
      replace (total (map g ts)) with (total (map (fun x => total (repeat (g x) (tcount x ts))) u)); auto.
      rewrite (total_perm _ _ (Permutation_map g (group_perm ts u Hu Hi))).
      clear - op_assoc op_comm op_unit. induction u as [|x u IH]; auto. cbn [map flat_map]. rewrite map_app, total_app, <- IH.
      assert (R : forall (y : tree) n, map g (repeat y n) = repeat (g y) n) by (induction n; simpl; congruence).
      rewrite R. auto.
    Qed.
  End Monoid.

  (** ** Sums and products *)
  Notation hasn := (has Num arg_num).
  Lemma lower_ring_has red unit op inv opf invf c ps ns xs ys :
    (forall ts vs, ts <> [] -> Forall2 hasn ts vs ->
       exists t, red opf ts = Ok t /\ hasn t (total Num op (Fin unit) vs)) ->
    (forall a b x y, arg_num a = Ok x -> arg_num b = Ok y -> efun user opf [a; b] = Ok (VNum (op x y))) ->
    (forall a b x y, arg_num a = Ok x -> arg_num b = Ok y -> efun user invf [a; b] = Ok (VNum (inv x y))) ->
    (forall x, op x (Fin unit) = x) -> (forall x, op (Fin unit) x = x) -> (forall x, inv x (Fin unit) = x) ->
    Forall2 hasn ps xs -> Forall2 hasn ns ys ->
    exists t, lower_ring red unit opf invf c ps ns = Ok t
      /\ hasn t (inv (op (total Num op (Fin unit) xs) (Fin c)) (total Num op (Fin unit) ys)).
  Proof.
    intros Hred Hop Hinv U1 U2 U3 Hp Hn. unfold lower_ring.
    assert (Call : forall g h s t x y,
               (forall a b x y, arg_num a = Ok x -> arg_num b = Ok y -> efun user g [a; b] = Ok (VNum (h x y))) ->
               hasn s x -> hasn t y -> hasn (TCall g [s; t]) (h x y)).
    { intros g h s t x y Hg (a & H1 & H2) (b & H3 & H4). exists (AV (VNum (h x y))). split; auto.
      rewrite reval_call. simpl. rewrite H1; simpl. rewrite H3; simpl. rewrite (Hg a b x y) by auto. auto. }
    assert (Out : exists o, (do out <- (match ps with [] => Ok None | _ => do t <- red opf ps; Ok (Some t) end);
              Ok (match out with
               | None => t_num c
               | Some t => if qeqb c unit then t else TCall opf [t; t_num c]
               end)) = Ok o /\ hasn o (op (total Num op (Fin unit) xs) (Fin c))).
    { destruct ps as [|p ps].
      - inversion Hp; subst. exists (t_num c). split; auto. cbn [total fold_right]. rewrite U2. exists (AC (KS (SNum (Fin c)))). auto.
      - destruct (Hred (p :: ps) xs) as (t & R & T); [discriminate|auto|]. rewrite R. cbn [bind].
        eexists; split; [reflexivity|]. destruct (qeqb c unit) eqn:E.
        + apply qeqb_iff in E. subst. rewrite U1. auto.
        + apply Call; auto. exists (AC (KS (SNum (Fin c)))). auto. }
    destruct Out as (o & Ho & To). apply bind_ok_iff in Ho as (out & Ho & E). injection E as E.
    rewrite Ho. cbn [bind]. rewrite E.
    destruct ns as [|n ns].
    - clear E. inversion Hn; subst. exists o. split; auto. cbn [total fold_right]. rewrite U3. auto.
    - destruct (Hred (n :: ns) ys) as (t & R & T); [discriminate|auto|]. rewrite R. cbn [bind].
      eexists; split; [reflexivity|]. apply Call; auto.
  Qed.

  Lemma efun_num2 f g a b x y :
    (forall l, efun user f l = match l with [a; b] => num2 g a b | _ => Err TypeError end) ->
    arg_num a = Ok x -> arg_num b = Ok y -> efun user f [a; b] = Ok (VNum (g x y)).
  Proof. intros H Ha Hb'. rewrite H. unfold num2. rewrite Ha; simpl. rewrite Hb'. auto. Qed.

  Variable tsrt : list tree -> list tree.
  Hypothesis tsrt_perm : forall l, Permutation l (tsrt l).
  Notation totree := (totree tsrt).

  Lemma totree_many l :
    (fix go (l : list expr) : res (list tree) :=
        match l with
        | [] => Ok []
        | a :: l => do t <- totree a; do ts <- go l; Ok (t :: ts)
        end) l = mapM totree l.
  Proof. induction l as [|x l IH]; simpl; auto. rewrite IH. auto. Qed.
  Lemma totree_td t : totree (ETD t) =
    do ps <- mapM totree (tp t); do ns <- mapM totree (tn t);
    lower_ring (duplicates tsrt) qc1 "numpy.multiply" "numpy.true_divide" (tc t) ps ns.
  Proof. destruct t. simpl. rewrite !totree_many. auto. Qed.
  Lemma totree_pm c p n : totree (EPM c p n) =
    do ps <- mapM (fun t => totree (ETD t)) p; do ns <- mapM (fun t => totree (ETD t)) n;
    lower_ring reduce qc0 "numpy.add" "numpy.subtract" c ps ns.
  Proof.
    assert (G : forall l, (fix go (l : list (term_ expr)) : res (list tree) :=
        match l with
        | [] => Ok []
        | a :: l => do t <- match a with
      | T c p n =>
          do ps <- (fix go (l : list expr) : res (list tree) :=
        match l with
        | [] => Ok []
        | a :: l => do t <- totree a; do ts <- go l; Ok (t :: ts)
        end) p; do ns <- (fix go (l : list expr) : res (list tree) :=
        match l with
        | [] => Ok []
        | a :: l => do t <- totree a; do ts <- go l; Ok (t :: ts)
        end) n;
          lower_ring (duplicates tsrt) qc1 "numpy.multiply" "numpy.true_divide" c ps ns
      end; do ts <- go l; Ok (t :: ts)
        end) l = mapM (fun t => totree (ETD t)) l).
    { induction l as [|[c' p' n'] l IH]; simpl; auto. rewrite IH. auto. }
    simpl. rewrite !G. auto.
  Qed.

  Lemma hasn_of a t a' x : reval t = Ok a' -> same_arg a a' -> arg_num a = Ok x -> hasn t x.
  Proof. intros H1 H2 H3. exists a'. split; auto. rewrite <- (same_arg_num _ _ H2). auto. Qed.
  Lemma arg_num_val a x : arg_num a = Ok x -> arg_val a = Ok (VNum x).
  Proof.
    unfold arg_num. intros H. apply bind_ok_iff in H as (v & H1 & H2).
    destruct v; simpl in H2; try discriminate. congruence.
  Qed.
  Lemma hasn_same t x : hasn t x -> exists a', reval t = Ok a' /\ same_arg (AV (VNum x)) a'.
  Proof.
    intros (a & H1 & H2). exists a. split; auto. right; left. exists (VNum x). split; auto.
    apply arg_num_val; auto.
  Qed.

  Fixpoint lowerable_all (l : list expr) : Prop :=
    match l with [] => True | a :: l => lowerable a /\ lowerable_all l end.
  Definition lowerable_t (t : term) : Prop := lowerable_all (tp t) /\ lowerable_all (tn t).
  Lemma lowerable_many l : (fix go (l : list expr) : Prop :=
        match l with [] => True | a :: l => lowerable a /\ go l end) l = lowerable_all l.
  Proof. induction l as [|x l IH]; simpl; auto. Qed.
  Lemma lowerable_all_In l : lowerable_all l <-> forall e, In e l -> lowerable e.
  Proof.
    induction l as [|x l IH]; simpl; [split; auto; intros _ ? []|]. rewrite IH. split.
    - intros [H1 H2] e [<-|H]; auto.
    - auto.
  Qed.
  Lemma lowerable_pm c p n : lowerable (EPM c p n) <-> Forall lowerable_t p /\ Forall lowerable_t n.
  Proof.
    assert (G : forall l, (fix go (l : list (term_ expr)) : Prop :=
        match l with [] => True | a :: l => match a with T _ p n => (fix go (l : list expr) : Prop :=
        match l with [] => True | a :: l => lowerable a /\ go l end) p /\ (fix go (l : list expr) : Prop :=
        match l with [] => True | a :: l => lowerable a /\ go l end) n end /\ go l end) l <-> Forall lowerable_t l).
    { induction l as [|[c' p' n'] l IH]; [split; auto|]. rewrite IH, !lowerable_many. split.
      - intros [H1 H2]. constructor; auto.
      - intros H; inversion H; subst. auto. }
    simpl. rewrite !G. tauto.
  Qed.

  Definition lower_ok (e : expr) : Prop := forall a, lowerable e ->
    (forall s v, In s (preds e) -> field s = Ok v -> exists b, v = VBool b) ->
    denote e = Ok a -> exists t a', totree e = Ok t /\ reval t = Ok a' /\ same_arg a a'.

  Lemma preds_In e l : In e l -> incl (preds e) (flat_map preds l).
  Proof. intros H s Hs. apply in_flat_map. eauto. Qed.

  Lemma lower_list l : Forall lower_ok l -> lowerable_all l ->
    (forall s v, In s (flat_map preds l) -> field s = Ok v -> exists b, v = VBool b) ->
    forall vs, mapM denote l = Ok vs ->
    exists ts vs', mapM totree l = Ok ts /\ mapM reval ts = Ok vs' /\ Forall2 same_arg vs vs'.
  Proof.
    induction 1 as [|x l Hx Hl IH]; intros HL HP vs Hv; simpl in Hv.
    - injection Hv as <-. exists [], []. auto.
    - destruct HL as [HL1 HL2]. apply bind_ok_iff in Hv as (v & H1 & Hv). apply bind_ok_iff in Hv as (vs0 & H2 & Hv).
      injection Hv as <-. cbn [flat_map] in HP.
      destruct (Hx v) as (t & a' & T1 & T2 & T3); auto.
      { intros s w Hs. apply HP. apply in_app_iff; auto. }
      destruct (IH HL2) with (vs := vs0) as (ts & vs' & T4 & T5 & T6); auto.
      { intros s w Hs. apply HP. apply in_app_iff; auto. }
      exists (t :: ts), (a' :: vs'). simpl. rewrite T1, T4. simpl. rewrite T2, T5. simpl. auto.
  Qed.

  Lemma lower_nums l : Forall lower_ok l -> lowerable_all l ->
    (forall s v, In s (flat_map preds l) -> field s = Ok v -> exists b, v = VBool b) ->
    forall xs, mapM (num_of user field) l = Ok xs ->
    exists ts, mapM totree l = Ok ts /\ Forall2 hasn ts xs.
  Proof.
    intros H1 H2 H3 xs Hx. unfold num_of in Hx. apply mapM_compose in Hx as (vs & Hv & Hx).
    destruct (lower_list l H1 H2 H3 vs Hv) as (ts & vs' & T1 & T2 & T3). exists ts. split; auto.
    apply mapM_Forall2 in T2. apply mapM_Forall2 in Hx. clear - T2 T3 Hx.
    revert vs' xs T2 T3 Hx. revert vs. induction ts as [|t ts IH]; intros vs vs' xs T2 T3 Hx.
    - inversion T2; subst. inversion T3; subst. inversion Hx; subst. auto.
    - inversion T2; subst. inversion T3; subst. inversion Hx; subst. constructor; eauto.
      eapply hasn_of; eauto.
  Qed.

  Definition term_preds (t : term) : list string := flat_map preds (tp t) ++ flat_map preds (tn t).
  Lemma lower_term t : PT lower_ok t -> lowerable_t t ->
    (forall s v, In s (term_preds t) -> field s = Ok v -> exists b, v = VBool b) ->
    forall x, term_num user field t = Ok x -> exists tr, totree (ETD t) = Ok tr /\ hasn tr x.
  Proof.
    intros [Hp Hn] [Lp Ln] HP x Hx. unfold term_num in Hx.
    apply bind_ok_iff in Hx as (ps & Ep & Hx). apply bind_ok_iff in Hx as (ns & En & Hx). injection Hx as <-.
    destruct (lower_nums (tp t) Hp Lp) with (xs := ps) as (ts & T1 & T2); auto.
    { intros s v Hs. apply HP, in_app_iff; auto. }
    destruct (lower_nums (tn t) Hn Ln) with (xs := ns) as (us & T3 & T4); auto.
    { intros s v Hs. apply HP, in_app_iff; auto. }
    rewrite totree_td, T1. cbn [bind]. rewrite T3. cbn [bind].
    apply (lower_ring_has (duplicates tsrt) qc1 nmul ndiv); auto.
    - intros ts' vs Hne HF. apply (duplicates_has Num arg_num VNum); auto.
      + intros a b x y. apply efun_num2. auto.
      + apply nmul_assoc.
      + apply nmul_comm.
      + apply nmul_1_r.
    - intros a b x y. apply efun_num2. auto.
    - intros a b x y. apply efun_num2. auto.
    - apply nmul_1_r.
    - apply nmul_1_l.
    - apply ndiv_1_r.
  Qed.

  Lemma lower_terms l : Forall (PT lower_ok) l -> Forall lowerable_t l ->
    (forall s v, In s (flat_map term_preds l) -> field s = Ok v -> exists b, v = VBool b) ->
    forall xs, mapM (term_num user field) l = Ok xs ->
    exists ts, mapM (fun t => totree (ETD t)) l = Ok ts /\ Forall2 hasn ts xs.
  Proof.
    induction 1 as [|t l Ht Hl IH]; intros HL HP xs Hx; cbn [mapM] in *.
    - injection Hx as <-. exists []. auto.
    - inversion HL; subst. apply bind_ok_iff in Hx as (x & E1 & Hx). apply bind_ok_iff in Hx as (xs0 & E2 & Hx).
      injection Hx as <-. cbn [flat_map] in HP.
      destruct (lower_term t Ht H1) with (x := x) as (tr & T1 & T2); auto.
      { intros s w Hs. apply HP. apply in_app_iff; auto. }
      destruct (IH H2) with (xs := xs0) as (ts & T3 & T4); auto.
      { intros s w Hs. apply HP. apply in_app_iff; auto. }
      exists (tr :: ts). rewrite T1, T3. simpl. auto.
  Qed.

  Notation hasb := (has bool arg_truth).
  Lemma lower_bools f op unit l :
    (forall l, efun user f l = match l with [a; b] => bool2 op a b | _ => Err TypeError end) ->
    (forall a b c, op a (op b c) = op (op a b) c) -> (forall a b, op a b = op b a) -> (forall a, op a unit = a) ->
    Forall lower_ok l -> lowerable_all l -> l <> [] ->
    (forall s v, In s (flat_map preds l) -> field s = Ok v -> exists b, v = VBool b) ->
    forall vs bs, mapM denote l = Ok vs -> truths vs = Ok bs -> Forall (fun v => exists b, v = AV (VBool b)) vs ->
    exists t a', (do ts <- mapM totree l; reduce f ts) = Ok t /\ reval t = Ok a'
      /\ same_arg (AV (VBool (total bool op unit bs))) a'.
  Proof.
    intros Hf A C U H1 H2 H3 H4 vs bs Hv Hb' Hone.
    destruct (lower_list l H1 H2 H4 vs Hv) as (ts & vs' & T1 & T2 & T3). rewrite T1. cbn [bind].
    assert (F : Forall2 hasb ts bs).
    { apply mapM_Forall2 in T2. unfold truths in Hb'. apply mapM_Forall2 in Hb'. clear - T2 T3 Hb'.
      revert vs' bs T2 T3 Hb'. revert vs. induction ts as [|t ts IH]; intros vs vs' bs T2 T3 Hb'.
      - inversion T2; subst. inversion T3; subst. inversion Hb'; subst. auto.
      - inversion T2; subst. inversion T3; subst. inversion Hb'; subst. constructor; eauto.
        eexists; split; eauto. rewrite <- (same_arg_truth _ _ H4). auto. }
    assert (Ln : length ts = length l).
    { clear - T1. apply mapM_Forall2 in T1. induction T1; simpl; auto. }
    assert (Lt : ts <> []) by (intros ->; destruct l; simpl in *; congruence).
    assert (Ev : forall a b x y, arg_truth a = Ok x -> arg_truth b = Ok y -> efun user f [a; b] = Ok (VBool (op x y))).
    { intros a b x y Ha Hb2. rewrite Hf. unfold bool2. rewrite Ha; simpl. rewrite Hb2. auto. }
    destruct ts as [|t0 [|t1 ts]]; [congruence| |].
    - exists t0. 
      inversion F as [|? b ? ? F1 F2]; subst. inversion F2; subst.
      simpl in T2. apply bind_ok_iff in T2 as (a' & R & T2). simpl in T2. injection T2 as <-.
      exists a'. split; [reflexivity|]. split; auto.
      inversion T3 as [|v ? ? ? S1 S2]; subst. inversion S2; subst. inversion Hone as [|? ? Hone' _]; subst. destruct Hone' as (b0 & ->).
      destruct F1 as (a2 & R2 & B2). assert (a2 = a') by congruence. subst a2.
      rewrite <- (same_arg_truth _ _ S1) in B2. injection B2 as ->. cbn [total fold_right]. rewrite U. auto.
    - (* a call *)
      destruct (reduce_has bool arg_truth VBool op unit f) with (ts := t0 :: t1 :: ts) (xs := bs) as (t & R & T); auto.
      exists t. rewrite R.
      assert (Tc : exists x y, t = TCall f [x; y]).
      { clear - R. unfold reduce in R. cbn [reduce_fuel length] in R.
        apply bind_ok_iff in R as (x & _ & R). apply bind_ok_iff in R as (y & _ & R). injection R as <-. eauto. }
      destruct Tc as (x & y & ->). destruct T as (a' & R1 & R2). exists a'. split; auto. split; auto.
      rewrite reval_call in R1. apply bind_ok_iff in R1 as (l2 & _ & R1). apply rmap_ok_iff in R1 as (v & R1 & ->).
      rewrite Hf in R1. destruct l2 as [|p [|q [|]]]; try discriminate.
      unfold bool2 in R1. apply bind_ok_iff in R1 as (b1 & _ & R1). apply bind_ok_iff in R1 as (b2 & _ & R1).
      injection R1 as <-. simpl in R2. injection R2 as R2. rewrite R2. apply same_arg_refl.
  Qed.

  Lemma total_andb bs : total bool andb true bs = forallb (fun b => b) bs.
  Proof. induction bs; simpl; congruence. Qed.
  Lemma total_orb bs : total bool orb false bs = existsb (fun b => b) bs.
  Proof. induction bs; simpl; congruence. Qed.

  Lemma bool_shape_val e a : bool_shape e = true -> denote e = Ok a -> exists b, a = AV (VBool b).
  Proof.
    destruct e; try discriminate; intros _ H.
    - simpl in H. apply bind_ok_iff in H as (v & _ & H). apply bind_ok_iff in H as (t & _ & H). injection H as <-. eauto.
    - simpl in H. apply bind_ok_iff in H as (v & _ & H). apply bind_ok_iff in H as (w & _ & H).
      apply bind_ok_iff in H as (t & _ & H). injection H as <-. eauto.
    - rewrite denote_and in H. apply bind_ok_iff in H as (v & _ & H). apply bind_ok_iff in H as (t & _ & H). injection H as <-. eauto.
    - rewrite denote_or in H. apply bind_ok_iff in H as (v & _ & H). apply bind_ok_iff in H as (t & _ & H). injection H as <-. eauto.
  Qed.

  Theorem lower_main e : lower_ok e.
  Proof.
    induction e as [c|s|s b|b f l IH|c l r IHl IHr|c p n Hp Hn|t Ht|l IH|l IH] using expr_ind'; intros a HL HP H.
    - injection H as <-. exists (TConst c), (AC c). repeat split; auto using same_arg_refl.
    - exists (TName s), a. repeat split; auto using same_arg_refl.
    - simpl in HL, H. subst b. apply bind_ok_iff in H as (v & Hv & H). apply bind_ok_iff in H as (t & Ht & H). injection H as <-.
      destruct (HP s v) as (b & ->); [left; auto|auto|]. simpl in Ht. injection Ht as ->.
      exists (TPred s true), (AV (VBool t)). simpl. rewrite Hv. repeat split; auto using same_arg_refl.
    - rewrite denote_call in H. apply bind_ok_iff in H as (vs & Hv & H). simpl in HL. rewrite lowerable_many in HL.
      destruct (lower_list l IH HL HP vs Hv) as (ts & vs' & T1 & T2 & T3).
      exists (TCall f ts), a. simpl totree. rewrite totree_many, T1. split; auto. rewrite reval_call, T2. cbn [bind].
      rewrite <- (efun_same f _ _ T3). split; auto using same_arg_refl.
    - destruct HL as [L1 L2]. simpl in HP.
      simpl in H. apply bind_ok_iff in H as (x & Hx & H). apply bind_ok_iff in H as (y & Hy & H).
      apply bind_ok_iff in H as (b & Hc & H). injection H as <-.
      destruct (IHl x L1) as (t1 & x' & T1 & R1 & S1); auto. { intros s v Hs. apply HP, in_app_iff; auto. }
      destruct (IHr y L2) as (t2 & y' & T2 & R2 & S2); auto. { intros s v Hs. apply HP, in_app_iff; auto. }
      simpl totree. rewrite T1. cbn [bind]. rewrite T2. cbn [bind].
      eexists _, (AV (VBool b)). split; [reflexivity|]. split; [|apply same_arg_refl].
      assert (E2 : forall g, reval (TCall g [t1; t2]) = rmap AV (efun user g [x'; y'])).
      { intros g. rewrite reval_call. simpl. rewrite R1; simpl. rewrite R2. auto. }
      pose proof (same_arg_val _ _ S1) as V1. pose proof (same_arg_val _ _ S2) as V2.
      assert (In2 : efun user "numpy.isin" [x'; y'] = match as_set y' with
                | Some l => do v <- arg_val x'; Ok (VBool (existsb (scal_eqb v) l)) | None => Err TypeError end).
      { cbn. destruct y' as [[]|]; auto. }
      pose proof (same_arg_set _ _ S2) as SS.
      destruct c; rewrite ?E2; cbn [compare_nf compare] in Hc.
      + apply bind_ok_iff in Hc as (u & U1 & Hc). apply bind_ok_iff in Hc as (w & W1 & Hc).
        cbn. unfold cmp2. rewrite <- V1, <- V2, U1, W1. simpl. rewrite Hc. auto.
      + apply bind_ok_iff in Hc as (u & U1 & Hc). apply bind_ok_iff in Hc as (w & W1 & Hc).
        cbn. unfold cmp2. rewrite <- V1, <- V2, U1, W1. cbn [bind]. rewrite Hc. auto.
      + apply bind_ok_iff in Hc as (u & U1 & Hc). apply bind_ok_iff in Hc as (w & W1 & Hc).
        cbn. unfold cmp2. rewrite <- V1, <- V2, U1, W1. simpl. rewrite Hc. auto.
      + apply bind_ok_iff in Hc as (u & U1 & Hc). apply bind_ok_iff in Hc as (w & W1 & Hc).
        cbn. unfold cmp2. rewrite <- V1, <- V2, U1, W1. simpl. rewrite Hc. auto.
      + destruct y as [[|m|]|]; try discriminate Hc. apply bind_ok_iff in Hc as (u & U1 & Hc). injection Hc as <-.
        rewrite In2. simpl in SS. destruct (as_set y') as [m'|]; [|tauto]. rewrite <- V1, U1. simpl.
        do 3 f_equal. symmetry. apply existsb_same; auto.
      + destruct y as [[|m|]|]; try discriminate Hc. apply bind_ok_iff in Hc as (u & U1 & Hc). injection Hc as <-.
        rewrite reval_call. cbn [mapM]. rewrite E2, In2. simpl in SS. destruct (as_set y') as [m'|]; [|tauto].
        rewrite <- V1, U1. cbn. rewrite (existsb_same _ _ _ SS). auto.
    - apply lowerable_pm in HL as [L1 L2]. apply denote_pm in H as (ps & ns & E1 & E2 & ->).
      change (preds (EPM c p n)) with (flat_map (fun t => match t with T _ p n => flat_map preds p ++ flat_map preds n end) p
         ++ flat_map (fun t => match t with T _ p n => flat_map preds p ++ flat_map preds n end) n) in HP.
      assert (FM : forall l s, In s (flat_map term_preds l) ->
                In s (flat_map (fun t : term_ expr => match t with T _ p n => flat_map preds p ++ flat_map preds n end) l)).
      { intros l s. rewrite !in_flat_map. intros ([c' p' n'] & I & J). exists (T c' p' n'). auto. }
      destruct (lower_terms p Hp L1) with (xs := ps) as (ts & T1 & T2); auto.
      { intros s v Hs. apply HP, in_app_iff; auto. }
      destruct (lower_terms n Hn L2) with (xs := ns) as (us & T3 & T4); auto.
      { intros s v Hs. apply HP, in_app_iff; auto. }
      destruct (lower_ring_has reduce qc0 nadd nsub "numpy.add" "numpy.subtract" c ts us ps ns) as (t & R & Ht); auto.
      + intros ts' vs Hne HF. apply (reduce_has Num arg_num VNum); auto.
        * intros a b x y. apply efun_num2. auto.
        * apply nadd_assoc.
        * apply nadd_comm.
        * apply nadd_0_r.
      + intros a b x y. apply efun_num2. auto.
      + intros a b x y. apply efun_num2. auto.
      + apply nadd_0_r.
      + apply nadd_0_l.
      + intros x. unfold nsub. change (nneg (Fin qc0)) with nzero at 1. apply nadd_0_r.
      + exists t. destruct (hasn_same _ _ Ht) as (a' & R1 & R2). exists a'. split; auto.
        rewrite totree_pm, T1. cbn [bind]. rewrite T3. cbn [bind]. auto.
    - apply denote_td in H as (x & Hx & ->).
      destruct (lower_term t Ht) with (x := x) as (tr & T1 & T2); auto.
      { destruct t as [c p n]. simpl in HL. rewrite !lowerable_many in HL. auto. }
      { destruct t as [c p n]. auto. }
      destruct (hasn_same _ _ T2) as (a' & R1 & R2). exists tr, a'. auto.
    - rewrite denote_and in H. apply bind_ok_iff in H as (vs & Hv & H). apply bind_ok_iff in H as (bs & Hbs & H). injection H as <-.
      simpl in HL. rewrite lowerable_many in HL. destruct HL as (L1 & L2 & L3).
      rewrite <- total_andb. simpl totree. rewrite totree_many.
      apply (lower_bools "numpy.logical_and" andb true l) with (vs := vs); auto.
      + intros; apply andb_assoc.
      + intros; apply andb_comm.
      + intros; apply andb_true_r.
      + apply mapM_Forall2 in Hv. clear - Hv L2. induction Hv; constructor; simpl in *; auto.
        * apply andb_true_iff in L2 as [L2 _]. eapply bool_shape_val; eauto.
        * apply IHHv. apply andb_true_iff in L2 as [_ L2]. auto.
    - rewrite denote_or in H. apply bind_ok_iff in H as (vs & Hv & H). apply bind_ok_iff in H as (bs & Hbs & H). injection H as <-.
      simpl in HL. rewrite lowerable_many in HL. destruct HL as (L1 & L2 & L3).
      rewrite <- total_orb. simpl totree. rewrite totree_many.
      apply (lower_bools "numpy.logical_or" orb false l) with (vs := vs); auto.
      + intros; apply orb_assoc.
      + intros; apply orb_comm.
      + intros; apply orb_false_r.
      + apply mapM_Forall2 in Hv. clear - Hv L2. induction Hv; constructor; simpl in *; auto.
        * apply andb_true_iff in L2 as [L2 _]. eapply bool_shape_val; eauto.
        * apply IHHv. apply andb_true_iff in L2 as [_ L2]. auto.
  Qed.
End Lower.
