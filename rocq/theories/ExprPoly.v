(** Polynomials in the fields have one normal form each: proofs for C23. *)
From Coq Require Import String Permutation.
From Verif Require Import Num NumFacts Base Tree Elem Order Expr ExprSpec ExprGood ExprFacts ExprLower ExprAlg ExprLogic ExprMain ExprPlain.
Open Scope string_scope.
Local Open Scope list_scope.

(** Spelled with fields, numbers, [+], [-] and [*]. *)
Fixpoint polynomial (s : src) : bool :=
  match s with
  | XLit (SNum (Fin _)) | XName _ => true
  | XNeg a | XPos a => polynomial a
  | XBin OAdd a b | XBin OSub a b | XBin OMul a b => polynomial a && polynomial b
  | _ => false
  end.
(** Its value, with numbers for the fields. *)
Fixpoint peval (f : string -> Qc) (s : src) : Qc :=
  match s with
  | XLit (SNum (Fin q)) => q
  | XName x => f x
  | XNeg a => (- peval f a)%Qc
  | XPos a => peval f a
  | XBin OAdd a b => (peval f a + peval f b)%Qc
  | XBin OSub a b => (peval f a - peval f b)%Qc
  | XBin OMul a b => (peval f a * peval f b)%Qc
  | _ => qc0
  end.
(** A row that gives every field a number. *)
Definition row_of (f : string -> Qc) (s : string) : res val := Ok (VNum (Fin (f s))).

(** ** A polynomial that is zero everywhere has no coefficients *)
Definition un_name (e : expr) : string := match e with EName s => s | _ => "" end.
Definition mval (f : string -> Qc) (k : list expr) : Qc := qprod (map (fun e => f (un_name e)) k).
Definition pval (f : string -> Qc) (l : list (Qc * list expr)) : Qc := qsum (map (fun t => fst t * mval f (snd t))%Qc l).
Definition deg (x : string) (k : list expr) : nat := count_occ string_dec (map un_name k) x.
Definition two : Qc := qz 2.

Lemma pow_two n : (two ^ n)%Qc = qz (2 ^ Z.of_nat n).
Proof.
  induction n; [apply Qc_ext; reflexivity|]. change (two ^ S n)%Qc with (two * two ^ n)%Qc. rewrite Nat2Z.inj_succ, Z.pow_succ_r, IHn, qz_mul by lia. reflexivity.
Qed.
Lemma pow_two_inj n m : (two ^ n)%Qc = (two ^ m)%Qc -> n = m.
Proof. rewrite !pow_two. intros H. apply qz_inj, Z.pow_inj_r in H; lia. Qed.

Definition doubled (x : string) (f : string -> Qc) (s : string) : Qc := if string_dec s x then (two * f s)%Qc else f s.
Lemma mval_doubled x f k : mval (doubled x f) k = (two ^ deg x k * mval f k)%Qc.
Proof.
  unfold mval, deg. induction k as [|e k IH]; simpl; [rewrite qc1_eq; ring|]. rewrite IH. unfold doubled at 1.
  destruct (string_dec (un_name e) x) as [E|E]; simpl; ring.
Qed.
Lemma pval_doubled x (d : Qc) f l :
  (pval (doubled x f) l - d * pval f l)%Qc = pval f (map (fun t => (fst t * (two ^ deg x (snd t) - d), snd t)%Qc) l).
Proof.
  unfold pval. induction l as [|[c k] l IH]; simpl; [rewrite qc0_eq; ring|]. rewrite <- IH, mval_doubled. ring.
Qed.
Lemma mval_ones k : mval (fun _ => qc1) k = qc1.
Proof. unfold mval. induction k; simpl; auto. rewrite IHk, qc1_eq. ring. Qed.

Lemma vanish_one k : forall n r c, length r = n ->
  Forall (fun t => exists x, deg x k <> deg x (snd t)) r ->
  (forall f, (c * mval f k + pval f r)%Qc = qc0) -> c = qc0.
Proof.
  induction n as [|n IH]; intros r c L D H.
  - destruct r; [|discriminate]. specialize (H (fun _ => qc1)). rewrite mval_ones in H. unfold pval in H. simpl in H.
    rewrite qc1_eq, qc0_eq in *. rewrite <- H. ring.
  - destruct r as [|[c1 k1] r]; [discriminate|]. inversion D as [|? ? [x X] D']; subst. cbn [snd] in X.
    assert (G : (c * (two ^ deg x k - two ^ deg x k1))%Qc = qc0).
    { apply (IH (map (fun t => (fst t * (two ^ deg x (snd t) - two ^ deg x k1), snd t)%Qc) r)).
      - rewrite map_length. simpl in L. lia.
      - apply Forall_map. exact D'.
      - intros f. pose proof (H f) as A. pose proof (H (doubled x f)) as B. rewrite <- pval_doubled.
        unfold pval in A, B. cbn [map qsum fold_right fst snd] in A, B.
        change (fold_right Qcplus qc0 (map (fun t => (fst t * mval f (snd t))%Qc) r)) with (pval f r) in A.
        change (fold_right Qcplus qc0 (map (fun t => (fst t * mval (doubled x f) (snd t))%Qc) r)) with (pval (doubled x f) r) in B.
        rewrite !mval_doubled in B. rewrite qc0_eq in *.
        replace (c * (two ^ deg x k - two ^ deg x k1) * mval f k + (pval (doubled x f) r - two ^ deg x k1 * pval f r))%Qc
          with ((c * (two ^ deg x k * mval f k) + (c1 * (two ^ deg x k1 * mval f k1) + pval (doubled x f) r))
                - two ^ deg x k1 * (c * mval f k + (c1 * mval f k1 + pval f r)))%Qc by ring.
        rewrite A, B. ring. }
    rewrite qc0_eq in *. apply Qcmult_integral in G as [G|G]; auto. exfalso. apply X, pow_two_inj.
    rewrite <- (Qcplus_0_r (two ^ deg x k)). replace 0%Qc with (two ^ deg x k1 - two ^ deg x k1)%Qc by ring.
    rewrite <- (Qcplus_0_l (two ^ deg x k1)) at 2. rewrite <- G at 1. ring.
Qed.

Section Poly.
  Variable srt : list expr -> list expr.
  Hypothesis srt_perm : forall l, Permutation l (srt l).
  Hypothesis srt_canon : forall l m, Permutation l m -> srt l = srt m.
  Notation parse := (parse srt (fun _ => None)).

  (** ** Coefficients *)
  Definition is_key (k : list expr) : Prop := exists ns, k = srt (map EName ns).
  Lemma key_names k : is_key k -> exists ns, k = srt (map EName ns) /\ Permutation ns (map un_name k).
  Proof.
    intros (ns & ->). exists ns. split; auto. rewrite <- (srt_perm (map EName ns)), map_map, map_id. auto.
  Qed.
  Lemma key_diff k k' : is_key k -> is_key k' -> k <> k' -> exists x, deg x k <> deg x k'.
  Proof.
    intros H1 H2 N.
    destruct (existsb (fun x => negb (Nat.eqb (deg x k) (deg x k'))) (map un_name k ++ map un_name k')) eqn:E.
    - apply existsb_exists in E as (x & _ & E). exists x. apply negb_true_iff, Nat.eqb_neq in E. auto.
    - exfalso. apply N. apply key_names in H1 as (ns & -> & P1). apply key_names in H2 as (ms & -> & P2).
      apply srt_canon, Permutation_map. rewrite P1, P2. apply (Permutation_count_occ string_dec). intros x.
      destruct (in_dec string_dec x (map un_name (srt (map EName ns)) ++ map un_name (srt (map EName ms)))) as [I|I].
      + assert (F : negb (Nat.eqb (deg x (srt (map EName ns))) (deg x (srt (map EName ms)))) = false).
        { destruct (negb _) eqn:F; auto. rewrite <- E. symmetry. apply existsb_exists. exists x. auto. }
        apply negb_false_iff, Nat.eqb_eq in F. exact F.
      + rewrite in_app_iff in I. rewrite !(proj1 (count_occ_not_In string_dec _ _)); tauto.
  Qed.
  Definition key_eqb (k k' : list expr) : bool := list_same_e k k'.
  Definition coef (k : list expr) (l : list (Qc * list expr)) : Qc := qsum (map fst (filter (fun t => key_eqb k (snd t)) l)).
  Lemma pval_split f k l : pval f l = (coef k l * mval f k + pval f (filter (fun t => negb (key_eqb k (snd t))) l))%Qc.
  Proof.
    unfold pval, coef. induction l as [|[c k'] l IH]; simpl; [rewrite qc0_eq; ring|]. destruct (key_eqb k k') eqn:E; simpl.
    - apply list_same_e_eq in E. subst k'. rewrite IH. ring.
    - rewrite IH. ring.
  Qed.
  Lemma vanish l : Forall (fun t => is_key (snd t)) l -> (forall f, pval f l = qc0) -> forall k, is_key k -> coef k l = qc0.
  Proof.
    intros F H k K. apply (vanish_one k _ (filter (fun t => negb (key_eqb k (snd t))) l) _ eq_refl).
    - apply Forall_forall. intros [c k'] Ht. apply filter_In in Ht as [Ht E]. cbn [snd] in *. rewrite Forall_forall in F.
      apply key_diff; auto; [exact (F _ Ht)|]. intros ->. apply negb_true_iff in E.
      assert (key_eqb k' k' = true) by (apply list_same_e_eq; auto). congruence.
    - intros f. rewrite <- pval_split. auto.
  Qed.
  Lemma coef_app k l m : coef k (l ++ m) = (coef k l + coef k m)%Qc.
  Proof. unfold coef. rewrite filter_app, map_app, qsum_app. auto. Qed.
  Lemma coef_neg k l : coef k (map (fun t => (- fst t, snd t)%Qc) l) = (- coef k l)%Qc.
  Proof.
    unfold coef. induction l as [|[c k'] l IH]; simpl; [rewrite qc0_eq; ring|]. destruct (key_eqb k k'); simpl; auto. rewrite IH. ring.
  Qed.
  Lemma pval_app f l m : pval f (l ++ m) = (pval f l + pval f m)%Qc.
  Proof. unfold pval. rewrite map_app, qsum_app. auto. Qed.
  Lemma pval_neg f l : pval f (map (fun t => (- fst t, snd t)%Qc) l) = (- pval f l)%Qc.
  Proof. unfold pval. induction l as [|[c k'] l IH]; simpl; [rewrite qc0_eq; ring|]. rewrite IH. ring. Qed.
  Lemma coef_absent k l : ~ In k (map snd l) -> coef k l = qc0.
  Proof.
    unfold coef. induction l as [|[c k'] l IH]; simpl; auto. intros N. destruct (key_eqb k k') eqn:E; [|tauto].
    apply list_same_e_eq in E. subst. tauto.
  Qed.
  Lemma coef_present k c l : NoDup (map snd l) -> In (c, k) l -> coef k l = c.
  Proof.
    induction l as [|[c' k'] l IH]; simpl; [tauto|]. intros N [E|E]; inversion N as [|? ? N1 N2]; subst.
    - injection E as -> ->. unfold coef. simpl. assert (key_eqb k k = true) as -> by (apply list_same_e_eq; auto). simpl.
      change (qsum (map fst (filter (fun t => key_eqb k (snd t)) l))) with (coef k l). rewrite coef_absent by auto. rewrite qc0_eq. ring.
    - unfold coef. simpl. assert (k <> k'). { intros <-. apply N1. apply in_map_iff. exists (c, k). auto. }
      destruct (key_eqb k k') eqn:K; [apply list_same_e_eq in K; congruence|]. apply IH; auto.
  Qed.

  (** ** Canonical sums *)
  Definition mono (t : term) : Prop := is_key (tp t) /\ tp t <> [] /\ tn t = [].
  Definition positive (q : Qc) : Prop := q <> qc0 /\ qltb q qc0 = false.
  Record canon (p : pm) : Prop := {
    cn_pp : Forall (fun t => mono t /\ positive (tc t)) (pp p);
    cn_pn : Forall (fun t => mono t /\ positive (tc t)) (pn p);
    cn_nd : NoDup (map tp (pp p ++ pn p));
    cn_sp : pp p = srt_t srt (pp p);
    cn_sn : pn p = srt_t srt (pn p) }.
  Definition entries (p : pm) : list (Qc * list expr) :=
    (pc p, []) :: map (fun t => (tc t, tp t)) (pp p) ++ map (fun t => (- tc t, tp t)%Qc) (pn p).
  Lemma entries_keys p : map snd (entries p) = [] :: map tp (pp p ++ pn p).
  Proof. unfold entries. simpl. rewrite map_app, !map_map, map_app. auto. Qed.
  Lemma entries_nodup p : canon p -> NoDup (map snd (entries p)).
  Proof.
    intros [A B C _ _]. rewrite entries_keys. constructor; auto. intros H. apply in_map_iff in H as (t & E & H).
    apply in_app_iff in H as [H|H]; [rewrite Forall_forall in A; destruct (A _ H) as [(_ & N & _) _]
                                    |rewrite Forall_forall in B; destruct (B _ H) as [(_ & N & _) _]]; congruence.
  Qed.
  Lemma nil_key : is_key [].
  Proof. exists []. simpl. symmetry. apply Permutation_nil. rewrite srt_perm at 1. auto. Qed.
  Lemma entries_is_key p : canon p -> Forall (fun t => is_key (snd t)) (entries p).
  Proof.
    intros [A B _ _ _]. constructor; [apply nil_key|]. apply Forall_app. split; apply Forall_map; (eapply Forall_impl; [|eassumption]);
      intros t [[K _] _]; exact K.
  Qed.
  Lemma mono_eq t u : mono t -> mono u -> tc t = tc u -> tp t = tp u -> t = u.
  Proof. destruct t, u. intros (_ & _ & A) (_ & _ & B). simpl in *. intros; subst. auto. Qed.
  Lemma pos_neg q r : positive q -> positive r -> q = (- r)%Qc -> False.
  Proof.
    intros [A B] [C D] ->. apply C. clear A C. qc_bool. apply Qc_ext. qc_push. lra.
  Qed.

  Lemma half_incl p q : canon p -> canon q -> (forall k, is_key k -> coef k (entries p) = coef k (entries q)) ->
    incl (pp p) (pp q) /\ incl (pn p) (pn q).
  Proof.
    intros Cp Cq H. pose proof (entries_nodup p Cp) as Np. pose proof (entries_nodup q Cq) as Nq.
    assert (Q : forall k c, is_key k -> k <> [] -> c <> qc0 -> coef k (entries q) = c ->
              (exists u, In u (pp q) /\ tp u = k /\ tc u = c) \/ (exists u, In u (pn q) /\ tp u = k /\ c = (- tc u)%Qc)).
    { intros k c K N Z E. destruct (in_dec (list_eq_dec expr_eq_dec) k (map snd (entries q))) as [I|I].
      - apply in_map_iff in I as ([c' k'] & <- & I). cbn [snd] in *. rewrite (coef_present _ _ _ Nq I) in E. subst c'.
        destruct I as [I|I]; [injection I as _ <-; congruence|]. apply in_app_iff in I as [I|I]; apply in_map_iff in I as (u & E & I);
          injection E as <- <-; [left|right]; exists u; auto.
      - rewrite coef_absent in E by auto. congruence. }
    pose proof (cn_pp _ Cp) as A. pose proof (cn_pn _ Cp) as B. pose proof (cn_pp _ Cq) as A'. pose proof (cn_pn _ Cq) as B'.
    rewrite Forall_forall in A, B, A', B'. split; intros t Ht.
    - destruct (A _ Ht) as [M P]. pose proof M as (K & N & _). assert (E : coef (tp t) (entries p) = tc t).
      { apply coef_present; auto. right. apply in_or_app. left. apply in_map_iff. exists t. auto. }
      rewrite (H _ K) in E. destruct (Q _ _ K N (proj1 P) E) as [(u & U1 & U2 & U3)|(u & U1 & U2 & U3)].
      + destruct (A' _ U1) as [M' P']. rewrite <- (mono_eq u t); auto.
      + destruct (B' _ U1) as [M' P']. exfalso. exact (pos_neg _ _ P P' U3).
    - destruct (B _ Ht) as [M P]. pose proof M as (K & N & _). assert (E : coef (tp t) (entries p) = (- tc t)%Qc).
      { apply coef_present; auto. right. apply in_or_app. right. apply in_map_iff. exists t. auto. }
      rewrite (H _ K) in E. assert (Z : (- tc t)%Qc <> qc0).
      { intros Z. apply (proj1 P). rewrite qc0_eq in *. rewrite <- (Qcopp_involutive (tc t)), Z. reflexivity. }
      destruct (Q _ _ K N Z E) as [(u & U1 & U2 & U3)|(u & U1 & U2 & U3)].
      + destruct (A' _ U1) as [M' P']. exfalso. exact (pos_neg _ _ P' P U3).
      + destruct (B' _ U1) as [M' P']. rewrite <- (mono_eq u t); auto.
        rewrite <- (Qcopp_involutive (tc t)), U3, Qcopp_involutive. auto.
  Qed.
  Lemma NoDup_app_l {A} (l m : list A) : NoDup (l ++ m) -> NoDup l /\ NoDup m.
  Proof.
    induction l as [|x l IH]; simpl; intros H; [split; auto; constructor|]. inversion H; subst. destruct (IH H3). split; auto.
    constructor; auto. intros I. apply H2, in_or_app. auto.
  Qed.
  Theorem canon_unique p q : canon p -> canon q -> (forall f, pval f (entries p) = pval f (entries q)) -> p = q.
  Proof.
    intros Cp Cq H.
    assert (C : forall k, is_key k -> coef k (entries p) = coef k (entries q)).
    { intros k K. assert (V : coef k (entries p ++ map (fun t => (- fst t, snd t)%Qc) (entries q)) = qc0).
      { apply vanish; auto.
        - apply Forall_app. split; [apply entries_is_key; auto|]. apply Forall_map. apply entries_is_key; auto.
        - intros f. rewrite pval_app, pval_neg, H. rewrite qc0_eq. ring. }
      rewrite coef_app, coef_neg, qc0_eq in V. rewrite <- (Qcplus_0_l (coef k (entries q))), <- V. ring. }
    destruct (half_incl p q Cp Cq C) as [I1 I2]. destruct (half_incl q p Cq Cp (fun k K => eq_sym (C k K))) as [J1 J2].
    pose proof (cn_nd _ Cp) as Np. pose proof (cn_nd _ Cq) as Nq. rewrite map_app in Np, Nq.
    apply NoDup_app_l in Np as [Np1 Np2]. apply NoDup_app_l in Nq as [Nq1 Nq2].
    assert (P1 : pp p = pp q).
    { rewrite (cn_sp _ Cp), (cn_sp _ Cq). apply srt_t_canon; auto. apply NoDup_Permutation; [eapply NoDup_map_inv; eauto..|].
      intros t. split; auto. }
    assert (P2 : pn p = pn q).
    { rewrite (cn_sn _ Cp), (cn_sn _ Cq). apply srt_t_canon; auto. apply NoDup_Permutation; [eapply NoDup_map_inv; eauto..|].
      intros t. split; auto. }
    assert (P0 : pc p = pc q).
    { specialize (C [] nil_key). rewrite (coef_present [] (pc p)) in C; [|apply entries_nodup; auto|left; auto].
      rewrite (coef_present [] (pc q)) in C; [auto|apply entries_nodup; auto|left; auto]. }
    destruct p, q; simpl in *; subst; auto.
  Qed.

  (** ** Collecting gives canonical sums *)
  Lemma cancel_mono t : mono t -> cancel t = Ok t.
  Proof. intros (_ & _ & N). apply cancel_id. intros x _ H. rewrite N in H. destruct H. Qed.
  Lemma mono_const t c : mono t -> mono (T c (tp t) (tn t)).
  Proof. intros H. exact H. Qed.
  Lemma merge_mono x l : mono x -> Forall mono l -> Forall mono (merge x l).
  Proof. intros Hx H. induction H as [|y l Hy Hl IH]; simpl; auto. destruct (similar x y); auto. Qed.
  Lemma merge_keys x l k : In k (map tp (merge x l)) -> k = tp x \/ In k (map tp l).
  Proof.
    induction l as [|y l IH]; simpl; [intuition auto|]. destruct (similar x y); simpl; [tauto|]. intros [H|H]; auto. apply IH in H. tauto.
  Qed.
  Lemma merge_nodup x l : mono x -> Forall mono l -> NoDup (map tp l) -> NoDup (map tp (merge x l)).
  Proof.
    intros Hx H N. induction H as [|y l Hy Hl IH]; simpl; [constructor; auto|]. inversion N as [|? ? N1 N2]; subst.
    destruct (similar x y) eqn:E; simpl; [constructor; auto|]. constructor; auto.
    intros I. apply merge_keys in I as [I|I]; auto.
    assert (similar x y = true); [|congruence]. apply similar_eq. split; auto.
    destruct Hx as (_ & _ & ->), Hy as (_ & _ & ->). auto.
  Qed.
  Lemma gather_mono sgn l : Forall mono l -> forall st, Forall mono (snd st) -> NoDup (map tp (snd st)) ->
    exists st', gather sgn l st = Ok st' /\ Forall mono (snd st') /\ NoDup (map tp (snd st')).
  Proof.
    induction 1 as [|x l Hx Hl IH]; intros st F N; simpl; [exists st; auto|]. rewrite (cancel_mono _ Hx). cbn [bind]. apply IH.
    - destruct (qeqb (tc x) qc0); auto. destruct (is_nil (tp x) && is_nil (tn x)); auto. apply merge_mono; auto.
    - destruct (qeqb (tc x) qc0); auto. destruct (is_nil (tp x) && is_nil (tn x)); auto. apply merge_nodup; auto.
  Qed.
  Lemma filter_NoDup {A B} (g : A -> B) (f : A -> bool) l : NoDup (map g l) -> NoDup (map g (filter f l)).
  Proof.
    induction l as [|x l IH]; simpl; intros H; auto. inversion H as [|? ? H1 H2]; subst. destruct (f x); simpl; auto. constructor; auto.
    intros I. apply H1. apply in_map_iff in I as (y & <- & I). apply filter_In in I as [I _]. apply in_map; auto.
  Qed.
  Lemma split_NoDup {A B} (g : A -> B) (f : A -> bool) l : NoDup (map g l) ->
    NoDup (map g (filter (fun x => negb (f x)) l) ++ map g (filter f l)).
  Proof.
    intros H. rewrite <- map_app. eapply Permutation_NoDup; [|exact H]. apply Permutation_map.
    clear H. induction l as [|x l IH]; simpl; auto. destruct (f x); simpl.
    - apply Permutation_cons_app. auto.
    - auto.
  Qed.
  Lemma neg_positive q : qltb q qc0 = true -> positive (- q)%Qc.
  Proof.
    intros H. split; [|qlra]. intros E. assert (F : (this (- q)%Qc == this qc0)%Q) by (rewrite E; reflexivity). qlra.
  Qed.
  Lemma collect_canon p : Forall mono (pp p) -> Forall mono (pn p) -> exists q, collect srt p = Ok q /\ canon q.
  Proof.
    intros H1 H2. unfold collect.
    destruct (gather_mono (fun q => q) (pp p) H1 (pc p, [])) as (s1 & -> & F1 & N1); [constructor|constructor|]. cbn [bind].
    destruct (gather_mono Qcopp (pn p) H2 s1 F1 N1) as (s2 & -> & F2 & N2). cbn [bind].
    eexists. split; [reflexivity|]. set (terms := filter (fun t => negb (qeqb (tc t) qc0)) (snd s2)).
    assert (FT : Forall (fun t => mono t /\ tc t <> qc0) terms).
    { apply Forall_forall. intros t Ht. apply filter_In in Ht as [Ht E]. rewrite Forall_forall in F2. split; auto.
      apply negb_true_iff in E. apply qeqb_false in E. auto. }
    assert (NT : NoDup (map tp terms)) by (apply filter_NoDup; auto).
    pose proof (srt_t_perm srt srt_perm (filter (fun t => negb (qltb (tc t) qc0)) terms)) as P1.
    pose proof (srt_t_perm srt srt_perm (map (fun t => T (- tc t)%Qc (tp t) (tn t)) (filter (fun t => qltb (tc t) qc0) terms))) as P2.
    split; cbn [pp pn].
    - rewrite <- P1. apply Forall_forall. intros t Ht. apply filter_In in Ht as [Ht E]. rewrite Forall_forall in FT. destruct (FT _ Ht).
      split; auto. split; auto. apply negb_true_iff in E. auto.
    - rewrite <- P2. apply Forall_map. apply Forall_forall. intros t Ht. apply filter_In in Ht as [Ht E]. rewrite Forall_forall in FT. destruct (FT _ Ht).
      split; [apply mono_const; auto|]. apply neg_positive; auto.
    - rewrite <- P1, <- P2. rewrite map_app, map_map. cbn [tp]. apply split_NoDup. auto.
    - apply srt_t_canon; auto.
    - apply srt_t_canon; auto.
  Qed.
  Lemma td_combine_mono t u : mono t -> mono u -> mono (td_combine srt t u).
  Proof.
    intros ((ns & K1) & N1 & M1) ((ms & K2) & N2 & M2). unfold mono, td_combine. cbn [tp tn].
    assert (P : srt (tp t ++ tp u) = srt (map EName (ns ++ ms))).
    { apply srt_canon. rewrite K1, K2, map_app. rewrite <- !srt_perm. auto. }
    split; [exists (ns ++ ms); auto|]. split.
    - intros E. apply N1. assert (L : length (srt (tp t ++ tp u)) = 0) by (rewrite E; auto).
      rewrite <- (Permutation_length (srt_perm _)), app_length in L. destruct (tp t); auto. simpl in L. lia.
    - rewrite M1, M2. apply Permutation_nil, srt_perm.
  Qed.
  Lemma srt_nil : srt [] = [].
  Proof. apply Permutation_nil, srt_perm. Qed.
  Lemma td_combine_const_mono t c : mono t -> mono (td_combine srt t (td_const c)) /\ mono (td_combine srt (td_const c) t).
  Proof.
    intros ((ns & K) & N & M).
    assert (G : forall k, mono (T k (srt (tp t)) (srt (tn t)))).
    { intros k. unfold mono. cbn [tp tn]. rewrite M, srt_nil. split; [|split; auto].
      - exists ns. rewrite K. apply srt_canon. symmetry. apply srt_perm.
      - intros E. apply N. assert (L : length (srt (tp t)) = 0) by (rewrite E; auto).
        rewrite <- (Permutation_length (srt_perm _)) in L. destruct (tp t); auto. discriminate. }
    split; unfold td_combine, td_const; cbn [tp tn tc]; rewrite ?app_nil_r; apply G.
  Qed.
  Lemma products_mono l m : Forall mono l -> Forall mono m -> Forall mono (products srt l m).
  Proof.
    intros Hl Hm. apply Forall_forall. intros t Ht. unfold products in Ht. apply in_flat_map in Ht as (x & Hx & Ht).
    apply in_map_iff in Ht as (y & <- & Hy). rewrite Forall_forall in Hl, Hm. apply td_combine_mono; auto.
  Qed.
  Lemma canon_mono p : canon p -> Forall mono (pp p) /\ Forall mono (pn p).
  Proof. intros [A B _ _ _]. split; (eapply Forall_impl; [|eassumption]); cbn; tauto. Qed.
  Lemma combine_canon p q : canon p -> canon q -> exists r, pm_combine srt p q = Ok r /\ canon r.
  Proof.
    intros Hp Hq. apply canon_mono in Hp as [A B]. apply canon_mono in Hq as [C D].
    apply collect_canon; cbn [pp pn]; rewrite <- (srt_t_perm srt srt_perm); apply Forall_app; auto.
  Qed.
  Lemma distribute_canon p q : canon p -> canon q -> exists r, pm_distribute srt p q = Ok r /\ canon r.
  Proof.
    intros Hp Hq. apply canon_mono in Hp as [A B]. apply canon_mono in Hq as [C D].
    assert (C1 : forall l c, Forall mono l -> Forall mono (map (fun x => td_combine srt x (td_const c)) l)).
    { intros l c Hl. apply Forall_map. eapply Forall_impl; [|exact Hl]. intros t Ht. apply td_combine_const_mono; auto. }
    assert (C2 : forall l c, Forall mono l -> Forall mono (map (fun x => td_combine srt (td_const c) x) l)).
    { intros l c Hl. apply Forall_map. eapply Forall_impl; [|exact Hl]. intros t Ht. apply td_combine_const_mono; auto. }
    apply collect_canon; cbn [pp pn]; repeat (apply Forall_app; split); auto using products_mono.
  Qed.
  Lemma negate_canon p : canon p -> canon (PM (- pc p)%Qc (pn p) (pp p)).
  Proof.
    intros [A B C D E]. split; cbn [pp pn]; auto. rewrite map_app in *. eapply Permutation_NoDup; [apply Permutation_app_comm|auto].
  Qed.
  Lemma const_canon c : canon (PM c [] []).
  Proof. split; cbn [pp pn]; auto; try constructor; unfold srt_t; simpl; rewrite srt_nil; auto. Qed.
  Lemma name_canon n : canon (PM qc0 [T qc1 [EName n] []] []).
  Proof.
    assert (S1 : forall x, srt [x] = [x]).
    { intros x. apply Permutation_length_1_inv. apply srt_perm. }
    split; cbn [pp pn]; auto.
    - constructor; auto. split; [|split; [discriminate|reflexivity]]. split; [exists [n]; simpl; rewrite S1; auto|]. split; auto. discriminate.
    - simpl. constructor; auto. constructor.
    - unfold srt_t. simpl. rewrite S1. auto.
    - unfold srt_t. simpl. rewrite srt_nil. auto.
  Qed.

  (** ** Simplifying keeps canonical sums apart *)
  Lemma nf_simplify p : canon p -> pm_nf (pm_simplify p) = Ok p.
  Proof.
    intros [A B _ _ _]. destruct p as [c ps ns]. unfold pm_simplify. cbn [pp pn pc] in *.
    assert (E0 : forall q, qeqb q qc0 = true -> q = qc0) by (intros q H; apply qeqb_iff; auto).
    destruct ps as [|t [|t' ps]], ns as [|u [|u' ns]]; cbn [is_nil andb]; try reflexivity;
      destruct (qeqb c qc0) eqn:E; try reflexivity; apply E0 in E; subst c.
    - inversion B as [|? ? [(K & N & M) [P1 P2]] _]; subst. destruct u as [c p n]. cbn [tp tn tc] in *. subst n.
      unfold td_simplify. cbn [tp tn tc is_nil]. rewrite andb_true_r. destruct p as [|x p]; [congruence|]. cbn [is_nil].
      assert (L : qltb (- c)%Qc qc0 = true). { apply qltb_iff. qc_bool. qc_push. destruct (Qlt_le_dec 0 (this c)); [lra|]. exfalso. apply P1. apply Qc_ext. qc_push. lra. }
      assert (E1 : qeqb (- c)%Qc qc1 = false). { apply qeqb_false. intros F. rewrite F in L. discriminate. }
      rewrite E1. cbn [pm_nf td_nf bind tp tn tc is_nil andb]. rewrite L. rewrite Qcopp_involutive. reflexivity.
    - inversion A as [|? ? [(K & N & M) [P1 P2]] _]; subst. destruct t as [c p n]. cbn [tp tn tc] in *. subst n.
      unfold td_simplify. cbn [tp tn tc is_nil]. rewrite andb_true_r. destruct p as [|x p]; [congruence|]. cbn [is_nil].
      assert (G : pm_nf (ETD (T c (x :: p) [])) = Ok (PM qc0 [T c (x :: p) []] [])).
      { cbn [pm_nf td_nf bind tp tn tc is_nil andb]. rewrite P2. reflexivity. }
      destruct (qeqb c qc1) eqn:E1; auto. destruct p; auto. apply qeqb_iff in E1. subst c.
      destruct K as (ns & K). assert (I : In x (map EName ns)). { eapply Permutation_in; [symmetry; apply srt_perm|]. rewrite <- K. left; auto. }
      apply in_map_iff in I as (n & <- & _). reflexivity.
  Qed.
  Lemma simplify_const p : is_econst (pm_simplify p) = true -> canon p -> pm_simplify p = k_num (pc p) /\ p = PM (pc p) [] [].
  Proof.
    intros H C. pose proof (nf_simplify p C) as N. destruct (pm_simplify p) as [[[[q| | |]| | |]| |]| | | | | | | |]; try discriminate H; try discriminate N.
    injection N as <-. auto.
  Qed.

  (** ** Parsing *)
  Theorem parse_poly s : polynomial s = true -> forall rel, exists p, canon p /\ parse rel s = Ok (pm_simplify p).
  Proof.
    induction s as [c|l IH|s|l r IHl IHr|a IH|l IH|l IH|a IH|a IH|o a b IHa IHb|f l IH] using src_ind'; intros H rel; try discriminate H.
    - destruct c as [[q| | |]| | |]; try discriminate H. exists (PM q [] []). split; [apply const_canon|reflexivity].
    - exists (PM qc0 [T qc1 [EName s] []] []). split; [apply name_canon|reflexivity].
    - destruct (IH H false) as (p & C & E). simpl. rewrite E. cbn [bind]. exists (PM (- pc p)%Qc (pn p) (pp p)).
      split; [apply negate_canon; auto|].
      assert (G : (do r <- pm_negate (pm_simplify p); Ok (pm_simplify r)) = Ok (pm_simplify (PM (- pc p) (pn p) (pp p)))).
      { unfold pm_negate. rewrite (nf_simplify p C). reflexivity. }
      destruct (pm_simplify p) eqn:S; try exact G. destruct (simplify_const p) as [S1 S2]; auto; [rewrite S; auto|].
      rewrite S in S1. injection S1 as ->. simpl. rewrite S2. reflexivity.
    - exact (IH H false).
    - simpl in H. assert (HO : (o = OAdd \/ o = OSub \/ o = OMul) /\ polynomial a = true /\ polynomial b = true).
      { destruct o; try discriminate H; apply andb_true_iff in H; auto. }
      destruct HO as (HO & Ha & Hb). destruct (IHa Ha false) as (p & Cp & Ep), (IHb Hb false) as (q & Cq & Eq).
      simpl. rewrite Ep, Eq. cbn [bind].
      destruct (is_econst (pm_simplify p) && is_econst (pm_simplify q)) eqn:EC.
      + apply andb_true_iff in EC as [E1 E2]. apply simplify_const in E1 as [-> _], E2 as [-> _]; auto.
        assert (G : forall c, exists r, canon r /\ Ok (k_num c) = Ok (pm_simplify r)) by (intros c; exists (PM c [] []); split; [apply const_canon|reflexivity]).
        destruct HO as [->|[->| ->]]; apply G.
      + assert (EQ : binary srt o (pm_simplify p) (pm_simplify q) =
            match o with OAdd => combine_simplify srt (pm_simplify p) (pm_simplify q)
                       | OSub => subtract_simplify srt (pm_simplify p) (pm_simplify q)
                       | _ => distribute_simplify srt (pm_simplify p) (pm_simplify q) end).
        { destruct HO as [->|[->| ->]]; destruct (pm_simplify p), (pm_simplify q); try reflexivity; discriminate EC. }
        rewrite EQ. destruct HO as [->|[->| ->]].
        * unfold combine_simplify. rewrite !nf_simplify by auto. cbn [bind]. destruct (combine_canon p q Cp Cq) as (r & -> & Cr). exists r. auto.
        * unfold subtract_simplify, pm_negate. rewrite !nf_simplify by auto. cbn [bind].
          destruct (combine_canon p _ Cp (negate_canon q Cq)) as (r & -> & Cr). exists r. auto.
        * unfold distribute_simplify. rewrite !nf_simplify by auto. cbn [bind]. destruct (distribute_canon p q Cp Cq) as (r & -> & Cr). exists r. auto.
  Qed.

  (** ** The value *)
  Variable user : string -> list arg -> res val.
  Lemma name_safe f k : is_key k -> Forall2 (safe user (row_of f)) k (map (fun e => f (un_name e)) k).
  Proof.
    intros (ns & E). assert (A : forall e, In e k -> exists n, e = EName n).
    { intros e He. rewrite E in He. apply (proj1 (srt_In srt srt_perm _ _)) in He. apply in_map_iff in He as (n & <- & _). eauto. }
    clear E. induction k as [|e k IH]; simpl; constructor.
    - destruct (A e (or_introl eq_refl)) as (n & ->). apply s_atom; auto. eexists. split; [reflexivity|]. reflexivity.
    - apply IH. intros x Hx. apply A. right; auto.
  Qed.
  Lemma mono_safe f t : mono t -> safe user (row_of f) (ETD t) (tc t * mval f (tp t))%Qc.
  Proof.
    intros (K & N & M). apply safe_td. split.
    - exists (map (fun e => f (un_name e)) (tp t)), []. split; [apply name_safe; auto|]. rewrite M. split; [constructor|]. split; [constructor|].
      unfold qterm, mval. simpl. rewrite qc1_eq. field. discriminate.
    - intros x _ H. rewrite M in H. destruct H.
  Qed.
  Lemma canon_safe f p : canon p -> safe user (row_of f) (pm_expr p) (pval f (entries p)).
  Proof.
    intros Hp. apply canon_mono in Hp as [A B].
    assert (G : forall l, Forall mono l -> Forall2 (fun t => safe user (row_of f) (ETD t)) l (map (fun t => (tc t * mval f (tp t))%Qc) l)).
    { induction 1; simpl; constructor; auto. apply mono_safe; auto. }
    apply safe_pm. eexists. eexists. split; [apply G; auto|]. split; [apply G; auto|].
    unfold pval, entries. cbn [map fst snd qsum fold_right]. rewrite map_app, !map_map. cbn [fst snd].
    change (fold_right Qcplus qc0) with qsum. rewrite qsum_app. unfold mval at 1. simpl. rewrite qc1_eq.
    assert (Q : qsum (map (fun t => (- tc t * mval f (tp t))%Qc) (pn p)) = (- qsum (map (fun t => (tc t * mval f (tp t))%Qc) (pn p)))%Qc).
    { generalize (pn p). induction l as [|u l IHl]; simpl; [rewrite qc0_eq; ring|]. rewrite IHl. ring. }
    rewrite Q. ring.
  Qed.
  Lemma poly_value f s : polynomial s = true -> value_at user (row_of f) s (peval f s).
  Proof.
    induction s as [c|l IH|s|l r IHl IHr|a IH|l IH|l IH|a IH|a IH|o a b IHa IHb|g l IH] using src_ind'; intros H; try discriminate H.
    - destruct c as [[q| | |]| | |]; try discriminate H. eexists. split; reflexivity.
    - eexists. split; reflexivity.
    - destruct (IH H) as (v & E & N). eexists. simpl. rewrite E. cbn [bind]. rewrite N. split; reflexivity.
    - exact (IH H).
    - simpl in H. assert (HO : (o = OAdd \/ o = OSub \/ o = OMul) /\ polynomial a = true /\ polynomial b = true).
      { destruct o; try discriminate H; apply andb_true_iff in H; auto. }
      destruct HO as (HO & Ha & Hb). destruct (IHa Ha) as (v & E & N), (IHb Hb) as (w & E' & N').
      unfold value_at. simpl. rewrite E, E'. cbn [bind].
      destruct HO as [->|[->| ->]]; cbn [operate]; unfold num2; rewrite N, N'; cbn [bind rmap]; eexists; split; reflexivity.
  Qed.
  Lemma poly_tame f s : polynomial s = true -> tame user (row_of f) s.
  Proof.
    induction s as [c|l IH|s|l r IHl IHr|a IH|l IH|l IH|a IH|a IH|o a b IHa IHb|g l IH] using src_ind'; intros H; try discriminate H; simpl; auto.
    - split; auto. exists (peval f a). apply poly_value. auto.
    - simpl in H. assert (HO : (o = OAdd \/ o = OSub \/ o = OMul) /\ polynomial a = true /\ polynomial b = true).
      { destruct o; try discriminate H; apply andb_true_iff in H; auto. }
      destruct HO as (HO & Ha & Hb). split; auto. split; auto.
      destruct HO as [->|[->| ->]]; split; eexists; apply poly_value; auto.
  Qed.
  Hypothesis Hb : broadcasts user.
  Hypothesis Hp : powers user.
  Lemma parse_poly_value s rel p : polynomial s = true -> plain s -> canon p -> parse rel s = Ok (pm_simplify p) ->
    forall f, peval f s = pval f (entries p).
  Proof.
    intros PO PL C P f.
    pose proof (plain_good srt srt_perm user (row_of f) s PL (poly_tame f s PO)) as G.
    destruct (poly_value f s PO) as (v & S & N).
    destruct (parse_keeps user Hb Hp (row_of f) srt srt_perm s G rel v _ S P) as (_ & V & _).
    specialize (V _ N). pose proof (pm_nf_safe _ _ _ _ _ V (nf_simplify p C)) as V'.
    eapply safe_fun; [exact V'|]. apply canon_safe; auto.
  Qed.
  Theorem poly_normal_form s1 s2 rel : polynomial s1 = true -> plain s1 -> polynomial s2 = true -> plain s2 ->
    (parse rel s1 = parse rel s2 <-> forall f, peval f s1 = peval f s2).
  Proof.
    intros O1 L1 O2 L2. destruct (parse_poly s1 O1 rel) as (p & Cp & P1), (parse_poly s2 O2 rel) as (q & Cq & P2).
    pose proof (parse_poly_value s1 rel p O1 L1 Cp P1) as V1. pose proof (parse_poly_value s2 rel q O2 L2 Cq P2) as V2.
    rewrite P1, P2. split.
    - intros H f. injection H as H. rewrite V1, V2.
      assert (E : pm_nf (pm_simplify p) = pm_nf (pm_simplify q)) by (rewrite H; auto).
      rewrite !nf_simplify in E by auto. injection E as ->. auto.
    - intros H. do 2 f_equal. apply canon_unique; auto. intros f. rewrite <- V1, <- V2. auto.
  Qed.
End Poly.
