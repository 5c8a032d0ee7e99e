(** Reciprocals and powers keep the value, and the disjunctive normal form keeps the truth: proofs
    for C21 and C22. *)
From Coq Require Import String Permutation.
From Verif Require Import Num NumFacts Base Tree Elem Order Expr ExprSpec ExprGood ExprFacts ExprLower ExprAlg.

Lemma qprod_zero_In l : In qc0 l -> qprod l = qc0.
Proof. induction l as [|x l IH]; simpl; [tauto|]. intros [->|H]; [|rewrite (IH H)]; rewrite qc0_eq; ring. Qed.
Lemma qterm_nonzero c ps ns : qterm c ps ns <> qc0 -> c <> qc0 /\ Forall (fun q => q <> qc0) ps.
Proof.
  intros H. split.
  - intros ->. apply H. unfold qterm, Qcdiv. rewrite qc0_eq. ring.
  - apply Forall_forall. intros x Hx ->. apply H. unfold qterm, Qcdiv. rewrite (qprod_zero_In _ Hx), qc0_eq. ring.
Qed.
Lemma q_inv_ok q r : q_inv q = Ok r -> q <> qc0 /\ r = (/ q)%Qc.
Proof. unfold q_inv. destruct (qeqb q qc0) eqn:E; [discriminate|]. apply qeqb_false in E. intros H; injection H as <-. auto. Qed.

Section Power.
  Variable user : string -> list arg -> res val.
  Variable field : string -> res val.
  Variable srt : list expr -> list expr.
  Hypothesis srt_perm : forall l, Permutation l (srt l).
  Notation safe := (safe user field).
  Notation pmv := (pmv user field).
  Notation tval := (tval user field).
  Notation nz_all := (Forall (fun q => q <> qc0)).

  Lemma whole_safe l q : pmv l q -> safe (ETD (T qc1 [pm_expr l] [])) q.
  Proof.
    intros H. apply safe_td. split; [|intros x _ []]. exists [q], []. cbn [tp tn tc]. repeat split; auto.
    unfold qterm. simpl. rewrite qc1_eq. field. discriminate.
  Qed.
  Lemma td_negate_val t u q : safe (ETD t) q -> q <> qc0 -> td_negate t = Ok u -> safe (ETD u) (/ q)%Qc.
  Proof.
    intros H Hq E. unfold td_negate in E. apply bind_ok_iff in E as (c & Ec & E). injection E as <-.
    apply safe_td in H as [(ps & ns & P1 & P2 & P3 & ->) D]. apply q_inv_ok in Ec as [Hc ->].
    apply qterm_nonzero in Hq as [_ N]. apply safe_td. split.
    - exists ns, ps. cbn [tp tn tc]. repeat split; auto. unfold qterm. cbn [tc]. field.
      split; [|split]; [exact (qc_field_nz _ Hc)| |]; apply qc_field_nz, qprod_nonzero; auto.
    - intros x H1 H2. exact (D x H2 H1).
  Qed.
  Lemma reciprocal_val b r q : safe b q -> q <> qc0 -> reciprocal b = Ok r -> safe r (/ q)%Qc.
  Proof.
    intros H Hq E. unfold reciprocal in E. apply bind_ok_iff in E as (p & Ep & E).
    apply bind_ok_iff in E as (t & Et & E). injection E as <-.
    pose proof (pm_nf_safe _ _ _ _ _ H Ep) as V.
    assert (W : td_negate (T qc1 [pm_expr p] []) = Ok t -> safe (ETD t) (/ q)%Qc).
    { intros E. eapply td_negate_val; eauto. apply whole_safe; auto. }
    pose proof V as V0. apply pmv_terms in V as (ps & ns & P1 & P2 & Eq).
    destruct (pp p) as [|x l] eqn:Epp, (pn p) as [|y m] eqn:Epn; cbn [is_nil andb] in Et.
    - inversion P1; inversion P2; subst. apply bind_ok_iff in Et as (c & Ec & Et). injection Et as <-.
      apply q_inv_ok in Ec as [Hc ->]. apply safe_td. split; [|intros z []].
      replace (pc p + qsum [] - qsum [])%Qc with (pc p) by (simpl; rewrite qc0_eq; ring).
      exists [], []. cbn [tp tn tc]. repeat split; auto. unfold qterm. simpl. rewrite qc1_eq. field.
      repeat split; solve [discriminate|exact (qc_field_nz _ Hc)].
    - destruct (qeqb (pc p) qc0) eqn:Z; auto. destruct m; auto. apply qeqb_iff in Z.
      apply bind_ok_iff in Et as (u & Eu & Et). injection Et as <-.
      inversion P1; subst. inversion P2 as [|? z ? ? Hz P2']; subst. inversion P2'; subst.
      replace (pc p + qsum [] - qsum [z])%Qc with (- z)%Qc in * by (simpl; rewrite Z, qc0_eq; ring).
      assert (Nz : z <> qc0) by (intros ->; apply Hq; rewrite qc0_eq; ring).
      replace (/ (- z))%Qc with (- / z)%Qc.
      + apply neg_term_val. eapply td_negate_val; eauto.
      + pose proof (qc_field_nz _ Nz) as NZ. field. split; auto.
    - destruct (qeqb (pc p) qc0) eqn:Z; auto. destruct l; auto. apply qeqb_iff in Z.
      inversion P2; subst. inversion P1 as [|? z ? ? Hz P1']; subst. inversion P1'; subst.
      replace (pc p + qsum [z] - qsum [])%Qc with z in * by (simpl; rewrite Z, qc0_eq; ring).
      eapply td_negate_val; eauto.
    - destruct (qeqb (pc p) qc0); auto; destruct l; auto.
  Qed.

  Lemma rep_In {A} n (l : list A) x : In x (rep n l) -> In x l.
  Proof.
    unfold rep. induction n; simpl; [tauto|]. rewrite in_app_iff. tauto.
  Qed.
  Lemma rep_vals n l qs : Forall2 safe l qs -> exists rs, Forall2 safe (rep n l) rs /\ qprod rs = qpow (qprod qs) n
    /\ (nz_all qs -> nz_all rs).
  Proof.
    intros H. induction n as [|n (rs & R1 & R2 & R3)]; unfold rep in *; simpl.
    - exists []. repeat split; auto.
    - exists (qs ++ rs). split; [apply Forall2_app; auto|]. rewrite qprod_app, R2. split; auto.
      intros N. apply Forall_app; auto.
  Qed.
  Lemma srt_vals l qs : Forall2 safe l qs -> exists rs, Forall2 safe (srt l) rs /\ qprod rs = qprod qs
    /\ (nz_all qs -> nz_all rs).
  Proof.
    intros H. destruct (Forall2_perm _ _ _ (srt_perm l) _ H) as (rs & R1 & R2). exists rs. split; auto.
    split; [symmetry; apply qprod_perm; auto|]. intros N. rewrite <- R2. auto.
  Qed.
  Lemma power_vals n l qs : Forall2 safe l qs -> exists rs, Forall2 safe (srt (rep n l)) rs /\ qprod rs = qpow (qprod qs) n
    /\ (nz_all qs -> nz_all rs).
  Proof.
    intros H. destruct (rep_vals n _ _ H) as (rs & R1 & R2 & R3). destruct (srt_vals _ _ R1) as (ss & S1 & S2 & S3).
    exists ss. split; auto. split; [congruence|auto].
  Qed.
  Lemma qpow_mul a b n : qpow (a * b)%Qc n = (qpow a n * qpow b n)%Qc.
  Proof. induction n; simpl; [rewrite qc1_eq; ring|rewrite IHn; ring]. Qed.
  Lemma qpow_nonzero a n : a <> qc0 -> qpow a n <> qc0.
  Proof. intros H. rewrite <- qprod_repeat. apply qprod_nonzero, Forall_forall. intros x Hx. apply repeat_spec in Hx. subst; auto. Qed.
  Lemma qpow_inv a n : a <> qc0 -> qpow (/ a)%Qc n = (/ qpow a n)%Qc.
  Proof.
    intros H. induction n; simpl; [reflexivity|]. rewrite IHn. field.
    split; [exact (qc_field_nz _ (qpow_nonzero a n H))|exact (qc_field_nz _ H)].
  Qed.
  Lemma qpow_term c ps ns n : nz_all ns -> qpow (qterm c ps ns) n = (qpow c n * qpow (qprod ps) n / qpow (qprod ns) n)%Qc.
  Proof.
    intros N. unfold qterm, Qcdiv. rewrite !qpow_mul, qpow_inv; auto. apply qprod_nonzero; auto.
  Qed.
  Lemma qpow_opp a n : qpow (- a)%Qc n = (if Nat.even n then qpow a n else - qpow a n)%Qc.
  Proof.
    induction n as [|n IH]; [auto|]. rewrite Nat.even_succ. cbn [qpow]. rewrite IH, <- Nat.negb_even.
    destruct (Nat.even n); simpl; ring.
  Qed.

  Lemma term_power t q n : safe (ETD t) q ->
    safe (ETD (T (qpow (tc t) n) (srt (rep n (tp t))) (srt (rep n (tn t))))) (qpow q n).
  Proof.
    intros H. apply safe_td in H as [(ps & ns & P1 & P2 & P3 & ->) D].
    destruct (power_vals n _ _ P1) as (xs & X1 & X2 & X3). destruct (power_vals n _ _ P2) as (ys & Y1 & Y2 & Y3).
    apply safe_td. split.
    - exists xs, ys. cbn [tp tn tc]. repeat split; auto. rewrite qpow_term by auto. unfold qterm. rewrite X2, Y2. auto.
    - intros x. cbn [tp tn]. rewrite !(srt_In srt srt_perm). intros H1 H2. apply rep_In in H1. apply rep_In in H2. exact (D x H1 H2).
  Qed.
  Lemma term_neg_power t q n c : safe (ETD t) q -> q <> qc0 -> q_inv (qpow (tc t) n) = Ok c ->
    safe (ETD (T c (srt (rep n (tn t))) (srt (rep n (tp t))))) (/ qpow q n)%Qc.
  Proof.
    intros H Hq Ec. apply q_inv_ok in Ec as [Hc ->]. apply safe_td in H as [(ps & ns & P1 & P2 & P3 & ->) D].
    apply qterm_nonzero in Hq as [Hc0 N].
    destruct (power_vals n _ _ P1) as (xs & X1 & X2 & X3). destruct (power_vals n _ _ P2) as (ys & Y1 & Y2 & Y3).
    apply safe_td. split.
    - exists ys, xs. cbn [tp tn tc]. repeat split; auto. rewrite qpow_term by auto. unfold qterm. rewrite X2, Y2.
      assert (qpow (qprod ps) n <> 0%Qc) by (apply qc_field_nz, qpow_nonzero, qprod_nonzero; auto).
      assert (qpow (qprod ns) n <> 0%Qc) by (apply qc_field_nz, qpow_nonzero, qprod_nonzero; auto).
      apply qc_field_nz in Hc. field. auto.
    - intros x. cbn [tp tn]. rewrite !(srt_In srt srt_perm). intros H1 H2. apply rep_In in H1. apply rep_In in H2. exact (D x H2 H1).
  Qed.

  Lemma single_pos t q : safe (ETD t) q -> pmv (PM qc0 [t] []) q.
  Proof. intros H. apply safe_pm. exists [q], []. cbn [pp pn pc]. repeat split; auto. simpl. rewrite qc0_eq. ring. Qed.
  Lemma single_neg t q : safe (ETD t) q -> pmv (PM qc0 [] [t]) (- q)%Qc.
  Proof. intros H. apply safe_pm. exists [], [q]. cbn [pp pn pc]. repeat split; auto. simpl. rewrite qc0_eq. ring. Qed.
  Lemma whole_power l q n : pmv l q -> safe (ETD (T qc1 (rep n [pm_expr l]) [])) (qpow q n).
  Proof.
    intros H. destruct (rep_vals n [pm_expr l] [q]) as (rs & R1 & R2 & _); auto.
    apply safe_td. split; [|intros x _ []]. exists rs, []. cbn [tp tn tc]. repeat split; auto.
    unfold qterm. rewrite R2. simpl. replace (q * qc1)%Qc with q by (rewrite qc1_eq; ring). rewrite qc1_eq. field. discriminate.
  Qed.
  Lemma whole_neg_power l q n : pmv l q -> q <> qc0 -> safe (ETD (T qc1 [] (rep n [pm_expr l]))) (/ qpow q n)%Qc.
  Proof.
    intros H Hq. destruct (rep_vals n [pm_expr l] [q]) as (rs & R1 & R2 & R3); auto.
    apply safe_td. split; [|intros x []]. exists [], rs. cbn [tp tn tc]. repeat split; auto.
    unfold qterm. rewrite R2. simpl. replace (q * qc1)%Qc with q by (rewrite qc1_eq; ring). rewrite qc1_eq. field.
    apply qc_field_nz, qpow_nonzero; auto.
  Qed.

  Lemma power_val n a e q : safe a q -> power srt n a = Ok e -> safe e (qpow q n).
  Proof.
    intros H E. unfold power in E. apply bind_ok_iff in E as (p & Ep & E). injection E as <-.
    pose proof (pm_nf_safe _ _ _ _ _ H Ep) as V. apply pm_simplify_val.
    assert (W : pmv (PM qc0 [T qc1 (rep n [pm_expr p]) []] []) (qpow q n)).
    { apply single_pos, whole_power; auto. }
    destruct (qeqb (pc p) qc0) eqn:Z; auto. apply qeqb_iff in Z.
    pose proof V as V0. apply pmv_terms in V as (ps & ns & P1 & P2 & Eq).
    destruct (pp p) as [|x [|x' l]] eqn:Epp, (pn p) as [|y [|y' m]] eqn:Epn; auto.
    - inversion P1; subst. inversion P2 as [|? z ? ? Hz P2']; subst. inversion P2'; subst.
      replace (pc p + qsum [] - qsum [z])%Qc with (- z)%Qc in * by (simpl; rewrite Z, qc0_eq; ring).
      rewrite qpow_opp. destruct (Nat.even n); [apply single_pos|apply single_neg]; apply term_power; auto.
    - inversion P2; subst. inversion P1 as [|? z ? ? Hz P1']; subst. inversion P1'; subst.
      replace (pc p + qsum [z] - qsum [])%Qc with z in * by (simpl; rewrite Z, qc0_eq; ring).
      apply single_pos, term_power; auto.
  Qed.
  Lemma neg_power_val n a e q : safe a q -> q <> qc0 -> neg_power srt n a = Ok e -> safe e (/ qpow q n)%Qc.
  Proof.
    intros H Hq E. unfold neg_power in E. apply bind_ok_iff in E as (p & Ep & E). apply bind_ok_iff in E as (r & Er & E). injection E as <-.
    pose proof (pm_nf_safe _ _ _ _ _ H Ep) as V. apply pm_simplify_val.
    assert (W : Ok (PM qc0 [T qc1 [] (rep n [pm_expr p])] []) = Ok r -> pmv r (/ qpow q n)%Qc).
    { intros Er'. injection Er' as <-. apply single_pos, whole_neg_power; auto. }
    destruct (qeqb (pc p) qc0) eqn:Z; auto. apply qeqb_iff in Z.
    pose proof V as V0. apply pmv_terms in V as (ps & ns & P1 & P2 & Eq).
    destruct (pp p) as [|x [|x' l]] eqn:Epp, (pn p) as [|y [|y' m]] eqn:Epn; auto.
    - inversion P1; subst. inversion P2 as [|? z ? ? Hz P2']; subst. inversion P2'; subst.
      apply bind_ok_iff in Er as (c & Ec & Er). injection Er as <-.
      replace (pc p + qsum [] - qsum [z])%Qc with (- z)%Qc in * by (simpl; rewrite Z, qc0_eq; ring).
      assert (z <> qc0) by (intros ->; apply Hq; rewrite qc0_eq; ring).
      rewrite qpow_opp. pose proof (term_neg_power _ _ _ _ Hz H0 Ec) as TP.
      destruct (Nat.even n); [apply single_pos; auto|].
      replace (/ (- qpow z n))%Qc with (- (/ qpow z n))%Qc; [apply single_neg; auto|].
      pose proof (qc_field_nz _ (qpow_nonzero z n H0)) as NZ. field. split; auto.
      intros K. apply NZ. transitivity (- (- qpow z n))%Qc; [ring|]. rewrite K. ring.
    - inversion P2; subst. inversion P1 as [|? z ? ? Hz P1']; subst. inversion P1'; subst.
      apply bind_ok_iff in Er as (c & Ec & Er). injection Er as <-.
      replace (pc p + qsum [z] - qsum [])%Qc with z in * by (simpl; rewrite Z, qc0_eq; ring).
      apply single_pos. eapply term_neg_power; eauto.
  Qed.
End Power.

(** ** Logic *)
Notation bid := (fun b : bool => b).
Section Sets.
  Context {A : Type}.
  Variable R : A -> bool -> Prop.
  Hypothesis Rfun : forall x b c, R x b -> R x c -> b = c.

  Lemma all_iff l bs : Forall2 R l bs -> (forallb bid bs = true <-> forall x, In x l -> R x true).
  Proof.
    induction 1 as [|x b l bs H1 H2 IH]; simpl; [split; auto; intros _ x []|].
    rewrite andb_true_iff, IH. split.
    - intros [-> H] y [<-|Hy]; auto.
    - intros H. split; [eapply Rfun; eauto|auto].
  Qed.
  Lemma any_iff l bs : Forall2 R l bs -> (existsb bid bs = true <-> exists x, In x l /\ R x true).
  Proof.
    induction 1 as [|x b l bs H1 H2 IH]; simpl; [split; [discriminate|intros (x & [] & _)]|].
    rewrite orb_true_iff, IH. split.
    - intros [->|(y & Hy & Ry)]; [exists x; auto|exists y; auto].
    - intros (y & [<-|Hy] & Ry); [left; eapply Rfun; eauto|right; exists y; auto].
  Qed.
  Lemma set_vals l l' bs : (forall x, In x l' <-> In x l) -> Forall2 R l bs ->
    exists bs', Forall2 R l' bs' /\ forallb bid bs' = forallb bid bs /\ existsb bid bs' = existsb bid bs.
  Proof.
    intros Hs H.
    assert (E : exists bs', Forall2 R l' bs').
    { assert (G : forall x, In x l' -> exists b, R x b).
      { intros x Hx. apply Hs in Hx. clear - Hx H. induction H; [destruct Hx|]. destruct Hx as [<-|]; eauto. }
      clear - G. induction l' as [|x l' IH]; [exists []; auto|].
      destruct (G x) as (b & Hb); [left; auto|]. destruct IH as (bs & Hbs); [intros; apply G; right; auto|].
      exists (b :: bs). auto. }
    destruct E as (bs' & H'). exists bs'. split; auto. split; apply Bool.eq_true_iff_eq.
    - rewrite (all_iff _ _ H), (all_iff _ _ H'). split; intros K x Hx; apply K, Hs; auto.
    - rewrite (any_iff _ _ H), (any_iff _ _ H'). split; intros (x & Hx & Rx); exists x; split; auto; apply Hs; auto.
  Qed.
End Sets.

Lemma string_leb_ltb s t : String.leb s t = negb (String.ltb t s).
Proof. unfold String.leb, String.ltb. rewrite (compare_antisym s t). destruct (String.compare t s); auto. Qed.

Section Logic.
  Variable user : string -> list arg -> res val.
  Hypothesis Hb : broadcasts user.
  Variable field : string -> res val.
  Variable srt : list expr -> list expr.
  Hypothesis srt_perm : forall l, Permutation l (srt l).
  Notation denote := (denote user field).

  Definition not_nan (a : arg) : Prop := arg_val a <> Ok (VNum NaN).
  Definition clean (e : expr) : Prop :=
    match e with
    | ERel _ l r => exists x y, denote l = Ok x /\ denote r = Ok y /\ not_nan x /\ not_nan y
    | EPred _ _ => True
    | _ => False
    end.
  (** A literal that is worth [b]. *)
  Definition lit_ok (e : expr) (b : bool) : Prop := clean e /\ denote e = Ok (AV (VBool b)).
  Definition conj (e : expr) (b : bool) : Prop :=
    exists l bs, e = EAnd l /\ l <> [] /\ Forall2 lit_ok l bs /\ b = forallb bid bs.
  Definition dnf (o : list expr) (b : bool) : Prop :=
    exists bs, o <> [] /\ Forall2 conj o bs /\ b = existsb bid bs.
  Lemma lit_fun x b c : lit_ok x b -> lit_ok x c -> b = c.
  Proof. intros [_ H1] [_ H2]. congruence. Qed.
  Lemma lit_list_fun l : forall bs cs, Forall2 lit_ok l bs -> Forall2 lit_ok l cs -> bs = cs.
  Proof.
    induction l as [|x l IH]; intros bs cs H1 H2; inversion H1; inversion H2; subst; auto.
    f_equal; [eapply lit_fun; eauto|auto].
  Qed.
  Lemma conj_fun x b c : conj x b -> conj x c -> b = c.
  Proof.
    intros (l & bs & -> & _ & H1 & ->) (m & cs & E & _ & H2 & ->). injection E as <-.
    f_equal. eapply lit_list_fun; eauto.
  Qed.
  Lemma sd_In x l : In x (srt (dedup l)) <-> In x l.
  Proof. rewrite (srt_In srt srt_perm). apply dedup_In. Qed.
  Lemma sd_nil l : l <> [] -> srt (dedup l) <> [].
  Proof. intros H E. destruct l as [|x l]; [auto|]. assert (In x (srt (dedup (x :: l)))) by (apply sd_In; left; auto). rewrite E in H0. destruct H0. Qed.

  Lemma mk_and_ok l bs : l <> [] -> Forall2 lit_ok l bs -> conj (mk_and srt l) (forallb bid bs).
  Proof.
    intros Hl H. destruct (set_vals lit_ok lit_fun l (srt (dedup l)) bs) as (bs' & B1 & B2 & _); [intros; apply sd_In|auto|].
    exists (srt (dedup l)), bs'. repeat split; auto. apply sd_nil; auto.
  Qed.
  Lemma sd_dnf l bs : l <> [] -> Forall2 conj l bs -> dnf (srt (dedup l)) (existsb bid bs).
  Proof.
    intros Hl H. destruct (set_vals conj conj_fun l (srt (dedup l)) bs) as (bs' & B1 & _ & B2); [intros; apply sd_In|auto|].
    exists bs'. repeat split; auto. apply sd_nil; auto.
  Qed.
  Lemma app_ne {A} (l m : list A) : l <> [] -> l ++ m <> [].
  Proof. destruct l; simpl; congruence. Qed.
  Lemma or_combine_ok a b p q : dnf a p -> dnf b q -> dnf (or_combine srt a b) (p || q).
  Proof.
    intros (ps & N1 & P1 & ->) (qs & N2 & Q1 & ->). rewrite <- existsb_app. apply sd_dnf; [apply app_ne; auto|].
    apply Forall2_app; auto.
  Qed.
  Lemma conj_and x y p q : conj x p -> conj y q -> conj (mk_and srt (and_args x ++ and_args y)) (p && q).
  Proof.
    intros (l & bs & -> & N1 & H1 & ->) (m & cs & -> & N2 & H2 & ->). simpl. rewrite <- forallb_app.
    apply mk_and_ok; [apply app_ne; auto|apply Forall2_app; auto].
  Qed.
  Lemma and_combine_ok a b p q : dnf a p -> dnf b q -> dnf (and_combine srt a b) (p && q).
  Proof.
    intros (ps & N1 & P1 & ->) (qs & N2 & Q1 & ->).
    set (pr := flat_map (fun x => map (fun y => mk_and srt (and_args x ++ and_args y)) b) a).
    assert (F : Forall2 conj pr (flat_map (fun x => map (fun y => x && y) qs) ps)).
    { unfold pr. clear N1. induction P1 as [|x p a ps Hx Ha IH]; simpl; auto. apply Forall2_app; auto.
      clear - Q1 Hx srt_perm. induction Q1; simpl; auto. constructor; auto. apply conj_and; auto. }
    assert (E : existsb bid (flat_map (fun x => map (fun y => x && y) qs) ps) = existsb bid ps && existsb bid qs).
    { clear. induction ps as [|p ps IH]; simpl; auto. rewrite existsb_app, IH.
      assert (K : existsb bid (map (fun y => p && y) qs) = p && existsb bid qs).
      { clear. induction qs as [|q qs IH]; simpl; [rewrite andb_false_r; auto|]. rewrite IH. destruct p, q; auto. }
      rewrite K. destruct p, (existsb bid qs), (existsb bid ps); auto. }
    rewrite <- E. apply sd_dnf; auto.
    unfold pr. destruct a; [congruence|]. destruct b; [congruence|]. simpl. congruence.
  Qed.

  (** ** Negation *)
  Lemma cmp_rel c l r x y b : denote l = Ok x -> denote r = Ok y -> compare_nf c x y = Ok b ->
    denote (ERel c l r) = Ok (AV (VBool b)).
  Proof. intros H1 H2 H3. simpl. rewrite H1, H2. cbn [bind]. rewrite H3. auto. Qed.
  Lemma val_lt_le x y p : x <> VNum NaN -> y <> VNum NaN -> val_ltb x y = Ok p -> val_leb y x = Ok (negb p).
  Proof.
    destruct x, y; simpl; intros Hx Hy H; try discriminate; injection H as <-; f_equal.
    - apply nleb_nltb; [destruct x0|destruct x]; auto; congruence.
    - apply string_leb_ltb.
    - destruct b, b0; auto.
  Qed.
  Lemma val_le_lt x y p : x <> VNum NaN -> y <> VNum NaN -> val_leb x y = Ok p -> val_ltb y x = Ok (negb p).
  Proof.
    destruct x, y; simpl; intros Hx Hy H; try discriminate; injection H as <-; f_equal.
    - rewrite nleb_nltb, negb_involutive; auto; [destruct x|destruct x0]; auto; congruence.
    - rewrite string_leb_ltb, negb_involutive. auto.
    - destruct b, b0; auto.
  Qed.
  Lemma negate_lit_ok x y b : lit_ok x b -> negate_lit x = Ok y -> lit_ok y (negb b).
  Proof.
    intros [C D] H. destruct x; try discriminate H.
    - injection H as <-. split; [exact I|]. simpl in *. apply bind_ok_iff in D as (v & V & D). rewrite V. cbn [bind].
      apply bind_ok_iff in D as (t & T & D). rewrite T. cbn [bind]. injection D as <-. do 3 f_equal.
      destruct positive, t; auto.
    - destruct C as (u & w & U & W & NU & NW). simpl in D. rewrite U, W in D. cbn [bind] in D.
      apply bind_ok_iff in D as (b' & D & E). injection E as ->.
      assert (G : forall c' l r x y, denote l = Ok x -> denote r = Ok y -> not_nan x -> not_nan y ->
                  compare_nf c' x y = Ok (negb b) -> lit_ok (ERel c' l r) (negb b)).
      { intros c' l' r' x' y' H1 H2 H3 H4 H5. split; [exists x', y'; auto|]. eapply cmp_rel; eauto. }
      destruct c; injection H as <-; (eapply G; [eassumption|eassumption|eassumption|eassumption|]);
        unfold compare_nf, compare in *.
      + apply bind_ok_iff in D as (p & P & D). apply bind_ok_iff in D as (q & Q & D). rewrite P, Q. cbn [bind]. rewrite D. auto.
      + apply bind_ok_iff in D as (p & P & D). apply bind_ok_iff in D as (q & Q & D). rewrite P, Q. cbn [bind].
        apply rmap_ok_iff in D as (z & Z & ->). rewrite Z, negb_involutive. auto.
      + apply bind_ok_iff in D as (p & P & D). apply bind_ok_iff in D as (q & Q & D). rewrite P, Q. cbn [bind].
        apply val_lt_le; auto; intros ->; auto.
      + apply bind_ok_iff in D as (p & P & D). apply bind_ok_iff in D as (q & Q & D). rewrite P, Q. cbn [bind].
        apply val_le_lt; auto; intros ->; auto.
      + destruct w as [[|m|]|]; try discriminate D. apply bind_ok_iff in D as (p & P & D). rewrite P. cbn [bind].
        injection D as <-. auto.
      + destruct w as [[|m|]|]; try discriminate D. apply bind_ok_iff in D as (p & P & D). rewrite P. cbn [bind].
        injection D as <-. rewrite negb_involutive. auto.
  Qed.
  Lemma negate_lits l bs : Forall2 lit_ok l bs -> forall m, mapM negate_lit l = Ok m -> Forall2 lit_ok m (map negb bs).
  Proof.
    induction 1 as [|x b l bs Hx Hl IH]; intros m H; simpl in H.
    - injection H as <-. constructor.
    - apply bind_ok_iff in H as (y & Ey & H). apply bind_ok_iff in H as (ys & Eys & H). injection H as <-.
      simpl. constructor; auto. eapply negate_lit_ok; eauto.
  Qed.
  Lemma choices_F2 ls bss : Forall2 (Forall2 lit_ok) ls bss -> Forall2 (Forall2 lit_ok) (choices ls) (choices bss).
  Proof.
    induction 1 as [|l bs ls bss Hl H IH]; simpl; [repeat constructor|].
    induction Hl as [|x b l bs Hx Hl IHl]; simpl; auto. apply Forall2_app; auto.
    clear - IH Hx. induction IH; simpl; auto.
  Qed.
  Lemma choices_val bss : existsb (forallb bid) (choices bss) = forallb (existsb bid) bss.
  Proof.
    induction bss as [|bs bss IH]; simpl; auto.
    induction bs as [|b bs IHb]; simpl; auto.
    rewrite existsb_app, IHb.
    assert (K : existsb (forallb bid) (map (cons b) (choices bss)) = b && existsb (forallb bid) (choices bss)).
    { clear. induction (choices bss) as [|c cs IH]; simpl; [rewrite andb_false_r; auto|]. rewrite IH.
      destruct b, (forallb bid c); auto. }
    rewrite K, IH. destruct b, (existsb bid bs), (forallb (existsb bid) bss); auto.
  Qed.
  Lemma choices_ne {A} (ls : list (list A)) : Forall (fun l => l <> []) ls -> choices ls <> [].
  Proof.
    induction 1 as [|l ls Hl H IH]; simpl; [congruence|]. destruct l; [congruence|]. simpl.
    destruct (choices ls); [congruence|]. simpl. congruence.
  Qed.
  Lemma choices_len {A} (ls : list (list A)) c : In c (choices ls) -> length c = length ls.
  Proof.
    revert c. induction ls as [|l ls IH]; simpl; intros c H; [destruct H as [<-|[]]; auto|].
    apply in_flat_map in H as (x & _ & H). apply in_map_iff in H as (d & <- & H). simpl. f_equal. auto.
  Qed.

  (** What a parsed logical expression that is worth [b] looks like. *)
  Definition logic (e : expr) (b : bool) : Prop :=
    match e with
    | EPred _ _ | ERel _ _ _ => lit_ok e b
    | EAnd _ => conj e b
    | EOr l => dnf l b
    | EName s => exists v, field s = Ok v /\ val_truth v = Ok b
    | _ => True
    end.
  Lemma single_dnf e b : lit_ok e b -> dnf [EAnd [e]] b.
  Proof.
    intros H. exists [b]. split; [congruence|]. split; [|simpl; rewrite orb_false_r; auto].
    constructor; auto. exists [e], [b]. repeat split; auto; try congruence. simpl. rewrite andb_true_r. auto.
  Qed.
  Lemma or_nf_ok e b o : logic e b -> or_nf e = Ok o -> dnf o b.
  Proof.
    intros L H. destruct e; try discriminate H; injection H as <-; simpl in L; auto.
    - apply single_dnf. split; [exact I|]. destruct L as (v & V & T). simpl. rewrite V. cbn [bind]. rewrite T. auto.
    - apply single_dnf; auto.
    - apply single_dnf; auto.
    - exists [b]. split; [congruence|]. split; [|simpl; rewrite orb_false_r; auto]. auto.
  Qed.

  Lemma or_negate_ok e b o : logic e b -> or_negate srt e = Ok o -> dnf o (negb b).
  Proof.
    intros L H. unfold or_negate in H. apply bind_ok_iff in H as (d & Ed & H). apply bind_ok_iff in H as (u & Eu & H).
    injection H as <-. apply (or_nf_ok _ _ _ L) in Ed as (bs & Nd & Hd & ->).
    assert (G : exists bss, Forall2 (Forall2 lit_ok) u bss /\ forallb (existsb bid) bss = negb (existsb bid bs)
                /\ Forall (fun l => l <> []) u).
    { clear Nd L. revert u Eu. induction Hd as [|x b d bs Hx Hd IH]; intros u Eu; simpl in Eu.
      - injection Eu as <-. exists []. repeat split; auto.
      - apply bind_ok_iff in Eu as (y & Ey & Eu). apply bind_ok_iff in Eu as (ys & Eys & Eu). injection Eu as <-.
        destruct (IH _ Eys) as (bss & B1 & B2 & B3). destruct Hx as (l & cs & -> & Nl & Hl & ->). simpl in Ey.
        exists (map negb cs :: bss). split; [constructor; auto; eapply negate_lits; eauto|]. split.
        + simpl. rewrite B2. assert (K : existsb bid (map negb cs) = negb (forallb bid cs)).
          { clear. induction cs as [|c cs IH]; simpl; auto. rewrite IH. destruct c; auto. }
          rewrite K. destruct (forallb bid cs), (existsb bid bs); auto.
        + constructor; auto. intros ->. apply mapM_Forall2 in Ey. inversion Ey; subst. auto. }
    destruct G as (bss & B1 & B2 & B3). rewrite <- B2, <- choices_val.
    assert (F : Forall2 conj (map (mk_and srt) (choices u)) (map (forallb bid) (choices bss))).
    { pose proof (choices_F2 _ _ B1) as C.
      assert (NE : Forall (fun c => c <> []) (choices u)).
      { apply Forall_forall. intros c Hc ->. apply choices_len in Hc. destruct u; [|discriminate].
        apply mapM_Forall2 in Eu. inversion Eu; subst. auto. }
      clear - C NE srt_perm. induction C as [|c cs ls bs Hc C IH]; simpl; auto. inversion NE; subst.
      constructor; auto. apply mk_and_ok; auto. }
    assert (K : existsb (forallb bid) (choices bss) = existsb bid (map (forallb bid) (choices bss))).
    { clear. induction (choices bss); simpl; congruence. }
    rewrite K. apply sd_dnf; auto. intros E. apply map_eq_nil in E. revert E. apply choices_ne; auto.
  Qed.

  (** ** Back to an expression *)
  Lemma conj_denote e b : conj e b -> denote e = Ok (AV (VBool b)).
  Proof.
    intros (l & bs & -> & _ & H & ->). rewrite denote_and.
    assert (E : mapM denote l = Ok (map (fun b => AV (VBool b)) bs)).
    { induction H as [|x b l bs [_ Hx] Hl IH]; auto. simpl. rewrite Hx. cbn [bind]. rewrite IH. auto. }
    rewrite E. cbn [bind]. assert (T : truths (map (fun b => AV (VBool b)) bs) = Ok bs).
    { clear. unfold truths. induction bs as [|b bs IH]; auto. simpl. rewrite IH. auto. }
    rewrite T. auto.
  Qed.
  Lemma dnf_denote o b : dnf o b -> denote (EOr o) = Ok (AV (VBool b)).
  Proof.
    intros (bs & _ & H & ->). rewrite denote_or.
    assert (E : mapM denote o = Ok (map (fun b => AV (VBool b)) bs)).
    { induction H as [|x b l bs Hx Hl IH]; auto. simpl. rewrite (conj_denote _ _ Hx). cbn [bind]. rewrite IH. auto. }
    rewrite E. cbn [bind]. assert (T : truths (map (fun b => AV (VBool b)) bs) = Ok bs).
    { clear. unfold truths. induction bs as [|b bs IH]; auto. simpl. rewrite IH. auto. }
    rewrite T. auto.
  Qed.
  Lemma lit_not_const e b k : lit_ok e b -> expr_same (k_bool k) e = false.
  Proof.
    intros [C _]. destruct (expr_same (k_bool k) e) eqn:E; auto. apply expr_same_eq in E. subst. destruct C.
  Qed.
  Lemma and_simplify_ok l b : conj (EAnd l) b -> denote (and_simplify l) = Ok (AV (VBool b)) /\ logic (and_simplify l) b
    /\ bool_shape (and_simplify l) = true.
  Proof.
    intros H. pose proof (conj_denote _ _ H) as D. pose proof H as (m & bs & E & Nl & HF & ->). injection E as <-.
    unfold and_simplify.
    assert (A : forallb (expr_same (k_bool true)) l = false).
    { inversion HF; subst; [congruence|]. simpl. rewrite (lit_not_const _ _ true H0). auto. }
    assert (B : existsb (expr_same (k_bool false)) l = false).
    { clear - HF. induction HF; auto. simpl. rewrite (lit_not_const _ _ false H), IHHF. auto. }
    rewrite A, B. inversion HF as [|x c l' bs' Hx HF']; subst; [congruence|].
    inversion HF' as [|x' c' l'' bs'' Hx' HF'']; subst.
    - simpl. rewrite andb_true_r. split; [apply Hx|]. pose proof Hx as [C _].
      destruct x; simpl in C; try tauto; simpl; auto.
    - split; auto. 
  Qed.
  Lemma or_simplify_ok o b : dnf o b -> denote (or_simplify o) = Ok (AV (VBool b)) /\ logic (or_simplify o) b
    /\ bool_shape (or_simplify o) = true.
  Proof.
    intros H. pose proof (dnf_denote _ _ H) as D. pose proof H as (bs & No & HF & ->).
    unfold or_simplify.
    assert (NC : forall k e b, conj e b -> expr_same (k_bool k) e = false).
    { intros k e c (l & ? & -> & _). reflexivity. }
    assert (A : forallb (expr_same (k_bool false)) o = false).
    { inversion HF; subst; [congruence|]. simpl. rewrite (NC false _ _ H0). auto. }
    assert (B : existsb (expr_same (k_bool true)) o = false).
    { clear - HF NC. induction HF; auto. simpl. rewrite (NC true _ _ H), IHHF. auto. }
    rewrite A, B. inversion HF as [|x c l' bs' Hx HF']; subst; [congruence|].
    inversion HF' as [|x' c' l'' bs'' Hx' HF'']; subst.
    - simpl. rewrite orb_false_r. pose proof Hx as (l & ? & -> & _). apply and_simplify_ok. auto.
    - split; auto. 
  Qed.

  Lemma mapM_or_nf es bs os : Forall2 logic es bs -> mapM or_nf es = Ok os -> Forall2 dnf os bs.
  Proof.
    intros H. revert os. induction H as [|e b es bs He Hes IH]; intros os E; simpl in E.
    - injection E as <-. constructor.
    - apply bind_ok_iff in E as (o & Eo & E). apply bind_ok_iff in E as (os' & Eos & E). injection E as <-.
      constructor; auto. eapply or_nf_ok; eauto.
  Qed.
  Lemma fold_ok (f : list expr -> list expr -> list expr) (op : bool -> bool -> bool) os bs :
    (forall a b p q, dnf a p -> dnf b q -> dnf (f a b) (op p q)) -> Forall2 dnf os bs ->
    forall a p, dnf a p -> dnf (fold_left f os a) (fold_left op bs p).
  Proof. intros Hf H. induction H; intros a p Ha; simpl; auto. Qed.
  Lemma fold_andb bs : forall p, fold_left andb bs p = p && forallb bid bs.
  Proof. induction bs as [|b bs IH]; intros p; simpl; [rewrite andb_true_r; auto|]. rewrite IH, andb_assoc. auto. Qed.
  Lemma fold_orb bs : forall p, fold_left orb bs p = p || existsb bid bs.
  Proof. induction bs as [|b bs IH]; intros p; simpl; [rewrite orb_false_r; auto|]. rewrite IH, orb_assoc. auto. Qed.
  Lemma and_all_ok es bs e : Forall2 logic es bs -> and_all srt es = Ok e ->
    denote e = Ok (AV (VBool (forallb bid bs))) /\ logic e (forallb bid bs) /\ bool_shape e = true.
  Proof.
    intros H E. unfold and_all in E. apply bind_ok_iff in E as (os & Eo & E). apply bind_ok_iff in E as (o & E1 & E). injection E as <-.
    apply (mapM_or_nf _ _ _ H) in Eo. destruct Eo as [|a p os bs' Ha Hos]; [discriminate|]. injection E1 as <-.
    apply or_simplify_ok. simpl. rewrite <- fold_andb. apply fold_ok; auto. apply and_combine_ok.
  Qed.
  Lemma or_all_ok es bs e : Forall2 logic es bs -> or_all srt es = Ok e ->
    denote e = Ok (AV (VBool (existsb bid bs))) /\ logic e (existsb bid bs) /\ bool_shape e = true.
  Proof.
    intros H E. unfold or_all in E. apply bind_ok_iff in E as (os & Eo & E). apply bind_ok_iff in E as (o & E1 & E). injection E as <-.
    apply (mapM_or_nf _ _ _ H) in Eo. destruct Eo as [|a p os bs' Ha Hos]; [discriminate|]. injection E1 as <-.
    apply or_simplify_ok. simpl. rewrite <- fold_orb. apply fold_ok; auto. apply or_combine_ok.
  Qed.
  Lemma negation_ok a b e : logic a b -> negation srt a = Ok e ->
    denote e = Ok (AV (VBool (negb b))) /\ logic e (negb b) /\ bool_shape e = true.
  Proof.
    intros L H. assert (G : (do o <- or_negate srt a; Ok (or_simplify o)) = Ok e ->
      denote e = Ok (AV (VBool (negb b))) /\ logic e (negb b) /\ bool_shape e = true).
    { intros G. apply bind_ok_iff in G as (o & Eo & G). injection G as <-. apply or_simplify_ok. eapply or_negate_ok; eauto. }
    destruct a; try (apply G; exact H). injection H as <-. destruct L as (v & V & T).
    assert (D : denote (EPred s false) = Ok (AV (VBool (negb b)))) by (simpl; rewrite V; cbn [bind]; rewrite T; auto).
    split; auto. split; auto. split; auto. exact I.
  Qed.

  (** ** Comparisons *)
  Lemma val_eqb_sym x y : val_eqb x y = val_eqb y x.
  Proof.
    destruct x, y; simpl; auto; f_equal.
    - apply neqb_sym.
    - apply String.eqb_sym.
    - destruct b, b0; auto.
  Qed.
  Lemma compare_same o x y x' y' : same_arg x x' -> same_arg y y' -> compare o x y = compare o x' y'.
  Proof.
    intros H1 H2. pose proof (same_arg_val _ _ H1) as V1. pose proof (same_arg_val _ _ H2) as V2.
    destruct o; unfold compare; rewrite V1, ?V2; auto.
    - destruct H2 as [->|[(v & W1 & W2)|(l & m & -> & -> & HS)]]; auto.
      + destruct y as [[| |]|], y' as [[| |]|]; simpl in *; auto; congruence.
      + destruct (arg_val x'); auto. simpl. rewrite (existsb_same _ _ _ HS). auto.
    - destruct H2 as [->|[(v & W1 & W2)|(l & m & -> & -> & HS)]]; auto.
      + destruct y as [[| |]|], y' as [[| |]|]; simpl in *; auto; congruence.
      + destruct (arg_val x'); auto. simpl. rewrite (existsb_same _ _ _ HS). auto.
  Qed.
  Lemma relation_ok o l r x y b e : denote l = Ok x -> denote r = Ok y -> not_nan x -> not_nan y ->
    compare o x y = Ok b -> relation srt o l r = Ok e -> lit_ok e b /\ bool_shape e = true.
  Proof.
    intros Hl Hr Nx Ny Hc H.
    assert (G : forall c l r x y, denote l = Ok x -> denote r = Ok y -> not_nan x -> not_nan y ->
                compare_nf c x y = Ok b -> lit_ok (ERel c l r) b /\ bool_shape (ERel c l r) = true).
    { intros c l' r' x' y' H1 H2 H3 H4 H5. split; [|reflexivity]. split; [exists x', y'; auto|]. eapply cmp_rel; eauto. }
    assert (S : forall p q, srt [l; r] = [p; q] -> (p = l /\ q = r) \/ (p = r /\ q = l)).
    { intros p q E. pose proof (srt_perm [l; r]) as P. rewrite E in P. apply Permutation_length_2_inv in P as [P|P]; injection P as -> ->; auto. }
    destruct o; simpl in H.
    - destruct (srt [l; r]) as [|p [|q [|]]] eqn:E; try discriminate H. injection H as <-.
      destruct (S p q eq_refl) as [[-> ->]|[-> ->]]; [eapply G; eauto|]. eapply G; eauto. simpl in *.
      apply bind_ok_iff in Hc as (u & U & Hc). apply bind_ok_iff in Hc as (w & W & Hc). rewrite U, W. cbn [bind].
      rewrite val_eqb_sym. auto.
    - destruct (srt [l; r]) as [|p [|q [|]]] eqn:E; try discriminate H. injection H as <-.
      destruct (S p q eq_refl) as [[-> ->]|[-> ->]]; [eapply G; eauto|]. eapply G; eauto. simpl in *.
      apply bind_ok_iff in Hc as (u & U & Hc). apply bind_ok_iff in Hc as (w & W & Hc). rewrite U, W. cbn [bind].
      rewrite val_eqb_sym. auto.
    - injection H as <-. eapply G; eauto.
    - injection H as <-. eapply G; eauto.
    - injection H as <-. eapply G; eauto. simpl in *.
      apply bind_ok_iff in Hc as (u & U & Hc). apply bind_ok_iff in Hc as (w & W & Hc). rewrite U, W. auto.
    - injection H as <-. eapply G; eauto. simpl in *.
      apply bind_ok_iff in Hc as (u & U & Hc). apply bind_ok_iff in Hc as (w & W & Hc). rewrite U, W. auto.
    - destruct r as [[| |]| | | | | | | |]; try discriminate H. injection H as <-. eapply G; eauto.
    - destruct r as [[| |]| | | | | | | |]; try discriminate H. injection H as <-. eapply G; eauto.
  Qed.
End Logic.
