(** C38: thresholds that are nearly edges. *)
From Coq Require Import String Lqa Sorted.
From Verif Require Import Base Num NumFacts Axis AxisSpec AxisProofs AxisProofs2 AxisMain Calc Content Fill FillSpec FillProofs FillProofs2 FillProofs3 FillMain
  Tree Order Expr ExprFacts HistAlg AlgSpec HistAlgProofs HistAlgMain Props_Alg Nd NdProofs Proj ProjSpec ProjProofs ProjMain ProjLaws Props_Proj
  Select SelSpec SelAxis SelAxis2 Remap SelContent SelMain SelFill SelHist SelOr SelKeys Props_Select.
Local Open Scope string_scope.
Local Open Scope list_scope.

Lemma absdiff_lt x e t : nltb (absdiff (Fin x) (Fin e)) (Fin t) = true <-> (this x - this e < this t)%Q /\ (this e - this x < this t)%Q.
Proof.
  unfold absdiff. change (nsub (Fin x) (Fin e)) with (Fin (x - e)%Qc). change (nsub (Fin e) (Fin x)) with (Fin (e - x)%Qc). unfold nzero. cbn [nltb].
  destruct (qltb (x - e) qc0) eqn:E; cbn [nltb]; rewrite qltb_iff.
  - apply qltb_iff in E. revert E. qc_push. intros E. split; intros; [split|]; lra.
  - apply qltb_false in E. revert E. qc_push. intros E. split; intros; [split|]; lra.
Qed.
Lemma qround_near q z : (this q - inject_Z z < 1 # 2)%Q -> (inject_Z z - this q < 1 # 2)%Q -> qround q = z.
Proof.
  intros H1 H2. unfold qround. assert (Hh : (this (qfrac 1 2) == 1 # 2)%Q) by reflexivity.
  destruct (Qlt_le_dec (this q) (inject_Z z)) as [L|L].
  - assert (F : qfloor q = (z - 1)%Z).
    { apply qfloor_unique; [|replace (z - 1 + 1)%Z with z by lia; auto]. unfold Z.sub. rewrite inject_Z_plus. change (inject_Z (-(1))) with (-(1))%Q. lra. }
    rewrite F. replace (qltb (q - qz (z - 1)) (qfrac 1 2)) with false.
    + replace (qltb (qfrac 1 2) (q - qz (z - 1))) with true; [lia|]. symmetry. apply qltb_iff. rewrite Hh. qc_push. unfold Z.sub. rewrite inject_Z_plus. change (inject_Z (-(1))) with (-(1))%Q. lra.
    + symmetry. apply qltb_false. rewrite Hh. qc_push. unfold Z.sub. rewrite inject_Z_plus. change (inject_Z (-(1))) with (-(1))%Q. lra.
  - rewrite (qfloor_unique q z) by (auto; rewrite inject_Z_plus; change (inject_Z 1) with 1%Q; lra).
    replace (qltb (q - qz z) (qfrac 1 2)) with true; auto. symmetry. apply qltb_iff. rewrite Hh. qc_push. lra.
Qed.

(** Which edge is nearest. *)
Lemma nearest_stays x d q j ys : (forall y, In y ys -> nltb d (absdiff x y) = true) -> forall i, nearest x i ys (d, q, j) = (d, q, j).
Proof.
  induction ys as [|y ys IH]; intros H i; [reflexivity|]. cbn [nearest]. assert (Hy := H y (or_introl eq_refl)).
  replace (nltb (absdiff x y) d || neqb (absdiff x y) d && nltb y q) with false; [apply IH; intros z Hz; apply H; right; auto|].
  destruct d as [d| | |], (absdiff x y) as [w| | |]; cbn in *; try discriminate; try reflexivity. apply qltb_iff in Hy.
  replace (qltb w d) with false by (symmetry; apply qltb_false; lra). replace (qeqb w d) with false; auto. symmetry. apply qeqb_false. intros ->. lra.
Qed.
Lemma nearest_at x q ys : forall k i best, nth_error ys k = Some q ->
  (forall k' y, nth_error ys k' = Some y -> k' <> k -> nltb (absdiff x q) (absdiff x y) = true) -> nltb (absdiff x q) (fst (fst best)) = true ->
  nearest x i ys best = (absdiff x q, q, i + k).
Proof.
  induction ys as [|y ys IH]; intros k i [[bd bx] bi] Hk Ho Hb; [destruct k; discriminate|]. cbn [nearest fst] in *. destruct k as [|k].
  - injection Hk as ->. rewrite Hb. cbn [orb]. rewrite Nat.add_0_r. apply nearest_stays. intros z Hz. apply In_nth_error in Hz. destruct Hz as (k' & Hk'). apply (Ho (S k')); auto.
  - rewrite <- Nat.add_succ_comm. apply IH; auto.
    + intros k' z Hk' Hne. apply (Ho (S k')); auto.
    + assert (Hy := Ho 0 y eq_refl ltac:(discriminate)). destruct (nltb (absdiff x y) bd || neqb (absdiff x y) bd && nltb y bx); auto.
Qed.
Lemma sorted_distinct es : strictly_sorted es -> forall i j x y, nth_error es i = Some x -> nth_error es j = Some y -> i < j -> nltb x y = true.
Proof.
  intros H. induction H as [|a l H IH Hf]; intros i j x y Hi Hj Hlt; [destruct i; discriminate|]. destruct j as [|j]; [lia|]. destruct i as [|i].
  - injection Hi as ->. rewrite Forall_forall in Hf. apply Hf. eapply nth_error_In; eauto.
  - apply (IH i j); auto. lia.
Qed.
Lemma far_absdiff t x q y : (this x - this q < this t)%Q -> (this q - this x < this t)%Q -> y <> NaN ->
  (forall z, y = Fin z -> (2 * this t <= this z - this q \/ 2 * this t <= this q - this z)%Q) -> nltb (absdiff (Fin x) (Fin q)) (absdiff (Fin x) y) = true.
Proof.
  intros H1 H2 Hn Hf. assert (HA : exists d, absdiff (Fin x) (Fin q) = Fin d /\ (this d < this t)%Q).
  { unfold absdiff. change (nsub (Fin x) (Fin q)) with (Fin (x - q)%Qc). change (nsub (Fin q) (Fin x)) with (Fin (q - x)%Qc).
    destruct (nltb (Fin (x - q)) nzero); eexists; (split; [reflexivity|]); qc_push; auto. }
  destruct HA as (d & -> & Hd). destruct y as [z| | |]; try reflexivity; try congruence.
  destruct (nltb (Fin d) (absdiff (Fin x) (Fin z))) eqn:E; auto. exfalso.
  assert (HB : exists w, absdiff (Fin x) (Fin z) = Fin w /\ (this x - this z <= this w)%Q /\ (this z - this x <= this w)%Q).
  { unfold absdiff. change (nsub (Fin x) (Fin z)) with (Fin (x - z)%Qc). change (nsub (Fin z) (Fin x)) with (Fin (z - x)%Qc). unfold nzero. cbn [nltb].
    destruct (qltb (x - z) qc0) eqn:Q; eexists; (split; [reflexivity|]).
    - apply qltb_iff in Q. revert Q. qc_push. intros. split; lra.
    - apply qltb_false in Q. revert Q. qc_push. intros. split; lra. }
  destruct HB as (w & HB & W1 & W2). rewrite HB in E. cbn in E. apply qltb_false in E. destruct (Hf z eq_refl); lra.
Qed.
(** The tolerance is at most half a bin. *)
Definition half_bin (a : axis) (t : Qc) : Prop :=
  match a with
  | ABin _ n (Fin l) (Fin h) _ _ _ _ => (2 * this t * inject_Z (Z.of_nat n) <= this h - this l)%Q
  | AIntbin _ _ _ _ _ => (2 * this t <= 1)%Q
  | ASplit _ es _ _ _ _ => forall y z, In (Fin y) es -> In (Fin z) es -> (this y < this z)%Q -> (2 * this t <= this z - this y)%Q
  | _ => False
  end.
Lemma near_select a c q n t : numeric_axis a -> half_bin a t -> is_edge a (Fin q) -> nltb (absdiff (Fin n) (Fin q)) (Fin t) = true ->
  axis_select a c (KS (SNum (Fin n))) (Fin t) = axis_select a c (KS (SNum (Fin q))) (Fin t).
Proof.
  intros Ha Hb He Hd. pose proof Hd as Hd'. apply absdiff_lt in Hd'. destruct Hd' as (D1 & D2).
  assert (Ht : (0 < this t)%Q) by lra.
  assert (Hq : nltb (absdiff (Fin q) (Fin q)) (Fin t) = true) by (apply absdiff_lt; lra).
  destruct a; cbn in Ha, Hb; try contradiction; cbn [axis_select].
  - destruct (numeric_bin _ _ _ _ _ _ _ _ Ha) as (l & h & -> & -> & Hn & Hlh). destruct He as (j & Hj & He). rewrite i2x_edge in He by auto. injection He as ->.
    unfold bin_select. cbn [as_real is_ninf is_pinf isnan andb].
    assert (Hz : qeqb (h - l) qc0 = false). { apply qeqb_false. intros E. apply Qc_ext_iff in E. revert E. qc_push. lra. }
    change (nsub (Fin h) (Fin l)) with (Fin (h - l)%Qc). replace (neqb (Fin (h - l)) nzero) with false by (cbn; auto).
    assert (Es : ndiv (nnat numbins) (Fin (h - l)) = Fin (qz (Z.of_nat numbins) / (h - l))%Qc) by (unfold nnat, nz, ndiv; rewrite Hz; reflexivity).
    pose proof (qn_pos numbins Hn) as Hp.
    assert (R : forall x, (this x - this (edge numbins l h j) < this t)%Q -> (this (edge numbins l h j) - this x < this t)%Q ->
                nround (nmul (nsub (Fin x) (Fin l)) (Fin (qz (Z.of_nat numbins) / (h - l))%Qc)) = Ok (Z.of_nat j)).
    { intros x X1 X2. change (nsub (Fin x) (Fin l)) with (Fin (x - l)%Qc). cbn [nmul nround]. f_equal.
      assert (E : (this ((x - l) * (qz (Z.of_nat numbins) / (h - l)))%Qc - inject_Z (Z.of_nat j) == (this x - this (edge numbins l h j)) * (inject_Z (Z.of_nat numbins) / (this h - this l)))%Q).
      { unfold edge. qc_push. field. split; intros ?; lra. }
      assert (S : (0 < inject_Z (Z.of_nat numbins) / (this h - this l))%Q) by (apply Qlt_shift_div_l; lra).
      assert (B : (this t * (inject_Z (Z.of_nat numbins) / (this h - this l)) <= 1 # 2)%Q).
      { assert (Q : (this t * (inject_Z (Z.of_nat numbins) / (this h - this l)) == (this t * inject_Z (Z.of_nat numbins)) / (this h - this l))%Q) by (field; lra).
        rewrite Q. apply Qle_shift_div_r; lra. }
      apply qround_near.
      - rewrite E. eapply Qlt_le_trans; [|exact B]. apply Qmult_lt_compat_r; auto.
      - setoid_replace (inject_Z (Z.of_nat j) - this ((x - l) * (qz (Z.of_nat numbins) / (h - l)))%Qc)%Q
          with ((this (edge numbins l h j) - this x) * (inject_Z (Z.of_nat numbins) / (this h - this l)))%Q by (revert E; generalize (inject_Z (Z.of_nat numbins) / (this h - this l))%Q; intros; lra).
        eapply Qlt_le_trans; [|exact B]. apply Qmult_lt_compat_r; auto. }
    rewrite Es, (R n D1 D2), (R (edge numbins l h j)) by lra. cbn [bind].
    replace (Z.min (Z.of_nat numbins) (Z.max 0 (Z.of_nat j))) with (Z.of_nat j) by lia.
    rewrite <- Es. change (Fin (h - l)) with (nsub (Fin h) (Fin l)). rewrite (edge_scale numbins l h Hn Hlh), Hd, Hq. reflexivity.
  - destruct He as (z & Hz & He). injection He as ->. unfold intbin_select. cbn [as_real is_ninf is_pinf andb orb].
    assert (E : forall x, (this x - inject_Z z < this t)%Q -> (inject_Z z - this x < this t)%Q ->
              nltb (nadd (Fin x) (Fin t)) (nz mn) = false /\ nltb (nz mx) (nsub (Fin x) (Fin t)) = false /\ nround (Fin x) = Ok z).
    { intros x X1 X2. assert (inject_Z mn <= inject_Z z)%Q by (rewrite <- Zle_Qle; lia). assert (inject_Z z <= inject_Z mx)%Q by (rewrite <- Zle_Qle; lia).
      change (nsub (Fin x) (Fin t)) with (Fin (x - t)%Qc). unfold nz, nadd. cbn [nltb nround]. rewrite !qltb_false. qc_push.
      split; [lra|split; [lra|]]. f_equal. apply qround_near; lra. }
    change (this (qz z)) with (this (qz z)) in *. assert (Eq : (this (qz z) == inject_Z z)%Q) by (qc_push; reflexivity). rewrite Eq in D1, D2.
    destruct (E n D1 D2) as (-> & -> & ->). destruct (E (qz z)) as (-> & -> & ->); try (rewrite Eq; lra). cbn [bind]. change (nz z) with (Fin (qz z)). rewrite Hd, Hq. reflexivity.
  - destruct (numeric_split _ _ _ _ _ _ Ha) as (H1 & H2 & H3). cbn in He. unfold split_select. cbn [as_real is_ninf is_pinf isnan andb].
    destruct (In_nth_error _ _ He) as (k & Hk).
    assert (N : forall x, (this x - this q < this t)%Q -> (this q - this x < this t)%Q -> forall y0 ys, edges = y0 :: ys ->
              nearest (Fin x) 1 ys (absdiff (Fin x) y0, y0, 0) = (absdiff (Fin x) (Fin q), Fin q, k)).
    { intros x X1 X2 y0 ys Ees.
      assert (F : forall k' y, nth_error edges k' = Some y -> k' <> k -> nltb (absdiff (Fin x) (Fin q)) (absdiff (Fin x) y) = true).
      { intros k' y Hk' Hne. apply (far_absdiff t); auto; [apply H3; eapply nth_error_In; eauto|]. intros z ->. assert (Hz := nth_error_In _ _ Hk').
        destruct (Nat.lt_gt_cases k' k) as (Hc & _). destruct (Hc Hne) as [Hlt|Hlt].
        - right. apply Hb; auto. apply qltb_iff. exact (sorted_distinct _ H1 _ _ _ _ Hk' Hk Hlt).
        - left. apply Hb; auto. apply qltb_iff. exact (sorted_distinct _ H1 _ _ _ _ Hk Hk' Hlt). }
      rewrite Ees in Hk, F. destruct k as [|k].
      - injection Hk as ->. apply nearest_stays. intros y Hy. apply In_nth_error in Hy. destruct Hy as (k' & Hk'). apply (F (S k')); auto.
      - apply (nearest_at (Fin x) (Fin q) ys k 1); auto.
        + intros k' y Hk' Hne. apply (F (S k')); auto.
        + apply (F 0); auto. }
    destruct edges as [|y0 ys] eqn:Ees; [destruct He|]. rewrite (N n D1 D2 y0 ys eq_refl), (N q ltac:(lra) ltac:(lra) y0 ys eq_refl), Hd, Hq. reflexivity.
Qed.

Section Near.
  Variable mb : string -> option Num.
  Variable parse : string -> expr.
  Variable t : Qc.
  (** A number nearer to an edge than the tolerance, which is at most half a bin, selects what the edge
      selects. *)
  Theorem C38_selection_near_an_edge h e e' x c n m q a :
    hobj_ok h -> no_null h -> compares (asconst mb) e x c (KS (SNum (Fin n))) -> compares (asconst mb) e' x c (KS (SNum (Fin m))) ->
    only_axis parse h e x (length (o_group h) + q) a -> only_axis parse h e' x (length (o_group h) + q) a -> numeric_axis a -> half_bin a t ->
    is_edge a (Fin m) -> nltb (absdiff (Fin n) (Fin m)) (Fin t) = true -> aligned a c -> leaves_bins a c (Fin m) ->
    exists g, hist_select mb parse (Fin t) (view h) e = Ok g /\ hist_select mb parse (Fin t) (view h) e' = Ok g.
  Proof.
    intros Hok HN Hc Hc' Ho Ho' Hna Hb He Hd Hal Hl. assert (Ht : nltb nzero (Fin t) = true).
    { apply absdiff_lt in Hd. unfold nzero. cbn [nltb]. apply qltb_iff. qc_push. lra. }
    assert (Hs : small_for a (Fin t)).
    { destruct a; cbn; auto. cbn in Hb. apply nleb_fin. change (this (qfrac 1 2)) with (1 # 2)%Q. lra. }
    destruct (C38_selection_at_an_edge_succeeds mb parse (Fin t) h e' x c _ m q a Hok HN Hc' eq_refl Ho' Hna Hs Ht He Hal Hl) as (g & Eg). exists g. split; auto.
    destruct (axis_select_edge a c m (Fin t) Hna Ht He Hal Hl) as (a' & s & Ea). rewrite (select_when _ _ _ _ _ _ _ _ _ _ _ _ Hc' (proj1 Hok) Ho' Ea) in Eg.
    rewrite <- (near_select a c m n t Hna Hb He Hd) in Ea. rewrite (select_when _ _ _ _ _ _ _ _ _ _ _ _ Hc (proj1 Hok) Ho Ea). exact Eg.
  Qed.
End Near.
Print Assumptions C38_selection_near_an_edge.

(** bin("x", 2, 0, 2), bin("y", 2, 0, 2): x < 0.9995 is x < 1 with a tolerance of 0.001. *)
Definition ne_below : expr := ERel CLt (EName "x") (EConst (KS (SNum (Fin (qfrac 1999 2000))))).
Example C38_near_example : let e' := ERel CLt (EName "x") (se_num 1) in
  compares (asconst se_mb) ne_below (EName "x") SLt (KS (SNum (Fin (qfrac 1999 2000)))) /\ compares (asconst se_mb) e' (EName "x") SLt (KS (SNum (nz 1))) /\
  only_axis EName pr_flat ne_below (EName "x") (length (o_group pr_flat) + 0) pr_x /\ only_axis EName pr_flat e' (EName "x") (length (o_group pr_flat) + 0) pr_x /\
  numeric_axis pr_x /\ half_bin pr_x (qfrac 1 1000) /\ is_edge pr_x (nz 1) /\ nltb (absdiff (Fin (qfrac 1999 2000)) (nz 1)) (Fin (qfrac 1 1000)) = true /\
  aligned pr_x SLt /\ leaves_bins pr_x SLt (nz 1) /\
  exists g, hist_select se_mb EName se_tol (view pr_flat) ne_below = Ok g /\ p_content g = PArr [1; 2; 1] [nz 1; nz 2].
Proof.
  cbn zeta. split; [constructor; reflexivity|]. split; [constructor; reflexivity|]. split; [only_tac|]. split; [only_tac|]. split; [apply pr_x_numeric|].
  split; [vm_compute; discriminate|]. split; [exists 1; split; [lia|num_tac]|]. split; [vm_compute; reflexivity|]. split; [reflexivity|].
  split; [exists (KIv (nz 0) (nz 1) true false), (Fin (qfrac 1 2)); split; [left; num_tac|split; [split; left; reflexivity|reflexivity]]|].
  eexists. split; [vm_compute; reflexivity|num_tac].
Qed.
(** A split at 0, 1 and 3 with a tolerance of 1/4: 9/8 stands for 1. *)
Example C38_near_split_example : let a := ASplit "x" (map nz [0; 1; 3]%Z) true true false true in
  numeric_axis a /\ half_bin a (qfrac 1 4) /\ is_edge a (nz 1) /\ nltb (absdiff (Fin (qfrac 9 8)) (nz 1)) (Fin (qfrac 1 4)) = true /\ aligned a SLt /\ leaves_bins a SLt (nz 1).
Proof.
  cbn zeta. split; [exists (map nz [0; 1; 3]%Z); split; [intros x [<-|[<-|[<-|[]]]]; discriminate|reflexivity]|]. split.
  { intros y z Hy Hz. cbn in Hy, Hz. destruct Hy as [Hy|[Hy|[Hy|[]]]]; injection Hy as <-; destruct Hz as [Hz|[Hz|[Hz|[]]]]; injection Hz as <-; vm_compute; intros H; congruence. }
  split; [right; left; reflexivity|]. split; [vm_compute; reflexivity|]. split; [reflexivity|].
  exists (KIv (nz 0) (nz 1) true false), (Fin (qfrac 1 2)). split; [right; left; reflexivity|]. split; [split; left; reflexivity|reflexivity].
Qed.
