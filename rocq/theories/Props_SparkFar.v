(** C52: where a Spark fill counts values that are far from the bins, and rows with undecided filters. *)
From Coq Require Import String Lia Lqa.
From Verif Require Import Base Num NumFacts Axis AxisSpec AxisProofs AxisProofs2 AxisMain Calc Content Fill FillSpec Tree Elem HistFill HistSpec HistFillProofs Spark HistFillMain4 SparkSpec SparkProofs Props_Spark.
Local Open Scope list_scope.
Local Open Scope string_scope.

Section Far.
  Variables (n : nat) (l h : Qc).
  Hypothesis Hn : 0 < n.
  Hypothesis Hlh : (this l < this h)%Q.
  Lemma tval_this q : (this (tval n l h q) == ((this q - this l) * inject_Z (Z.of_nat n)) / (this h - this l))%Q.
  Proof. unfold tval. rewrite this_mul, this_div, !this_sub, this_qz. field. lra. Qed.
  Lemma n_pos : (0 < inject_Z (Z.of_nat n))%Q.
  Proof. change 0%Q with (inject_Z 0). rewrite <- Zlt_Qlt. lia. Qed.
  Lemma tval_low q : (this q <= this l -> this (tval n l h q) <= 0)%Q /\ (this q < this l -> this (tval n l h q) < 0)%Q.
  Proof.
    pose proof n_pos as N. rewrite tval_this. split; intros H.
    - apply Qle_shift_div_r; [lra|]. setoid_replace (0 * (this h - this l))%Q with 0%Q by ring.
      setoid_replace 0%Q with ((0 : Q) * inject_Z (Z.of_nat n))%Q by ring. apply Qmult_le_compat_r; lra.
    - apply Qlt_shift_div_r; [lra|]. setoid_replace (0 * (this h - this l))%Q with 0%Q by ring.
      setoid_replace 0%Q with ((0 : Q) * inject_Z (Z.of_nat n))%Q by ring. apply Qmult_lt_compat_r; lra.
  Qed.
  Lemma tval_high q : (this h <= this q -> inject_Z (Z.of_nat n) <= this (tval n l h q))%Q /\ (this h < this q -> inject_Z (Z.of_nat n) < this (tval n l h q))%Q.
  Proof.
    pose proof n_pos as N. rewrite tval_this. split; intros H.
    - apply Qle_shift_div_l; [lra|]. setoid_replace (inject_Z (Z.of_nat n) * (this h - this l))%Q with ((this h - this l) * inject_Z (Z.of_nat n))%Q by ring. apply Qmult_le_compat_r; lra.
    - apply Qlt_shift_div_l; [lra|]. setoid_replace (inject_Z (Z.of_nat n) * (this h - this l))%Q with ((this h - this l) * inject_Z (Z.of_nat n))%Q by ring. apply Qmult_lt_compat_r; lra.
  Qed.
  Lemma spark_bin_fin cl q : spark_bin Fin cl n (Fin l) (Fin h) (Some (Fin q)) =
    Ok (Z.max 0 (Z.min (Z.of_nat n + 1) (if cl then wrap64 (to_long (qfloor (tval n l h q)) + 1) else to_long (qceil (tval n l h q))))).
  Proof.
    unfold spark_bin. rewrite bin_scale_exact by auto. cbn [bind]. unfold nsub. cbn [nneg nadd rn nmul].
    assert (E : ((q + - l) * (qz (Z.of_nat n) / (h - l)))%Qc = tval n l h q) by reflexivity. rewrite E. reflexivity.
  Qed.
  Lemma far_below (cl : bool) q : (if cl then (this q < this l)%Q else (this q <= this l)%Q) -> spark_bin Fin cl n (Fin l) (Fin h) (Some (Fin q)) = Ok 0%Z.
  Proof.
    intros H. rewrite spark_bin_fin. f_equal. destruct (tval_low q) as (T1 & T2). destruct cl.
    - assert (F : (qfloor (tval n l h q) < 0)%Z).
      { destruct (Z.lt_ge_cases (qfloor (tval n l h q)) 0) as [|X]; auto. apply qfloor_le_iff in X. specialize (T2 H). change (inject_Z 0) with 0%Q in X. lra. }
      assert (R : (long_min <= to_long (qfloor (tval n l h q)) < 0)%Z) by (unfold to_long, long_min, long_max; lia).
      rewrite wrap64_id by (unfold long_min, long_max in *; lia). lia.
    - assert (F : (qceil (tval n l h q) <= 0)%Z) by (apply qceil_le_iff; change (inject_Z 0) with 0%Q; auto).
      assert (R : (to_long (qceil (tval n l h q)) <= 0)%Z) by (unfold to_long, long_min, long_max; lia). lia.
  Qed.
  Lemma far_above (cl : bool) q : (Z.of_nat n < 2 ^ 62)%Z -> (if cl then (this h <= this q)%Q /\ ((this q - this l) * inject_Z (Z.of_nat n) <= inject_Z (2 ^ 62) * (this h - this l))%Q else (this h < this q)%Q) ->
    spark_bin Fin cl n (Fin l) (Fin h) (Some (Fin q)) = Ok (Z.of_nat n + 1)%Z.
  Proof.
    intros Ln H. rewrite spark_bin_fin. f_equal. destruct (tval_high q) as (T1 & T2). destruct cl.
    - destruct H as (H & Up). apply T1 in H. apply qfloor_le_iff in H.
      assert (U : (qfloor (tval n l h q) <= 2 ^ 62)%Z).
      { pose proof (qfloor_spec (tval n l h q)) as (A & _). assert (X : (this (tval n l h q) <= inject_Z (2 ^ 62))%Q) by (rewrite tval_this; apply Qle_shift_div_r; [lra|exact Up]).
        rewrite Zle_Qle. lra. }
      assert (R : to_long (qfloor (tval n l h q)) = qfloor (tval n l h q)) by (unfold to_long, long_min, long_max; lia).
      rewrite R, wrap64_id by (unfold long_min, long_max in *; lia). lia.
    - apply T2 in H. assert (F : (Z.of_nat n < qceil (tval n l h q))%Z).
      { destruct (Z.lt_ge_cases (Z.of_nat n) (qceil (tval n l h q))) as [|X]; auto. apply qceil_le_iff in X. lra. }
      assert (R : (Z.of_nat n + 1 <= to_long (qceil (tval n l h q)))%Z) by (unfold to_long, long_min, long_max; lia). lia.
  Qed.
End Far.

(** A number below the bins of a bin axis, however far and minus infinity too, has the index of the
    underflow bin. *)
Theorem C52_far_below e n low high u o nf cl x : made (ABin e n low high u o nf cl) -> below (ABin e n low high u o nf cl) x = true ->
  spark_index Fin (ABin e n low high u o nf cl) (Some (VNum x)) = Ok (INum 0).
Proof.
  intros (l & h & -> & -> & Hn & Hmk) Hx. assert (Hlh := mk_bin_lt _ _ _ _ _ _ _ _ _ Hmk Hn). cbn [below] in Hx. cbn [spark_index snum bind].
  destruct x as [q| | |]; try (destruct cl; discriminate Hx).
  - rewrite far_below; auto. destruct cl; [apply qltb_iff|apply nleb_fin]; exact Hx.
  - rewrite spark_bin_pos by (auto; exact I). reflexivity.
Qed.
(** A number above the bins has the index after that of the last bin, if it is not more than 2^62 bins
    away from the first one or if the bins include their upper edges. *)
Theorem C52_far_above e n low high u o nf cl q : made (ABin e n low high u o nf cl) -> above (ABin e n low high u o nf cl) (Fin q) = true ->
  (Z.of_nat n < 2 ^ 62)%Z ->
  (cl = true -> exists l h, low = Fin l /\ high = Fin h /\ ((this q - this l) * inject_Z (Z.of_nat n) <= inject_Z (2 ^ 62) * (this h - this l))%Q) ->
  spark_index Fin (ABin e n low high u o nf cl) (Some (VNum (Fin q))) = Ok (INum (Z.of_nat n + 1)).
Proof.
  intros (l & h & -> & -> & Hn & Hmk) Hx Ln Hc. assert (Hlh := mk_bin_lt _ _ _ _ _ _ _ _ _ Hmk Hn). cbn [above] in Hx. cbn [spark_index snum bind].
  rewrite far_above; auto. destruct cl; [|apply qltb_iff; exact Hx]. destruct (Hc eq_refl) as (l' & h' & E1 & E2 & Up). inversion E1; inversion E2; subst. split; auto. apply nleb_fin. exact Hx.
Qed.
(** Farther away, the index overflows and is that of the underflow bin. *)
Theorem C52_far_above_refuted : exists a q, made a /\ above a (Fin q) = true /\ spark_index Fin a (Some (VNum (Fin q))) = Ok (INum 0).
Proof.
  exists (ABin "x" 4 (nz 0) (nz 8) true true true true), (qz (2 ^ 70)). split; [exists (qz 0), (qz 8); repeat split; auto; lia|]. split; vm_compute; reflexivity.
Qed.
Example C52_far_example : made (ABin "x" 4 (nz 0) (nz 8) true true true true) /\
  below (ABin "x" 4 (nz 0) (nz 8) true true true true) (nz (- 2 ^ 65 + 6)) = true /\
  spark_index Fin (ABin "x" 4 (nz 0) (nz 8) true true true true) (Some (VNum (nz (- 2 ^ 65 + 6)))) = Ok (INum 0) /\
  above (ABin "x" 4 (nz 0) (nz 8) true true true true) (nz (2 ^ 60)) = true /\
  spark_index Fin (ABin "x" 4 (nz 0) (nz 8) true true true true) (Some (VNum (nz (2 ^ 60)))) = Ok (INum 5).
Proof. split; [exists (qz 0), (qz 8); repeat split; auto; lia|]. repeat split; vm_compute; reflexivity. Qed.
(** Spark does not count a row whose filter divides by zero, while Numpy may count it: weight="w",
    filter="1 < x/y". *)
Theorem C52_null_filter_refuted : exists h frame,
  h = {| h_group := []; h_fixed := [(ABin "x" 4 (nz 0) (nz 8) true true true true, TName "x")]; h_prof := [];
         h_weight := Some (WxTree (TCall "numpy.multiply" [TName "w"; filter_tree (TCall "numpy.less" [TConst (knum (nz 1)); TCall "numpy.true_divide" [TName "x"; TName "y"]])])) |} /\
  frame = [row1 [("x", VNum (nz 3)); ("y", VNum (nz 0)); ("w", VNum (nz 2))]; row1 [("x", VNum (nz 3)); ("y", VNum (nz 2)); ("w", VNum (nz 5))]] /\
  spark_cell h frame [2] SumW = Ok (nz 5) /\ numpy_cell_with cast_x86 h frame [] [2] SumW = Ok (nz 7).
Proof. do 2 eexists. split; [reflexivity|]. split; [reflexivity|]. split; vm_compute; reflexivity. Qed.
Print Assumptions C52_null_filter_refuted.
Print Assumptions C52_far_below.
Print Assumptions C52_far_above.
Print Assumptions C52_far_above_refuted.
