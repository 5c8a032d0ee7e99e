(** Property theorems about axes and binning: C01-C05, C07, C08. *)
From Coq Require Import String.
From Verif Require Import Base Num NumFacts Axis Calc AxisSpec AxisProofs AxisProofs2 AxisMain.

Open Scope string_scope.

(** * C01: bin
    [bin_index Fin cast ...] is the slot the fill computes, with exact arithmetic.
    Two hardware casts: saturating (AArch64) and x86. *)
Theorem C01_bin_slot_contains_value :
  forall e n l h u o nf cl ax v,
    mk_bin e n (Fin l) (Fin h) u o nf cl = Ok ax -> 0 < n -> (Z.of_nat n + 1 <= int_max)%Z ->
    exists slot, bin_index Fin cast_sat u o nf cl n (Fin l) (Fin h) v = Ok slot /\
                 slot_matches_key (keys ax) slot v.
Proof. exact c01_sat. Qed.
Print Assumptions C01_bin_slot_contains_value.

Theorem C01_bin_slot_contains_value_x86_partial :
  (* missing: +inf and values more than 2^31-2 bins above [low], for which it is false (below) *)
  forall e n l h u o nf cl ax v,
    mk_bin e n (Fin l) (Fin h) u o nf cl = Ok ax -> 0 < n ->
    match v with
    | PInf => False
    | Fin q => (this q <= this l + inject_Z (int_max - 1) * ((this h - this l) / inject_Z (Z.of_nat n)))%Q
    | NInf | NaN => True
    end ->
    exists slot, bin_index Fin cast_x86 u o nf cl n (Fin l) (Fin h) v = Ok slot /\
                 slot_matches_key (keys ax) slot v.
Proof. exact c01_x86. Qed.
Print Assumptions C01_bin_slot_contains_value_x86_partial.

Example C01_hypotheses_met :
  exists ax, mk_bin "x" 10 (Fin (qz (-5))) (Fin (qz 5)) true true true true = Ok ax /\
  bin_index Fin cast_x86 true true true true 10 (Fin (qz (-5))) (Fin (qz 5)) (Fin (qfrac 5 2)) = Ok (Some 8%Z) /\
  nth_error (keys ax) 8 = Some (KIv (Fin (qz 2)) (Fin (qz 3)) true false).
Proof. eexists. vm_compute. auto. Qed.

(** On x86, +inf and large finite values are counted in the underflow bin. *)
Theorem C01_bin_x86_infinity_refuted :
  exists n l h ax slot,
    mk_bin "x" n (Fin l) (Fin h) true true true true = Ok ax /\ 0 < n /\
    bin_index Fin cast_x86 true true true true n (Fin l) (Fin h) PInf = Ok slot /\
    ~ slot_matches_key (keys ax) slot PInf.
Proof. exact c01_x86_refuted. Qed.
Theorem C01_bin_x86_large_finite_refuted :
  exists n l h q ax slot,
    mk_bin "x" n (Fin l) (Fin h) true true true true = Ok ax /\ 0 < n /\
    bin_index Fin cast_x86 true true true true n (Fin l) (Fin h) (Fin q) = Ok slot /\
    ~ slot_matches_key (keys ax) slot (Fin q).
Proof. exact c01_x86_large_refuted. Qed.
(** With no finite bins, a value between [low] and [high] is counted in the overflow bin. *)
Theorem C01_bin_numbins0_refuted :
  exists l h v ax slot,
    mk_bin "x" 0 (Fin l) (Fin h) true true true true = Ok ax /\
    bin_index Fin cast_sat true true true true 0 (Fin l) (Fin h) v = Ok slot /\
    ~ slot_matches_key (keys ax) slot v.
Proof. exact c01_numbins0_refuted. Qed.
Print Assumptions C01_bin_numbins0_refuted.

(** * C02: split.  The edges may be given in any order and may be infinite. *)
Theorem C02_split_slot_contains_value :
  forall e raw u o nf cl es v,
    (forall x, In x raw -> x <> NaN) ->
    mk_split e raw u o nf cl = Ok (ASplit e es u o nf cl) ->
    slot_matches_key (keys (ASplit e es u o nf cl)) (split_index u o nf cl es v) v.
Proof. exact c02. Qed.
Print Assumptions C02_split_slot_contains_value.

Example C02_hypotheses_met :
  mk_split "x" [nz 3; nz 1; NInf; nz 2] true false true false
    = Ok (ASplit "x" [NInf; nz 1; nz 2; nz 3] true false true false) /\
  split_index true false true false [NInf; nz 1; nz 2; nz 3] (nz 2) = Some 2%Z /\
  nth_error (keys (ASplit "x" [NInf; nz 1; nz 2; nz 3] true false true false)) 2
    = Some (KIv (nz 1) (nz 2) false true).
Proof. vm_compute. auto. Qed.

(** * C03: intbin *)
Theorem C03_intbin_slot_is_own_key :
  forall e mn mx u o ax k,
    mk_intbin e mn mx u o = Ok ax -> (int_min <= k + b2z u - mn <= int_max)%Z ->
    slot_matches_key (keys ax) (intbin_index_int u o mn mx k) (nz k).
Proof. exact c03. Qed.
Print Assumptions C03_intbin_slot_is_own_key.

(** A float column: every value from [min] up is counted as the integer part. *)
Theorem C03_intbin_float_is_floor :
  forall e mn mx u o ax q cast,
    mk_intbin e mn mx u o = Ok ax -> cast = cast_x86 \/ cast = cast_sat ->
    (int_min <= qfloor q + b2z u - mn <= int_max)%Z -> (inject_Z mn <= this q)%Q ->
    slot_matches_key (keys ax) (intbin_index_float cast u o mn mx (Fin q)) (nz (qfloor q)).
Proof. exact c03_float. Qed.
Print Assumptions C03_intbin_float_is_floor.

Example C03_hypotheses_met :
  exists ax, mk_intbin "n" (-3) 4 true true = Ok ax /\
  intbin_index_int true true (-3) 4 2 = Some 6%Z /\ nth_error (keys ax) 6 = Some (KInt 2) /\
  intbin_index_int true true (-3) 4 5 = Some 9%Z /\ intbin_index_int true true (-3) 4 (-4) = Some 0%Z.
Proof. eexists. vm_compute. auto. Qed.

(** Outside the int32 range the index wraps and a huge value is counted in underflow. *)
Theorem C03_intbin_wrap_refuted :
  exists mn mx k ax, mk_intbin "n" mn mx true true = Ok ax /\
    ~ slot_matches_key (keys ax) (intbin_index_int true true mn mx k) (nz k).
Proof. exact c03_wrap_refuted. Qed.
(** Without underflow, a float just below [min] is counted in the first bin. *)
Theorem C03_intbin_float_below_min_refuted :
  exists mn mx q ax, mk_intbin "n" mn mx false true = Ok ax /\ (this q < inject_Z mn)%Q /\
    intbin_index_float cast_x86 false true mn mx (Fin q) = Some 0%Z /\ nth_error (keys ax) 0 = Some (KInt mn).
Proof. exact c03_float_refuted. Qed.
Print Assumptions C03_intbin_float_below_min_refuted.

(** * C04: cut *)
Theorem C04_cut_slot :
  forall e b, exists i, cut_index b = Some (Z.of_nat i) /\ nth_error (keys (ACut e)) i = Some (KBool b) /\
    forall j b', nth_error (keys (ACut e)) j = Some (KBool b') -> (j = i <-> b' = b).
Proof. exact c04. Qed.
Theorem C04_cut_two_keys : forall e, keys (ACut e) = [KBool false; KBool true].
Proof. reflexivity. Qed.
Print Assumptions C04_cut_slot.

(** * C05: groupbin.  The displayed interval of a numeric key [k] is [groupbin_interval w cl k]. *)
Theorem C05_groupbin_key_contains_value :
  forall e w org nf cl ax v,
    mk_groupbin e (Fin w) (Fin org) nf cl = Ok ax ->
    exists (z : Z), 
      groupbin_key Fin nf cl (Fin w) (Fin org) (Fin v) = Some (GNum (Fin (org + w * qz z)%Qc)) /\
      in_interval (Fin (org + w * qz z)%Qc) (nadd (Fin (org + w * qz z)%Qc) (Fin w)) cl (negb cl) (Fin v).
Proof. exact c05. Qed.
Theorem C05_groupbin_displayed_interval :
  forall w cl ks, keys_groupbin w cl (map GNum ks) =
    Ok (map (fun k => KIv k (nadd k w) cl (negb cl)) (sort_num ks)).
Proof. exact c05_displayed. Qed.
Theorem C05_groupbin_nan :
  forall e w org nf cl ax, mk_groupbin e (Fin w) (Fin org) nf cl = Ok ax ->
    groupbin_key Fin nf cl (Fin w) (Fin org) NaN = if nf then Some (GStr "NaN") else None.
Proof. exact c05_nan. Qed.
Theorem C05_groupbin_nothing_else_dropped :
  forall e w org nf cl ax v, mk_groupbin e (Fin w) (Fin org) nf cl = Ok ax -> v <> NaN ->
    exists k, groupbin_key Fin nf cl (Fin w) (Fin org) v = Some (GNum k).
Proof. exact c05_kept. Qed.
Print Assumptions C05_groupbin_key_contains_value.
Print Assumptions C05_groupbin_displayed_interval.
Print Assumptions C05_groupbin_nan.
Print Assumptions C05_groupbin_nothing_else_dropped.

Example C05_hypotheses_met :
  exists ax, mk_groupbin "x" (Fin (qz 2)) (Fin (qz 1)) true false = Ok ax /\
  groupbin_key Fin true false (Fin (qz 2)) (Fin (qz 1)) (Fin (qz 5)) = Some (GNum (Fin (qz 3))).
Proof. eexists. vm_compute. auto. Qed.

(** An infinite value gets the key inf, whose displayed interval [inf, inf) does not contain it. *)
Theorem C05_groupbin_infinity_refuted :
  exists w org ax k, mk_groupbin "x" (Fin w) (Fin org) true true = Ok ax /\
    groupbin_key Fin true true (Fin w) (Fin org) PInf = Some (GNum k) /\
    ~ contains (groupbin_interval (Fin w) true k) PInf.
Proof. exact c05_inf_refuted. Qed.
(** Once NaN has been filled (nanflow=True), asking for the keys raises TypeError. *)
Theorem C05_groupbin_nan_keys_refuted :
  forall w cl ks, In (GStr "NaN") ks -> keys_groupbin w cl ks = Err TypeError.
Proof. exact c05_nan_keys. Qed.
Print Assumptions C05_groupbin_nan_keys_refuted.

(** * C07: keys *)
Theorem C07_bin_keys_partition :
  forall e n l h u o nf cl ax, mk_bin e n (Fin l) (Fin h) u o nf cl = Ok ax -> 0 < n ->
    disjoint_keys (keys ax) /\ increasing_keys (keys ax) /\ length (keys ax) = totbins ax /\
    (u = true -> o = true -> nf = true -> covers (keys ax) (fun _ => True)) /\
    (u = true -> o = true -> covers (keys ax) (fun v => v <> NaN)).
Proof. exact c07_bin. Qed.
Theorem C07_split_keys_partition :
  forall e raw u o nf cl ax, (forall x, In x raw -> x <> NaN) -> mk_split e raw u o nf cl = Ok ax ->
    disjoint_keys (keys ax) /\ increasing_keys (keys ax) /\ length (keys ax) = totbins ax /\
    (u = true -> o = true -> nf = true -> covers (keys ax) (fun _ => True)) /\
    (u = true -> o = true -> covers (keys ax) (fun v => v <> NaN)).
Proof. exact c07_split. Qed.
Theorem C07_intbin_keys_partition :
  forall e mn mx u o ax, mk_intbin e mn mx u o = Ok ax ->
    disjoint_keys (keys ax) /\ increasing_keys (keys ax) /\ length (keys ax) = totbins ax /\
    (u = true -> o = true -> covers (keys ax) (fun v => exists k, v = nz k)).
Proof. exact c07_intbin. Qed.
Print Assumptions C07_bin_keys_partition.
Print Assumptions C07_split_keys_partition.
Print Assumptions C07_intbin_keys_partition.

Example C07_hypotheses_met :
  (exists ax, mk_bin "x" 3 (nz 0) (nz 1) true false true true = Ok ax /\ length (keys ax) = 5) /\
  (exists ax, mk_split "x" [nz 4; nz 0; nz 2] false true true true = Ok ax /\ length (keys ax) = 4) /\
  (exists ax, mk_intbin "x" 5 7 true true = Ok ax /\ length (keys ax) = 5).
Proof. repeat split; eexists; vm_compute; auto. Qed.

(** * C08: any rounding.  [rnd q] is what the hardware makes of the exact result [q]. *)
Theorem C08_bin_index_in_range :
  forall rnd cast e n low high u o nf cl ax v i,
    mk_bin e n low high u o nf cl = Ok ax ->
    bin_index rnd cast u o nf cl n low high v = Ok (Some i) -> (0 <= i < Z.of_nat (totbins ax))%Z.
Proof. exact c08_range. Qed.
Theorem C08_bin_index_monotone :
  (* for results other than the NaN slot; the cast saturates *)
  forall rnd e n l h u o nf cl ax v w i j,
    (forall x y, (this x <= this y)%Q -> nleb (rnd x) (rnd y) = true) -> rnd qc0 = nzero ->
    mk_bin e n (Fin l) (Fin h) u o nf cl = Ok ax -> nleb v w = true ->
    bin_index rnd cast_sat u o nf cl n (Fin l) (Fin h) v = Ok (Some i) ->
    bin_index rnd cast_sat u o nf cl n (Fin l) (Fin h) w = Ok (Some j) ->
    (nf = true -> i <> Z.of_nat n + b2z u + b2z o)%Z -> (nf = true -> j <> Z.of_nat n + b2z u + b2z o)%Z ->
    (i <= j)%Z.
Proof. exact c08_mono. Qed.
Print Assumptions C08_bin_index_in_range.
Print Assumptions C08_bin_index_monotone.

(** a rounding that is really monotone and not exact: round down to multiples of 1/8 *)
Example C08_hypotheses_met :
  let rnd := fun q => Fin (qz (qfloor (q * qz 8)) / qz 8)%Qc in
  (forall x y, (this x <= this y)%Q -> nleb (rnd x) (rnd y) = true) /\ rnd qc0 = nzero /\
  bin_index rnd cast_sat true true true true 10 (nz 0) (nz 3) (Fin (qfrac 29 10)) = Ok (Some 10%Z) /\
  bin_index rnd cast_sat true true true true 10 (nz 0) (nz 3) (Fin (qfrac 11 10)) = Ok (Some 4%Z).
Proof. exact c08_example. Qed.
