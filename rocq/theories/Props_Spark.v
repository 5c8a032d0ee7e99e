(** C52: filling from a Spark DataFrame. *)
From Coq Require Import String Permutation Sorted.
From Verif Require Import Num NumFacts Base Tree Instr InstrSpec InstrProofs Axis Calc AxisMain Content Fill FillSpec FillMain FillProofs3 Elem HistFill HistSpec HistFillProofs HistFillMain HistFillMain2 HistFillMain3 HistFillMain4 Spark SparkSpec SparkProofs SparkMain Props_Hist.
Local Open Scope list_scope.
Local Open Scope nat_scope.
Local Open Scope string_scope.

(** The two conversions of a double to an int32 (see Calc.v) are fine. *)
Definition known_cast (cast : Num -> Z) : Prop := cast = cast_x86 \/ cast = cast_sat.
Lemma known_good cast : known_cast cast -> cast_good cast.
Proof. intros [->| ->]; [apply cast_x86_good|apply cast_sat_good]. Qed.

(** ** C52: a Spark fill puts each row in its cell, and adds to the cell what the row adds; whatever
    the order in which Spark returns the groups of rows. *)
Theorem C52_spark_fill cast user sfun collect h weight frame rows c :
  known_cast cast -> (forall l, Permutation (collect l) l) ->
  spark_ready cast Fin user h weight frame rows c ->
  exists c', spark_fill Fin sfun collect h weight frame c = (c', None) /\
    (forall ks, block c' ks <> None <-> block (prefill (hist_layout h) (length (h_group h)) c) ks <> None) /\
    forall ks ss kd, in_shape (hist_layout h) ss -> has_column (hist_layout h) kd ->
      cell (hist_layout h) c' ks ss (column_of (hist_layout h) kd) =
      nadd (cell (hist_layout h) c ks ss (column_of (hist_layout h) kd))
           (nsum (map (row_adds (hist_mode h) kd) (filter (in_cell ks ss) rows))).
Proof.
  intros Hc Hp HR. destruct (spark_fill_ok cast user sfun collect h weight frame rows c (known_good _ Hc) Hp HR) as (c' & E & _ & B & V).
  exists c'. auto.
Qed.

(** ** C52: a Spark fill and a Numpy fill of the same rows give the same content. *)
Theorem C52_same_as_numpy cast user sfun collect order h srcs weight A len rows c :
  known_cast cast -> (forall l, Permutation (collect l) l) ->
  is_order order -> Permutation srcs (sources (hist_goals h)) -> hist_wf h -> no_bcast h ->
  args_ok h A len -> hist_ready cast Fin user h A len rows c ->
  spark_ready cast Fin user h weight (map (field_at A) (seq 0 len)) rows c ->
  exists c1 c2, hist_fill cast Fin user order srcs h A c = (c1, None) /\
    spark_fill Fin sfun collect h weight (map (field_at A) (seq 0 len)) c = (c2, None) /\
    same_cells (hist_layout h) c1 c2 /\ (length (h_group h) <= 1 -> same_content c1 c2).
Proof.
  intros Hc Hcol Ho Hp Hwf Hnb HA HR HS. assert (Hpre := ready_pre cast Fin user _ _ _ _ _ Hwf HR).
  destruct (fill_ok _ _ _ _ _ Hpre) as (c1 & E1 & K1 & V1 & B1).
  destruct (spark_fill_ok cast user sfun collect h weight _ rows c (known_good _ Hc) Hcol HS) as (c2 & E2 & K2 & B2 & V2).
  exists c1, c2. split.
  { rewrite (fill_is_rows cast Fin user order h srcs Ho Hp Hwf Hnb A len rows); auto. apply HR. }
  split; [exact E2|].
  assert (C : same_cells (hist_layout h) c1 c2) by (apply (same_cells_intro _ (length (h_group h))); auto; intros; rewrite V1, V2; auto).
  split; [exact C|]. intros Hl. apply (same_content_intro (hist_layout h) (length (h_group h))); auto.
  intros ks. rewrite B1, B2. split; [intros [H|H]|]; auto.
  destruct (h_group h) as [|g [|? ?]] eqn:Eg; cbn [length seq] in *; [|..|lia].
  - inversion H; subst. assert (O := prefill_ok _ _ _ (sp_content _ _ _ _ _ _ _ _ HS)). rewrite Eg in O. cbn [length] in O.
    destruct (prefill (hist_layout h) 0 c); try (destruct O; fail). discriminate.
  - inversion H as [|k j ? ? (r & Hr & Hk) Ht]; subst. inversion Ht; subst.
    destruct (sp_groups _ _ _ _ _ _ _ _ HS r Hr) as [E|(ks & d & Ek & Eb)]; [congruence|].
    assert (Lk : length ks = 1).
    { assert (M := sp_rows _ _ _ _ _ _ _ _ HS). apply mapM_ok in M. clear - M Hr Ek Eg. induction M as [|f r' l l' M1 M2 IH]; [destruct Hr|]. destruct Hr as [->|Hr]; auto.
      unfold row_of in M1. apply bind_ok in M1. destruct M1 as (kk & Mk & M1). repeat (apply bind_ok in M1; destruct M1 as (? & _ & M1)). apply Ok_inj in M1. subst r. cbn [r_keys] in Ek. apply mapM_ok, Forall2_len in Mk. rewrite Eg in Mk. subst kk. rewrite map_length in Mk. symmetry. exact Mk. }
    destruct ks as [|k' [|? ?]]; try discriminate Lk. rewrite Ek in Hk. cbn [map nth] in Hk. inversion Hk; subst k'.
    unfold prefill. destruct c; try discriminate Eb. rewrite Eb. discriminate.
Qed.

(** ** C52, axis by axis: the value's index column leads to the slot of the Numpy fill. *)
Theorem C52_fixed_axis cast a v s : known_cast cast -> is_fixed a = true -> made a -> fits a v -> slot_of cast Fin a v = Ok s ->
  exists z, spark_index Fin a (Some v) = Ok (INum z) /\ spark_slot a z = Ok (option_map Z.to_nat s).
Proof. intros Hc Hf Hm Hv E. destruct (spark_index_slot cast a v s (known_good _ Hc) Hf Hm Hv E) as (z & H1 & H2 & _). exists z. auto. Qed.
Theorem C52_group_axis a v k : is_group a = true -> made a -> fits a v -> key_of Fin a v = Ok k -> exists k', k = Some k' /\ spark_index Fin a (Some v) = Ok (IKey (Some k')).
Proof. apply spark_index_key. Qed.

(** ** C52: an expression has the same value in both. *)
Theorem C52_expressions sfun user field t v : same_in_spark user field t -> value user field t = Ok v -> scol sfun field t = Ok (Some v).
Proof. intros H. apply same_value; auto. Qed.

(** ** Where Spark fills differ *)
(** The first fill of a histogram with groups always fails. *)
Theorem C52_new_group_refuted rnd sfun collect h weight frame : (forall l, Permutation (collect l) l) ->
  h_group h <> [] -> frame <> [] -> snd (spark_fill rnd sfun collect h weight frame CNone) <> None.
Proof.
  intros Hp Hg Hf. unfold spark_fill. destruct (mapM _ frame) as [rows|e] eqn:E; [|discriminate].
  destruct frame as [|f frame]; [congruence|]. cbn [mapM] in E. apply bind_ok in E. destruct E as (r & _ & E). apply bind_ok in E. destruct E as (rs & _ & E). apply Ok_inj in E. subst rows.
  destruct (h_group h) as [|g gs] eqn:Eg; [congruence|]. cbn [length].
  remember (query h weight (r :: rs)) as q. assert (q <> []) by (subst q; unfold query; cbn [map distinct]; discriminate).
  specialize (Hp q). destruct (collect q) as [|[ix cols] rest]; [apply Permutation_nil in Hp; congruence|].
  unfold prefill. cbn [wait recurse]. destruct ix as [|[[k|]|z] ix]; cbn; discriminate.
Qed.

Definition row1 (l : list (string * val)) : string -> res val :=
  fun s => match find (fun p => String.eqb (fst p) s) l with Some p => Ok (snd p) | None => Err KeyError end.
Definition nofun : string -> list sval -> res sval := fun _ _ => Err NameError.
Notation sparkx := (spark_fill Fin nofun (fun l => l)).
(** The cells of the same rows filled from arrays (C10), to compare with. *)
Definition numpy_cell_with cast h frame ks ss kd : res Num :=
  do rows <- mapM (row_of cast Fin nocall h) frame;
  Ok (nsum (map (row_adds (hist_mode h) kd) (filter (in_cell ks ss) rows))).
Notation numpy_cell := (numpy_cell_with cast_x86).
Definition one_axis a t : hist := {| h_group := []; h_fixed := [(a, t)]; h_prof := []; h_weight := None |}.
Definition spark_cell h frame ss kd : res Num :=
  match sparkx h (match h_weight h with Some _ => true | None => false end) frame CNone with
  | (c, None) => Ok (cell (hist_layout h) c [] ss (column_of (hist_layout h) kd))
  | (_, Some e) => Err e
  end.

(** Without an underflow bin, values below the bins are counted in the last bin. *)
Theorem C52_underflow_refuted : exists h frame, h = one_axis (ABin "x" 4 (nz 0) (nz 8) false false false true) (TName "x") /\
  frame = [row1 [("x", VNum (nz (-3)))]] /\ spark_cell h frame [3] SumW = Ok (nz 1) /\ numpy_cell h frame [] [3] SumW = Ok (nz 0).
Proof. do 2 eexists. split; [reflexivity|]. split; [reflexivity|]. split; vm_compute; reflexivity. Qed.
(** With a NaN bin but no overflow bin, values above the bins are counted as NaN, and NaN is not counted. *)
Theorem C52_overflow_refuted : exists h above nan, h = one_axis (ABin "x" 4 (nz 0) (nz 8) true false true true) (TName "x") /\
  above = [row1 [("x", VNum (nz 10))]] /\ nan = [row1 [("x", VNum NaN)]] /\
  spark_cell h above [5] SumW = Ok (nz 1) /\ numpy_cell h above [] [5] SumW = Ok (nz 0) /\
  spark_cell h nan [5] SumW = Ok (nz 0) /\ numpy_cell h nan [] [5] SumW = Ok (nz 1).
Proof. do 3 eexists. do 3 (split; [reflexivity|]). repeat split; vm_compute; reflexivity. Qed.
(** An infinite value is counted below the bins (by Numpy too on x86, but not where conversions saturate);
    a value of 2^33 is counted above the bins, by Numpy on x86 below them. *)
Theorem C52_infinity_refuted : exists h inf large, h = one_axis (ABin "x" 4 (nz 0) (nz 8) true true true true) (TName "x") /\
  inf = [row1 [("x", VNum PInf)]] /\ large = [row1 [("x", VNum (nz (2 ^ 33)))]] /\
  spark_cell h inf [0] SumW = Ok (nz 1) /\ numpy_cell_with cast_sat h inf [] [0] SumW = Ok (nz 0) /\
  spark_cell h large [0] SumW = Ok (nz 0) /\ numpy_cell h large [] [0] SumW = Ok (nz 1).
Proof. do 3 eexists. do 3 (split; [reflexivity|]). repeat split; vm_compute; reflexivity. Qed.
(** A value above the bins of an intbin axis is counted in its last bin, and numbers are rounded, not truncated. *)
Theorem C52_intbin_refuted : exists h over half, h = one_axis (AIntbin "x" 0 4 true true) (TName "x") /\
  over = [row1 [("x", VNum (nz 9))]] /\ half = [row1 [("x", VNum (Fin (qfrac 5 2)))]] /\
  spark_cell h over [5] SumW = Ok (nz 1) /\ numpy_cell h over [] [5] SumW = Ok (nz 0) /\
  spark_cell h half [4] SumW = Ok (nz 1) /\ numpy_cell h half [] [4] SumW = Ok (nz 0).
Proof. do 3 eexists. do 3 (split; [reflexivity|]). repeat split; vm_compute; reflexivity. Qed.
(** NaN is in the group of the origin. *)
Theorem C52_groupbin_nan_refuted : exists a, a = AGroupbin "x" (nz 2) (nz 0) true true /\
  spark_index Fin a (Some (VNum NaN)) = Ok (IKey (Some (GNum (nz 0)))) /\ key_of Fin a (VNum NaN) = Ok (Some (GStr "NaN")).
Proof. eexists. split; [reflexivity|]. split; vm_compute; reflexivity. Qed.
(** A filter without a weight is not applied. *)
Definition filtered_hist : hist := {| h_group := []; h_fixed := [(ABin "x" 4 (nz 0) (nz 8) true true true true, TName "x")]; h_prof := [];
  h_weight := Some (WxTree (filter_tree (TCall "numpy.less" [TName "x"; TConst (knum (nz 2))]))) |}.
Theorem C52_filter_refuted : exists frame c, frame = [row1 [("x", VNum (nz 3))]] /\
  sparkx filtered_hist false frame CNone = (c, None) /\
  cell (hist_layout filtered_hist) c [] [2] (column_of (hist_layout filtered_hist) SumW) = nz 1 /\
  numpy_cell filtered_hist frame [] [2] SumW = Ok (nz 0).
Proof. do 2 eexists. split; [reflexivity|]. split; [vm_compute; reflexivity|]. split; vm_compute; reflexivity. Qed.
(** ... and if the histogram has a profile as well, the fill fails. *)
Theorem C52_filter_profile_refuted : exists h frame, h_weight h = h_weight filtered_hist /\ frame = [row1 [("x", VNum (nz 3)); ("y", VNum (nz 3))]] /\
  snd (sparkx h false frame CNone) = Some ValueError /\ numpy_cell h frame [] [2] SumW = Ok (nz 0).
Proof.
  exists {| h_group := []; h_fixed := h_fixed filtered_hist; h_prof := [TName "y"]; h_weight := h_weight filtered_hist |}. eexists.
  split; [reflexivity|]. split; [reflexivity|]. split; vm_compute; reflexivity.
Qed.
(** Rows with a NaN weight are not left out. *)
Theorem C52_nan_weight_refuted : exists h frame, h_weight h = Some (WxTree (TName "w")) /\ frame = [row1 [("x", VNum (nz 3)); ("w", VNum NaN)]] /\
  spark_cell h frame [2] SumW = Ok NaN /\ numpy_cell h frame [] [2] SumW = Ok (nz 0).
Proof.
  exists {| h_group := []; h_fixed := h_fixed filtered_hist; h_prof := []; h_weight := Some (WxTree (TName "w")) |}. eexists.
  split; [reflexivity|]. split; [reflexivity|]. split; vm_compute; reflexivity.
Qed.
(** 1/0 is counted as NaN. *)
Theorem C52_division_refuted : exists h frame, h = one_axis (ABin "x" 4 (nz 0) (nz 8) true true true false) (TCall "numpy.true_divide" [TName "x"; TName "y"]) /\
  frame = [row1 [("x", VNum (nz 1)); ("y", VNum (nz 0))]] /\
  spark_cell h frame [6] SumW = Ok (nz 1) /\ numpy_cell h frame [] [6] SumW = Ok (nz 0) /\ numpy_cell_with cast_sat h frame [] [5] SumW = Ok (nz 1).
Proof. do 2 eexists. do 2 (split; [reflexivity|]). repeat split; vm_compute; reflexivity. Qed.
(** NaN passes the cut 5 < x. *)
Theorem C52_nan_comparison_refuted : exists h frame, h = one_axis (ACut "5 < x") (TCall "numpy.less" [TConst (knum (nz 5)); TName "x"]) /\
  frame = [row1 [("x", VNum NaN)]] /\ spark_cell h frame [1] SumW = Ok (nz 1) /\ numpy_cell h frame [] [1] SumW = Ok (nz 0).
Proof. do 2 eexists. split; [reflexivity|]. split; [reflexivity|]. split; vm_compute; reflexivity. Qed.

(** ** A concrete case: the histogram of Props_Hist.v (groupby("g"), bin("x + y", 4, 0, 8), weight="w"),
    filled from arrays and then from a data frame with the same rows. *)
Definition exc : content := fst (fillx exA CNone).
Definition exframe : list (string -> res val) := map (field_at exA) (seq 0 3).
Example ex_content : content_ok (hist_layout exh) 1 exc.
Proof.
  assert (Hpre := ready_pre cast_x86 Fin nocall _ _ _ _ _ exh_wf ex_ready). destruct (fill_ok _ _ _ _ _ Hpre) as (c & E & O & _).
  unfold exc. rewrite (fill_is_rows cast_x86 Fin nocall (fun _ l => l) exh (sources (hist_goals exh)) (fun _ _ => Permutation_refl _) (Permutation_refl _) exh_wf exh_no_bcast exA 3 exrows CNone exA_ok ex_rows_of).
  rewrite E. exact O.
Qed.
Example ex_ready_again : hist_ready cast_x86 Fin nocall exh exA 3 exrows exc.
Proof. destruct ex_ready as (H1 & H2 & H3 & H4 & H5 & _ & H7). repeat (split; [assumption|]). split; [right; exact ex_content|assumption]. Qed.
Example ex_spark_ready : spark_ready cast_x86 Fin nocall exh true exframe exrows exc.
Proof.
  split.
  - vm_compute. reflexivity.
  - intros field t _ Ht. in_cases Ht; repeat constructor.
  - intros p Hp. in_cases Hp; [exact I|]. exists qc0, (qz 8). split; [reflexivity|]. split; [reflexivity|]. split; [lia|]. reflexivity.
  - intros field p v Hf Hp. in_cases Hp; [intros _; exact I|].
    in_cases Hf; intros E; vm_compute in E; inversion E; subst v; cbn [fst fits]; (split; [split; [vm_compute; discriminate|intros _ _; reflexivity]|]);
    split; unfold Qle; vm_compute; discriminate.
  - reflexivity.
  - intros r Hr. in_cases Hr; discriminate.
  - intros r Hr. right. in_cases Hr; match goal with |- context [exrow ?k _ _] => exists [GStr k] end; eexists; (split; [reflexivity|vm_compute; reflexivity]).
  - right. exact ex_content.
Qed.
Example ex_same : exists c1 c2, fillx exA exc = (c1, None) /\ sparkx exh true exframe exc = (c2, None) /\ same_content c1 c2.
Proof.
  destruct (C52_same_as_numpy cast_x86 nocall nofun (fun l => l) (fun _ l => l) exh (sources (hist_goals exh)) true exA 3 exrows exc
    (or_introl eq_refl) (fun _ => Permutation_refl _) (fun _ _ => Permutation_refl _) (Permutation_refl _) exh_wf exh_no_bcast exA_ok ex_ready_again ex_spark_ready)
    as (c1 & c2 & E1 & E2 & _ & S1). exists c1, c2. split; [exact E1|]. split; [exact E2|]. apply S1. cbn. lia.
Qed.
(** Row 0 (x + y = 2, w = 2) is added to what was there. *)
Example ex_spark_value : exists c, sparkx exh true exframe exc = (c, None) /\ cell (hist_layout exh) c [GStr "a"] [2] (column_of (hist_layout exh) SumW) = nz 4.
Proof. eexists. split; vm_compute; reflexivity. Qed.

Print Assumptions C52_spark_fill.
Print Assumptions C52_same_as_numpy.
Print Assumptions C52_fixed_axis.
Print Assumptions C52_group_axis.
Print Assumptions C52_expressions.
Print Assumptions C52_new_group_refuted.
Print Assumptions C52_underflow_refuted.
Print Assumptions C52_overflow_refuted.
Print Assumptions C52_infinity_refuted.
Print Assumptions C52_intbin_refuted.
Print Assumptions C52_groupbin_nan_refuted.
Print Assumptions C52_filter_refuted.
Print Assumptions C52_filter_profile_refuted.
Print Assumptions C52_nan_weight_refuted.
Print Assumptions C52_division_refuted.
Print Assumptions C52_nan_comparison_refuted.
