(** Properties of projections and of dropping profiles: C35, C36, C37, C42. *)
From Coq Require Import String Permutation.
From Verif Require Import Base Num NumFacts Axis Calc Content Fill FillSpec FillProofs FillProofs2 FillProofs3 FillMain
  Tree Instr InstrSpec InstrProofs Elem HistFill HistSpec HistFillProofs HistFillMain HistFillMain2 HistFillMain3 HistFillMain4 Props_Hist
  HistAlg AlgSpec HistAlgProofs HistAlgMain Props_Alg
  Nd NdProofs Proj ProjSpec ProjProofs ProjMain ProjMain2 ProjFill ProjLaws ProjGroup ProjDrop ProjE2E.
Local Open Scope string_scope.
Local Open Scope list_scope.

(** ** Concrete histograms: groupby("g"), bin("x", 2, 0, 2), bin("y", 2, 0, 2) without flow bins *)
Definition pr_x : axis := ABin "x" 2 (nz 0) (nz 2) false false false true.
Definition pr_y : axis := ABin "y" 2 (nz 0) (nz 2) false false false true.
Definition pr_g : axis := AGroupby "g".
Definition pr_k : axis := AGroupby "k".
Definition pr_hist (groups : list axis) (c : content) : hobj := {|
  o_group := groups; o_fixed := [pr_x; pr_y]; o_prof := []; o_weight := None; o_filter := None;
  o_defs := []; o_attach := []; o_content := c |}.
Definition pr_flat : hobj := pr_hist [] (arr [1; 2; 3; 4]%Z).
Definition pr_items (n : nat) : list (gkey * content) :=
  firstn n [(GStr "a", arr [1; 2; 3; 4]%Z); (GStr "b", arr [10; 20; 30; 40]%Z); (GStr "c", arr [100; 200; 300; 400]%Z);
            (GStr "d", arr [5; 5; 5; 5]%Z)].
Definition pr_grouped (n : nat) : hobj := pr_hist [pr_g] (CDict (pr_items n)).
Ltac num_tac := vm_compute; repeat (f_equal; try (apply Qc_is_canon; reflexivity)).

Lemma power_all L : forall keep c, forallb (fun b : bool => b) keep = true -> content_ok L (length keep) c -> power_groups keep c.
Proof.
  induction keep as [|g gs IH]; intros c Hk Hc; cbn [power_groups]; auto. cbn [forallb] in Hk. apply andb_prop in Hk. destruct Hk as (-> & Hk).
  destruct c as [|d|l]; auto. destruct Hc as (Hc & _). split; auto. eapply Forall_impl; [|exact Hc]. cbn. auto.
Qed.
Lemma power_kept h axes : hobj_ok h -> keeps_groups h axes -> power_groups (keep_of axes (o_group h)) (o_content h).
Proof.
  intros (_ & _ & _ & [->|Hc]) Hg; [destruct (keep_of axes (o_group h)); cbn; auto|].
  apply (power_all (o_layout h)); [apply keeps_groups_keep; auto|]. unfold keep_of. rewrite map_length. auto.
Qed.

(** ** C35: projection on any of the axes that include all group axes *)
(** Each cell is the sum of the cells that show the same slots on the kept axes; the groups are those
    of [h]; everything else is kept. *)
Theorem C35_projection_sums_cells h axes : hobj_ok h -> all_in axes (o_group h ++ o_fixed h) = true -> keeps_groups h axes ->
  exists g, project (view h) axes = Ok (view g) /\ hobj_ok g /\
    o_group g = o_group h /\ o_fixed g = filter (fun x => axis_in x axes) (o_fixed h) /\ o_prof g = o_prof h /\
    o_weight g = o_weight h /\ o_filter g = o_filter h /\ o_defs g = o_defs h /\ o_attach g = o_attach h /\
    (forall ks, has_block g ks <-> has_block h ks) /\
    forall ks ss kd, in_shape (o_layout g) ss -> has_column (o_layout g) kd ->
      hcell g ks ss kd = nsum (map (fun ss' => hcell h ks ss' kd) (slots_over (keep_of axes (o_fixed h)) (l_tots (o_layout h)) ss)).
Proof.
  intros Hok Ha Hg. exists (proj_hist h axes). pose proof (project_hist h axes Hok Ha Hg) as E. split; auto. split; [apply proj_hist_ok; auto|].
  split; [cbn; apply keeps_groups_all; auto|]. do 6 (split; [reflexivity|]).
  assert (B : forall ks, block (o_content (proj_hist h axes)) ks = option_map (proj_data (keep_of axes (o_fixed h)) (o_layout h)) (block (o_content h) ks)).
  { intros ks. cbn [o_content proj_hist proj_head]. apply block_cmap. }
  split.
  - intros ks. unfold has_block. rewrite B. destruct (block (o_content h) ks); cbn; split; congruence.
  - intros ks ss kd Hs Hk. unfold hcell, cell. rewrite B. rewrite proj_hist_layout in *.
    destruct (block (o_content h) ks) as [d|]; cbn [option_map].
    + rewrite column_keep. assert (Hk' : has_column (o_layout h) kd) by (destruct kd; exact Hk).
      rewrite proj_data_cell; auto using keep_length, column_lt.
    + symmetry. apply nsum_zero. intros z Hz. apply in_map_iff in Hz. destruct Hz as (? & <- & _). reflexivity.
Qed.
Print Assumptions C35_projection_sums_cells.
Example C35_example : exists g, project (view pr_flat) [pr_x] = Ok (view g) /\
  hobj_ok pr_flat /\ all_in [pr_x] (o_group pr_flat ++ o_fixed pr_flat) = true /\ keeps_groups pr_flat [pr_x] /\
  o_axes g = [pr_x] /\ map (fun s => hcell g [] [s] SumW) [0; 1] = [nz 3; nz 7].
Proof.
  exists (proj_hist pr_flat [pr_x]). split; [apply project_hist; try reflexivity; ok_tac|]. split; [ok_tac|]. do 3 (split; [reflexivity|]). num_tac.
Qed.

(** The total of every column is preserved. *)
Theorem C35_projection_preserves_totals h axes : hobj_ok h -> all_in axes (o_group h ++ o_fixed h) = true -> keeps_groups h axes ->
  exists g, project (view h) axes = Ok (view g) /\
    forall kd, has_column (o_layout h) kd ->
      total (o_layout g) (length (o_group g)) (column_of (o_layout g) kd) (o_content g) =
      total (o_layout h) (length (o_group h)) (column_of (o_layout h) kd) (o_content h).
Proof.
  intros Hok Ha Hg. destruct (Hok) as (HG & HF & HP & [Hc|Hc]).
  - exists (proj_head h axes CNone). split; [apply project_empty; auto|]. intros kd _. rewrite Hc. cbn [o_content proj_head].
    destruct (length _), (length _); reflexivity.
  - assert (Lg : length (keep_of axes (o_group h)) = length (o_group h)) by apply map_length.
    destruct (projcontent_embed (keep_of axes (o_fixed h)) (o_layout h) (keep_length axes h) (keep_of axes (o_group h)) (o_content h)) as (y & E & Hy);
      [rewrite Lg; auto|apply power_kept; auto|].
    exists (proj_head h axes y). split; [apply project_kept; auto|]. intros kd Hk. rewrite proj_head_layout, column_keep.
    cbn [o_group o_content proj_head]. rewrite <- trues_filter. fold (keep_of axes (o_group h)). rewrite <- Lg.
    apply projected_total; auto using keep_length, column_lt. rewrite Lg. auto.
Qed.
Print Assumptions C35_projection_preserves_totals.

(** Projecting commutes with filling, whatever was filled before: filling [rows] and projecting gives
    the same counts as projecting and filling the projected rows, except that the smaller histogram
    also accepts rows that a removed axis would drop. *)
Theorem C35_projecting_commutes_with_filling h axes m rows c : hobj_ok h -> all_in axes (o_group h ++ o_fixed h) = true -> keeps_groups h axes ->
  fill_pre (o_layout h) (length (o_group h)) m rows (o_content h) ->
  fill_rows (o_layout h) (length (o_group h)) m rows (o_content h) = (c, None) ->
  exists g g', project (view h) axes = Ok (view g) /\ project (view (with_content h c)) axes = Ok (view g') /\
    (layout_ok (o_layout g) ->
     let kg := keep_of axes (o_group h) in let kf := keep_of axes (o_fixed h) in
     exists y, fill_rows (o_layout g) (length (o_group g)) m (map (proj_row kg kf) (filter (removed_keep kg kf) rows)) (o_content g) = (y, None) /\
       same_cells (o_layout g) (o_content g') y /\
       (forallb (removed_keep kg kf) rows = true -> same_content (o_content g') y)).
Proof.
  intros Hok Ha Hg Hpre Ec. destruct (fill_ok _ _ _ _ _ Hpre) as (c1 & E1 & Oc & _). rewrite Ec in E1. inversion E1; subst c1. clear E1.
  assert (Lg : length (keep_of axes (o_group h)) = length (o_group h)) by apply map_length.
  assert (Hok' : hobj_ok (with_content h c)) by (destruct Hok as (? & ? & ? & ?); split; [|split; [|split]]; auto; right; exact Oc).
  assert (P : forall h, hobj_ok h -> all_in axes (o_group h ++ o_fixed h) = true -> keeps_groups h axes ->
     exists y, project (view h) axes = Ok (view (proj_head h axes y)) /\ proj_of (keep_of axes (o_group h)) (keep_of axes (o_fixed h)) (o_layout h) (o_content h) y).
  { clear. intros h Hok Ha Hg. destruct (Hok) as (HG & HF & HP & [Hc|Hc]).
    - exists CNone. split; [apply project_empty; auto|left; auto].
    - destruct (projcontent_embed (keep_of axes (o_fixed h)) (o_layout h) (keep_length axes h) (keep_of axes (o_group h)) (o_content h)) as (y & E & Hy);
        [unfold keep_of; rewrite map_length; auto|apply power_kept; auto|].
      exists y. split; [apply project_kept; auto|right]. split; auto. unfold keep_of. rewrite map_length. auto. }
  destruct (P h Hok Ha Hg) as (y0 & E0 & P0). destruct (P _ Hok' Ha Hg) as (y & Ey & Py).
  exists (proj_head h axes y0), (proj_head (with_content h c) axes y). split; auto. split; auto.
  rewrite proj_head_layout. intros HL. cbn zeta. cbn [o_group o_content proj_head]. rewrite <- trues_filter. fold (keep_of axes (o_group h)).
  change (o_layout (with_content h c)) with (o_layout h) in Py. cbn [o_group o_fixed o_content with_content] in Py.
  assert (Hy : projected (keep_of axes (o_group h)) (keep_of axes (o_fixed h)) (o_layout h) (length (keep_of axes (o_group h))) c y).
  { destruct Py as [(-> & _)|(_ & ?)]; auto. destruct (length (o_group h)); contradiction. }
  rewrite <- Lg in Hpre, Ec.
  destruct (project_fill _ _ _ _ _ _ _ _ _ (keep_length axes h) Hpre HL P0 Ec Hy) as (y' & E1 & E2 & E3).
  exists y'. split; auto. split; auto. intros. apply E3; auto. apply keeps_groups_keep; auto.
Qed.
Print Assumptions C35_projecting_commutes_with_filling.

(** From the user's side: a histogram with the smaller set of axes, filled with the same arrays, shows
    the projection of the big one. Groups may be projected out too (see C37). *)
Theorem C35_projection_equals_filling_the_smaller_histogram cast rnd user order h srcs srcs' A len rows profs w f defs att axes :
  is_order order -> Permutation srcs (sources (hist_goals h)) -> Permutation srcs' (sources (hist_goals (smaller h axes))) ->
  hist_wf h -> no_bcast h -> args_ok h A len -> args_ok (smaller h axes) A len ->
  hist_ready cast rnd user h A len rows CNone -> layout_ok (hist_layout (smaller h axes)) ->
  o_layout (held h profs w f defs att CNone) = hist_layout h -> Forall (fun a => is_profile a = true) profs ->
  all_in axes (map fst (h_group h) ++ map fst (h_fixed h)) = true ->
  forallb (removed_keep (kg h axes) (kf h axes)) rows = true ->
  exists c c', hist_fill cast rnd user order srcs h A CNone = (c, None) /\
    hist_fill cast rnd user order srcs' (smaller h axes) A CNone = (c', None) /\
    (power_groups (kg h axes) c ->
     exists g, project (view (held h profs w f defs att c)) axes = Ok (view g) /\
       o_axes g = map fst (h_group (smaller h axes)) ++ map fst (h_fixed (smaller h axes)) ++ profs /\
       same_cells (hist_layout (smaller h axes)) (o_content g) c' /\
       (forallb (fun b : bool => b) (kg h axes) = true -> same_content (o_content g) c')).
Proof. apply filled_projection. Qed.
Print Assumptions C35_projection_equals_filling_the_smaller_histogram.

Example C35_filling_example : exists c c' g,
  fillx exA CNone = (c, None) /\
  hist_fill cast_x86 Fin nocall (fun _ l => l) (sources (hist_goals (smaller exh [pr_g]))) (smaller exh [pr_g]) exA CNone = (c', None) /\
  project (view (held exh [] (Some (XStr "w")) None [] [] c)) [pr_g] = Ok (view g) /\ o_axes g = [pr_g] /\
  same_content (o_content g) c' /\ map (fun k => block (o_content g) [GStr k]) ["a"; "b"] = [Some [nz 9; nz 53]; Some [nz 5; nz 25]].
Proof.
  destruct (C35_projection_equals_filling_the_smaller_histogram cast_x86 Fin nocall (fun _ l => l) exh (sources (hist_goals exh))
    (sources (hist_goals (smaller exh [pr_g]))) exA 3 exrows [] (Some (XStr "w")) None [] [] [pr_g]) as (c & c' & E & E' & H).
  - intros n l. apply Permutation_refl.
  - apply Permutation_refl.
  - apply Permutation_refl.
  - apply exh_wf.
  - apply exh_no_bcast.
  - apply exA_ok.
  - destruct exA_ok as (H1 & H2). split.
    + intros s (t & Ht & Hs). apply H1. exists t. split; auto. apply smaller_exprs in Ht. exact Ht.
    + left. exists "g". split; [|eexists; reflexivity]. eexists. split; [left; reflexivity|]. constructor.
  - apply ex_ready.
  - discriminate.
  - reflexivity.
  - constructor.
  - reflexivity.
  - reflexivity.
  - exists c, c'.
    assert (Ec : c = fst (fillx exA CNone)) by (rewrite E; reflexivity).
    assert (Ec' : c' = fst (hist_fill cast_x86 Fin nocall (fun _ l => l) (sources (hist_goals (smaller exh [pr_g]))) (smaller exh [pr_g]) exA CNone)) by (rewrite E'; reflexivity).
    assert (P : power_groups (kg exh [pr_g]) c).
    { rewrite Ec. vm_compute. split; [left; reflexivity|]. repeat constructor. }
    destruct (H P) as (g & E1 & E2 & _ & E3). exists g. split; auto. split; auto. split; auto. split; [exact E2|]. split; [apply E3; reflexivity|].
    cbn [map]. rewrite !(E3 eq_refl), Ec'. num_tac.
Qed.

(** ** C36: projections compose, and commute with sums and multiplication by a number *)
Theorem C36_projections_compose h A B : hobj_ok h -> all_in A (o_group h ++ o_fixed h) = true -> all_in B A = true -> keeps_groups h B ->
  exists g g', project (view h) A = Ok (view g) /\ project (view g) B = Ok (view g') /\ project (view h) B = Ok (view g').
Proof. apply project_compose. Qed.
Print Assumptions C36_projections_compose.

Theorem C36_projecting_on_all_axes_changes_nothing h : hobj_ok h -> Forall (fun a => axis_eqb a a = true) (o_axes h) ->
  project (view h) (o_group h ++ o_fixed h) = Ok (view h).
Proof. apply project_all. Qed.
Print Assumptions C36_projecting_on_all_axes_changes_nothing.

Theorem C36_projection_of_a_sum h g axes s : hobj_ok h -> hobj_ok g -> addable h g -> Forall (fun a => axis_eqb a a = true) (o_axes h) ->
  all_in axes (o_group h ++ o_fixed h) = true -> keeps_groups h axes -> hist_add h g = Ok s ->
  exists s' h' g', project (view s) axes = Ok (view s') /\ project (view h) axes = Ok (view h') /\ project (view g) axes = Ok (view g') /\
    hist_add h' g' = Ok s'.
Proof.
  intros H1 H2 H3 H4 H5 H6 H7. destruct (project_add h g axes s H1 H2 H3 H5 H6 H7) as (s' & h' & g' & ? & ? & ? & ?). exists s', h', g'. auto.
Qed.
Print Assumptions C36_projection_of_a_sum.

Theorem C36_projection_of_a_multiple h q axes s : hobj_ok h -> all_in axes (o_group h ++ o_fixed h) = true -> keeps_groups h axes ->
  hist_mul h (Fin q) = Ok s ->
  exists s' h', project (view s) axes = Ok (view s') /\ project (view h) axes = Ok (view h') /\ hist_mul h' (Fin q) = Ok s'.
Proof. apply project_mul. Qed.
Print Assumptions C36_projection_of_a_multiple.

(** The factor must be finite: 0 * inf is NaN, so that with an infinite factor the sum of the products
    is not the product of the sum. *)
Theorem C36_infinite_factor_refuted : exists h s, hist_mul h PInf = Ok s /\ hobj_ok h /\
  exists s' h' t, project (view s) [pr_x] = Ok (view s') /\ project (view h) [pr_x] = Ok (view h') /\ hist_mul h' PInf = Ok t /\
    hcell s' [] [0] SumW = NaN /\ hcell t [] [0] SumW = PInf.
Proof.
  exists (pr_hist [] (arr [0; 1; 0; 0]%Z)), (pr_hist [] (CArr [NaN; PInf; NaN; NaN])). split; [reflexivity|]. split; [ok_tac|].
  exists (proj_hist (pr_hist [] (CArr [NaN; PInf; NaN; NaN])) [pr_x]), (proj_hist (pr_hist [] (arr [0; 1; 0; 0]%Z)) [pr_x]).
  eexists. split; [apply project_hist; try reflexivity; ok_tac|]. split; [apply project_hist; try reflexivity; ok_tac|].
  split; [reflexivity|]. split; reflexivity.
Qed.
Print Assumptions C36_infinite_factor_refuted.

Example C36_example : hobj_ok (pr_grouped 2) /\ all_in [pr_g; pr_x] (o_group (pr_grouped 2) ++ o_fixed (pr_grouped 2)) = true /\
  all_in [pr_g] [pr_g; pr_x] = true /\ keeps_groups (pr_grouped 2) [pr_g] /\ addable (pr_grouped 2) (pr_grouped 3) /\
  Forall (fun a => axis_eqb a a = true) (o_axes (pr_grouped 2)) /\
  exists g, project (view (pr_grouped 2)) [pr_g] = Ok (view g) /\ map (fun k => hcell g [GStr k] [] SumW) ["a"; "b"] = [nz 10; nz 100].
Proof.
  split; [ok_tac|]. do 3 (split; [reflexivity|]). split; [ok_tac|]. split; [repeat constructor|].
  exists (proj_hist (pr_grouped 2) [pr_g]). split; [apply project_hist; try reflexivity; ok_tac|]. num_tac.
Qed.

(** ** C37: projecting out group axes *)
(** If in every dict of a removed group axis the number of keys is 2, 4, 8, ..., each cell is the sum
    over the removed keys and slots, and the remaining groups are those of [h]. *)
Theorem C37_removed_groups_are_summed h axes : hobj_ok h -> all_in axes (o_group h ++ o_fixed h) = true ->
  power_groups (keep_of axes (o_group h)) (o_content h) ->
  exists g, project (view h) axes = Ok (view g) /\ hobj_ok g /\
    o_axes g = filter (fun x => axis_in x axes) (o_group h) ++ filter (fun x => axis_in x axes) (o_fixed h) ++ o_prof h /\
    (forall P ks ss kd, lists_blocks (o_content h) P -> in_shape (o_layout g) ss -> has_column (o_layout g) kd ->
       hcell g ks ss kd = nsum (map (fun p => nsum (map (fun ss' => hcell h p ss' kd)
         (slots_over (keep_of axes (o_fixed h)) (l_tots (o_layout h)) ss))) (keys_over (keep_of axes (o_group h)) P ks))) /\
    (forall P ks, lists_blocks (o_content h) P -> (has_block g ks <-> exists p, In p (keys_over (keep_of axes (o_group h)) P ks))).
Proof.
  intros Hok Ha Hp. destruct (project_cells h axes Hok Ha Hp) as (c & E & Hg & Hc & Hb). exists (proj_head h axes c). cbn zeta in *. split; auto.
Qed.
Print Assumptions C37_removed_groups_are_summed.

(** One group axis with any two or more keys: the numbers, in memory order, are the right sums; ... *)
Theorem C37_numbers_of_one_removed_group h a l axes : hobj_ok h -> o_group h = [a] -> o_content h = CDict l -> 2 <= length l ->
  all_in axes (o_fixed h) = true -> axis_in a axes = false ->
  let L' := layout_keep (keep_of axes (o_fixed h)) (o_layout h) in
  exists head s d, project (view h) axes = Ok (PH head (PArr s d)) /\ o_layout head = L' /\ length d = l_size L' /\
    forall ss kd, in_shape L' ss -> has_column L' kd ->
      nth (ravel (l_tots L') ss * l_last L' + column_of L' kd) d nzero =
      nsum (map (fun kv => nsum (map (fun ss' => hcell h [fst kv] ss' kd) (slots_over (keep_of axes (o_fixed h)) (l_tots (o_layout h)) ss))) l).
Proof.
  intros H1 H2 H3 H4 H5 H6 L'. destruct (project_one_group h a l axes H1 H2 H3 H4 H5 H6) as (b & d & E & _ & Hl & Hn).
  exists (proj_head h axes CNone), (lead b (l_shape L')), d. split; auto. split; [apply proj_head_layout|]. split; auto.
Qed.
Print Assumptions C37_numbers_of_one_removed_group.

(** ... but the array has the shape of the projected histogram exactly when the number of keys is a power
    of two; otherwise it has one more dimension. *)
Theorem C37_shape_refuted h a l axes : hobj_ok h -> o_group h = [a] -> o_content h = CDict l -> 2 <= length l ->
  all_in axes (o_fixed h) = true -> axis_in a axes = false ->
  exists head s d, project (view h) axes = Ok (PH head (PArr s d)) /\
    (s = l_shape (o_layout head) <-> exists k, length l = 2 ^ k) /\
    ((~ exists k, length l = 2 ^ k) -> s = 1 :: l_shape (o_layout head)).
Proof.
  intros H1 H2 H3 H4 H5 H6. destruct (project_one_group h a l axes H1 H2 H3 H4 H5 H6) as (b & d & E & Hb & Hl & Hn).
  exists (proj_head h axes CNone), (lead b (l_shape (layout_keep (keep_of axes (o_fixed h)) (o_layout h)))), d. split; auto.
  rewrite proj_head_layout. unfold pow2 in Hb. destruct b; cbn [lead].
  - split; [|auto]. split; intros H; [apply (f_equal (@length nat)) in H; cbn in H; lia|apply Hb in H; discriminate].
  - split; [split; auto; intros _; apply Hb; auto|]. intros H. exfalso. apply H, Hb. auto.
Qed.
Print Assumptions C37_shape_refuted.
Example C37_example : hobj_ok (pr_grouped 2) /\ hobj_ok (pr_grouped 3) /\ power_groups (keep_of [pr_x; pr_y] (o_group (pr_grouped 2))) (o_content (pr_grouped 2)) /\
  lists_blocks (o_content (pr_grouped 2)) [[GStr "a"]; [GStr "b"]] /\
  (exists g, project (view (pr_grouped 2)) [pr_x; pr_y] = Ok (view g) /\ hcell g [] [1; 0] SumW = nz 33) /\
  (exists head d, project (view (pr_grouped 3)) [pr_x; pr_y] = Ok (PH head (PArr [1; 2; 2; 1] d))).
Proof.
  split; [ok_tac|]. split; [ok_tac|]. split.
  { split; [right; exists 0; reflexivity|repeat constructor]. }
  split.
  { split; [repeat constructor; cbn; intuition discriminate|]. intros ks. destruct ks as [|k [|k' ks]]; cbn.
    - intuition discriminate.
    - split; [intros [E|[E|[]]]; inversion E; subst; cbn; discriminate|].
      destruct (gkey_eqb k (GStr "a")) eqn:Ea; [apply gkey_eqb_eq in Ea; subst; auto|].
      destruct (gkey_eqb k (GStr "b")) eqn:Eb; [apply gkey_eqb_eq in Eb; subst; auto|]. congruence.
    - split; [intuition discriminate|]. intros H. exfalso. apply H. destruct (gkey_eqb k (GStr "a")); auto. destruct (gkey_eqb k (GStr "b")); auto. }
  split; [|eexists; eexists; reflexivity].
  exists (pr_hist [] (arr [11; 22; 33; 44]%Z)). split; [num_tac|num_tac].
Qed.

(** Three keys: projecting once more then sums over the wrong axis. The first cell must be
    1 + 2 + 10 + 20 + 100 + 200. *)
Theorem C37_second_projection_refuted : exists g g' s d,
  project (view (pr_grouped 3)) [pr_x; pr_y] = Ok g /\ project g [pr_x] = Ok g' /\ p_content g' = PArr s d /\
  o_axes (p_head g') = [pr_x] /\ nth 0 d nzero = nz 444 /\
  nsum (map (fun k => nadd (hcell (pr_grouped 3) [GStr k] [0; 0] SumW) (hcell (pr_grouped 3) [GStr k] [0; 1] SumW)) ["a"; "b"; "c"]) = nz 333.
Proof.
  eexists. eexists. eexists. eexists. split; [reflexivity|]. split; [reflexivity|]. split; [reflexivity|]. split; [reflexivity|]. split; num_tac.
Qed.
Print Assumptions C37_second_projection_refuted.

(** One key: the content becomes a Python list instead of an array. *)
Theorem C37_one_key_refuted h a k x axes : hobj_ok h -> o_group h = [a] -> o_content h = CDict [(k, x)] ->
  all_in axes (o_fixed h) = true -> axis_in a axes = false ->
  exists g, project (view h) axes = Ok g /\ (exists y, p_content g = PList [y]).
Proof.
  intros Hok Hg Hc Ha Hna. destruct (Hok) as (_ & _ & _ & [Hc'|Hc']); [congruence|]. rewrite Hg, Hc in Hc'. cbn in Hc'. destruct Hc' as (Fl & _).
  inversion Fl as [|? ? Hx _]; subst. cbn [snd] in Hx. destruct x as [|d|]; try contradiction.
  unfold project, view. cbn [p_head p_content]. change (o_group (with_content h CNone)) with (o_group h). change (o_fixed (with_content h CNone)) with (o_fixed h).
  replace (all_in axes (o_group h ++ o_fixed h)) with true.
  2:{ symmetry. unfold all_in in *. rewrite forallb_forall in *. intros y Hy. unfold axis_in in *. rewrite existsb_app. apply orb_true_intro. right. apply (Ha y Hy). }
  cbn [negb]. rewrite Hc, Hg, embed_dict. cbn [map fst snd projcontent proj_items embed].
  fold (keep_of axes (o_fixed h)). rewrite projarray_embed by (auto using keep_length). rewrite Hna. cbn [bind map fst snd addall length addall_fuel].
  eexists. split; [reflexivity|]. cbn. eauto.
Qed.
Print Assumptions C37_one_key_refuted.

(** No key, as after filling no rows: an error. *)
Theorem C37_no_keys_refuted h a axes : o_group h = [a] -> o_content h = CDict [] ->
  all_in axes (o_fixed h) = true -> axis_in a axes = false -> exists e, project (view h) axes = Err e.
Proof.
  intros Hg Hc Ha Hna.
  unfold project, view. cbn [p_head p_content]. change (o_group (with_content h CNone)) with (o_group h). change (o_fixed (with_content h CNone)) with (o_fixed h).
  replace (all_in axes (o_group h ++ o_fixed h)) with true.
  2:{ symmetry. unfold all_in in *. rewrite forallb_forall in *. intros y Hy. unfold axis_in in *. rewrite existsb_app. apply orb_true_intro. right. apply (Ha y Hy). }
  cbn [negb]. rewrite Hc, Hg, embed_dict. cbn [map projcontent proj_items bind]. rewrite Hna. eexists. reflexivity.
Qed.
Print Assumptions C37_no_keys_refuted.

(** Two group axes, three keys on the one that is removed: a TypeError, because a list is added to a dict. *)
Definition pr_two (c : list (gkey * content)) : hobj := pr_hist [pr_g; pr_k] (CDict c).
Ltac two_tac := split; [repeat constructor|split; [repeat constructor|split; [repeat constructor|]]]; right; cbn;
  repeat match goal with
  | |- _ /\ _ => split
  | |- Forall _ _ => constructor
  | |- NoDup [] => constructor
  | |- NoDup (_ :: _) => constructor
  | |- ~ In _ _ => cbn; intuition discriminate
  | |- key_ok _ => discriminate
  | |- _ => first [reflexivity|progress cbn]
  end.
Theorem C37_outer_group_refuted : exists h, hobj_ok h /\ project (view h) [pr_k; pr_x; pr_y] = Err TypeError.
Proof.
  exists (pr_two (map (fun p => (fst p, CDict [(GStr "u", snd p)])) (pr_items 3))).
  split; [two_tac|]. reflexivity.
Qed.
Print Assumptions C37_outer_group_refuted.
(** The inner of two group axes, with one key each, together with the outer one: two lists are
    concatenated instead of added. *)
Theorem C37_lists_refuted : exists h, hobj_ok h /\
  exists head a b, project (view h) [pr_x; pr_y] = Ok (PH head (PList [a; b])).
Proof.
  exists (pr_two (map (fun p => (fst p, CDict [(GStr "u", snd p)])) (pr_items 2))).
  split; [two_tac|]. eexists. eexists. eexists. reflexivity.
Qed.
Print Assumptions C37_lists_refuted.

(** ** C42: dropping profiles *)
Theorem C42_dropping_all_profiles_keeps_counts h dropped : hobj_ok h -> dropped <> [] -> all_in dropped (o_prof h) = true ->
  Forall (fun p => axis_in p dropped = true) (o_prof h) -> (o_filter h = None \/ o_weight h <> None) ->
  exists g, drop (view h) dropped = Ok (view g) /\ hobj_ok g /\ o_axes g = o_group h ++ o_fixed h /\
    o_weight g = o_weight h /\ o_filter g = o_filter h /\ o_defs g = o_defs h /\ o_attach g = o_attach h /\
    (forall ks, has_block g ks <-> has_block h ks) /\
    forall ks ss kd, in_shape (o_layout h) ss -> has_column (o_layout g) kd -> hcell g ks ss kd = hcell h ks ss kd.
Proof.
  intros H1 H2 H3 H4 H5. destruct (drop_all h dropped H1 H2 H3 H4 H5) as (c & E & Hg & Hb & Hc). exists (without_profiles h c). cbn zeta in *.
  split; auto. split; auto. split; [cbn; rewrite app_nil_r; auto|]. do 4 (split; [reflexivity|]). auto.
Qed.
Print Assumptions C42_dropping_all_profiles_keeps_counts.

Definition pr_p : axis := AProfile "p".
Definition pr_q : axis := AProfile "q".
Definition pr_prof (w f : option wsrc) (d : list Z) : hobj := {|
  o_group := []; o_fixed := [pr_x]; o_prof := [pr_p; pr_q]; o_weight := w; o_filter := f;
  o_defs := []; o_attach := []; o_content := arr d |}.
Example C42_example : let h := pr_prof (Some (XStr "w")) None [10; 11; 20; 21; 3; 5; 30; 31; 40; 41; 7; 9]%Z in
  hobj_ok h /\ all_in [pr_p; pr_q] (o_prof h) = true /\ Forall (fun p => axis_in p [pr_p; pr_q] = true) (o_prof h) /\
  exists g, drop (view h) [pr_p; pr_q] = Ok (view g) /\ map (fun s => (hcell g [] [s] SumW, hcell g [] [s] SumW2)) [0; 1] = [(nz 3, nz 5); (nz 7, nz 9)].
Proof.
  cbn zeta. split; [ok_tac|]. split; [reflexivity|]. split; [repeat constructor|].
  exists (without_profiles (pr_prof (Some (XStr "w")) None [10; 11; 20; 21; 3; 5; 30; 31; 40; 41; 7; 9]%Z) (arr [3; 5; 7; 9]%Z)). split; num_tac.
Qed.

(** Dropping some profiles and keeping others never leaves arrays of the right shape: one column per
    kept profile is kept instead of two. *)
Theorem C42_keeping_a_profile_refuted h dropped g ks : hobj_ok h -> drop (view h) dropped = Ok g -> has_block h ks ->
  Exists (fun p => axis_in p dropped = false) (o_prof h) ->
  exists sh e, pblock (p_content g) ks = Some (PArr sh e) /\ sh <> l_shape (o_layout (p_head g)).
Proof. apply drop_keeping. Qed.
Print Assumptions C42_keeping_a_profile_refuted.
Example C42_keeping_example : let h := pr_prof (Some (XStr "w")) None [10; 11; 20; 21; 3; 5; 30; 31; 40; 41; 7; 9]%Z in
  hobj_ok h /\ has_block h [] /\ Exists (fun p => axis_in p [pr_p] = false) (o_prof h) /\
  exists g, drop (view h) [pr_p] = Ok g /\ p_content g = PArr [2; 3] (map nz [11; 3; 5; 31; 7; 9]%Z) /\ l_shape (o_layout (p_head g)) = [2; 4].
Proof.
  cbn zeta. split; [ok_tac|]. split; [discriminate|]. split; [apply Exists_cons_tl, Exists_cons_hd; reflexivity|].
  eexists. split; [reflexivity|]. split; num_tac.
Qed.
(** With a filter and no weight, the sum of squared weights is lost. *)
Theorem C42_filter_without_weight_refuted : exists h g, hobj_ok h /\ drop (view h) [pr_p; pr_q] = Ok g /\
  exists e, p_content g = PArr [2; 1] e /\ l_shape (o_layout (p_head g)) = [2; 2].
Proof.
  exists (pr_prof None (Some (XStr "f")) [10; 11; 20; 21; 3; 5; 30; 31; 40; 41; 7; 9]%Z). eexists. split; [ok_tac|]. split; [reflexivity|]. eexists. split; num_tac.
Qed.
Print Assumptions C42_filter_without_weight_refuted.
(** [drop()] without arguments is an error, also when there are no profiles to drop. *)
Theorem C42_no_profile_given h : drop (view h) [] = Err IndexError.
Proof. reflexivity. Qed.
Print Assumptions C42_no_profile_given.
