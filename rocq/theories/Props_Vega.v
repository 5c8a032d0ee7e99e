(** Properties of plots: C57. *)
From Coq Require Import String Permutation Sorted Lia.
From Verif Require Import Base Num NumFacts Axis AxisSpec AxisProofs AxisMain Calc Content Fill FillSpec FillProofs FillProofs2 FillProofs3 FillMain
  Tree Order Expr ExprFacts Instr InstrSpec Elem HistFill HistSpec KeySpec HistAlg AlgSpec HistAlgProofs HistAlgMain CompareProofs Props_Alg
  Nd NdProofs Proj ProjSpec ProjProofs ProjMain ProjMain2 ProjLaws ProjDrop Props_Proj
  Select Table TableSpec TableProofs TableNorm FracProofs Props_Table Pandas PandasSpec PandasProofs PandasMain Props_Pandas
  Vega VegaSpec VegaProofs VegaGroups VegaAxis VegaMain VegaData.
Local Open Scope string_scope.
Local Open Scope list_scope.

(** ** C57: the data of a plot *)
(** [h.overlay(..).stack(..).beside(..).below(..).step(axis, ..)] and the other plots along one axis: the
    data of the plot are those of the histogram [g] that is projected onto the axes of the chain (C35, C37).
    [numbers] are those of its table (C43): the entries, or the mean of the profile, and the error if asked for. *)
Theorem C57_plot_shows_every_bin sqrt bin_width h g p id is : hobj_ok h -> project (view h) (map ch_axis (p1_chain p) ++ [c_axis (p1_last p)]) = Ok (view g) ->
  hobj_ok g -> Forall axis_fine (o_group g) -> Forall axis_fine (o_fixed g) ->
  comparable (o_content g) -> real_groups (o_group g) (o_content g) -> number_keys (o_group g) (o_content g) ->
  Forall2 (profile_number g) (profiles (c_profile (p1_last p))) is -> c_normalized (p1_last p) = false ->
  (quantitative (p1_last p) = true -> c_error (p1_last p) && is_baseline (c_kind (p1_last p)) = true -> first_bin_wide (c_axis (p1_last p))) ->
  let l := p1_last p in
  let numbers := fun pl : place => expected_row sqrt g (fst pl) (snd pl) (no_profile (c_profile l)) false (c_error l) is in
  exists data domains, data1d sqrt bin_width (view h) p id = Ok (o_group g ++ o_fixed g, data, domains) /\
    if quantitative l
    then exists q, nth_error (o_fixed g) q = Some (c_axis l) /\ numerical_data (o_group g) (o_fixed g) id l q (c_axis l) numbers (has_group g) data
    else exists j, nth_error (o_group g ++ o_fixed g) j = Some (c_axis l) /\ category_data (o_group g) (o_fixed g) id l j numbers (has_group g) data.
Proof. apply data1d_ok. Qed.
Print Assumptions C57_plot_shows_every_bin.

(** When the chain has all group axes, the conditions are about the histogram itself. *)
Lemma key_at_cmap f : forall p c k, key_at (cmap f c) p k -> key_at c p k.
Proof.
  induction p as [|k0 p IH]; intros c k (l & E & H); destruct c as [|d|lc]; try discriminate; rewrite cmap_dict in E; cbn [sub] in E.
  - injection E as <-. exists lc. split; auto. rewrite map_map in H. exact H.
  - rewrite assoc_map in E. destruct (assoc k0 lc) as [x|] eqn:Ex; [|discriminate]. cbn [option_map] in E. destruct (IH x k) as (m & Em & Hm); [exists l; auto|].
    exists m. split; auto. cbn [sub]. rewrite Ex. exact Em.
Qed.
Theorem C57_plot_of_all_groups sqrt bin_width h p id is : let l := p1_last p in let axes := map ch_axis (p1_chain p) ++ [c_axis l] in
  hobj_ok h -> all_in axes (o_group h ++ o_fixed h) = true -> keeps_groups h axes ->
  Forall axis_fine (o_group h) -> Forall axis_fine (o_fixed h) -> comparable (o_content h) -> real_groups (o_group h) (o_content h) -> number_keys (o_group h) (o_content h) ->
  Forall2 (profile_number h) (profiles (c_profile l)) is -> c_normalized l = false ->
  (quantitative l = true -> c_error l && is_baseline (c_kind l) = true -> first_bin_wide (c_axis l)) ->
  exists g data domains, project (view h) axes = Ok (view g) /\ o_group g = o_group h /\ o_fixed g = filter (fun x => axis_in x axes) (o_fixed h) /\
    data1d sqrt bin_width (view h) p id = Ok (o_group g ++ o_fixed g, data, domains) /\
    let numbers := fun pl : place => expected_row sqrt g (fst pl) (snd pl) (no_profile (c_profile l)) false (c_error l) is in
    if quantitative l
    then exists q, nth_error (o_fixed g) q = Some (c_axis l) /\ numerical_data (o_group g) (o_fixed g) id l q (c_axis l) numbers (has_group g) data
    else exists j, nth_error (o_group g ++ o_fixed g) j = Some (c_axis l) /\ category_data (o_group g) (o_fixed g) id l j numbers (has_group g) data.
Proof.
  intros l axes Hok Ha Hk HG HF Hc Hr Hn HP Hno Hw. exists (proj_hist h axes). pose proof (project_hist h axes Hok Ha Hk) as E.
  assert (EG : o_group (proj_hist h axes) = o_group h) by (cbn; apply keeps_groups_all; auto).
  assert (EF : o_fixed (proj_hist h axes) = filter (fun x => axis_in x axes) (o_fixed h)) by reflexivity.
  assert (EC : forall p k, key_at (o_content (proj_hist h axes)) p k -> key_at (o_content h) p k).
  { intros q k Hq. cbn [o_content proj_hist proj_head] in Hq. apply key_at_cmap in Hq. exact Hq. }
  destruct (C57_plot_shows_every_bin sqrt bin_width h (proj_hist h axes) p id is) as (data & domains & Ed & Hd); auto.
  - apply proj_hist_ok; auto.
  - rewrite EG. auto.
  - rewrite EF. apply Forall_forall. intros x Hx. apply filter_In in Hx. rewrite Forall_forall in HF. apply HF. tauto.
  - intros q k k' H1 H2. apply (Hc q); auto.
  - rewrite EG. intros q k a H1 H2. apply (Hr q k a); auto.
  - rewrite EG. intros q k e w org nf cl H1 H2. apply (Hn q k e w org nf cl); auto.
  - exists data, domains. split; auto.
Qed.
Print Assumptions C57_plot_of_all_groups.

(** *** normalized=True *)
(** The heights are then the shares of the entries that lie inside the axes (C43), so those of the finite
    bins add up to one; overflow bins are drawn at zero. *)
Theorem C57_normalized_plot sqrt bin_width h g p id : hobj_ok h -> project (view h) (map ch_axis (p1_chain p) ++ [c_axis (p1_last p)]) = Ok (view g) ->
  hobj_ok g -> o_group g = [] -> o_content g <> CNone -> Forall axis_fine (o_fixed g) -> Forall uniform (o_fixed g) -> Forall (fun a => pos (width_of bin_width a)) (o_fixed g) ->
  finite_content g -> pos (grand_total g) -> c_profile (p1_last p) = None -> c_normalized (p1_last p) = true ->
  (quantitative (p1_last p) = true -> c_error (p1_last p) && is_baseline (c_kind (p1_last p)) = true -> first_bin_wide (c_axis (p1_last p))) ->
  let l := p1_last p in
  let share := fun ss x => if finite_slots (o_fixed g) ss then ndiv x (grand_total g) else ndiv x PInf in
  let numbers := fun pl : place => share (snd pl) (hcell g [] (snd pl) SumW) :: if c_error l then [share (snd pl) (entries_error sqrt g [] (snd pl))] else [] in
  (exists data domains, data1d sqrt bin_width (view h) p id = Ok (o_fixed g, data, domains) /\
    if quantitative l
    then exists q, nth_error (o_fixed g) q = Some (c_axis l) /\ numerical_data [] (o_fixed g) id l q (c_axis l) numbers (has_group g) data
    else exists j, nth_error (o_fixed g) j = Some (c_axis l) /\ category_data [] (o_fixed g) id l j numbers (has_group g) data) /\
  nsum (map (fun ss => share ss (hcell g [] ss SumW)) (finite_cells g)) = none1 /\
  forall ss, in_shape (o_layout g) ss -> ~ In ss (finite_cells g) -> share ss (hcell g [] ss SumW) = nzero.
Proof.
  intros Hokh EP Hok HG Hc HF HU HW Hfin Hpos Hpr Hno Hw l share numbers.
  assert (Esh : forall ss x, share ss x = ndiv x (divisor g ss)) by (intros ss x; unfold share, divisor; destruct (finite_slots (o_fixed g) ss); reflexivity).
  assert (Ed : exists d, o_content g = CArr d).
  { destruct Hok as (_ & _ & _ & [X|X]); [contradiction|]. rewrite HG in X. destruct (o_content g); try contradiction. eauto. }
  destruct Ed as (d & Ed).
  assert (Hkey : forall q k, ~ key_at (o_content g) q k).
  { intros q k (m & E & _). rewrite Ed in E. destruct q; discriminate. }
  split; [|split].
  - destruct (norm_table_shape bin_width sqrt g {| t_count := no_profile (c_profile l); t_effcount := false; t_error := c_error l; t_normalized := c_normalized l; t_recarray := false |}
      (profiles (c_profile l)) []) as (T & ET & (data & ETd & Hlen) & Hrow); auto; try discriminate.
    { unfold l. rewrite Hpr. constructor. }
    { unfold l. rewrite Hpr. reflexivity. }
    destruct (data1d_rows sqrt bin_width h g p id T (fun _ => data) numbers) as (D & dom & E & R); auto; try (intros q k; intros; exfalso; eapply Hkey; eauto; fail).
    + rewrite HG. constructor.
    + rewrite ETd. unfold started, prefill. rewrite Ed. reflexivity.
    + intros ks ss Hks Hss. assert (ks = []) as ->.
      { unfold has_group, has_block in Hks. rewrite Ed in Hks. destruct Hks as [X|(X & _)]; [|congruence]. destruct ks; auto. exfalso. apply X. reflexivity. }
      rewrite Hrow by auto. unfold numbers. cbn [snd t_error t_effcount]. f_equal. rewrite !Esh. f_equal. rewrite <- app_nil_r. f_equal.
    + rewrite HG in E, R. exists D, dom. split; auto.
  - rewrite <- (proj1 (C43_normalized_counts_add_up_to_one g HG Hfin Hpos)). f_equal. apply map_ext. intros ss. apply Esh.
  - intros ss H1 H2. rewrite Esh. apply (proj2 (C43_normalized_counts_add_up_to_one g HG Hfin Hpos)); auto.
Qed.
Print Assumptions C57_normalized_plot.
(** A plot of groups cannot be normalized. *)
Theorem C57_normalized_groups_refuted sqrt bin_width h g p id is : project (view h) (map ch_axis (p1_chain p) ++ [c_axis (p1_last p)]) = Ok (view g) ->
  hobj_ok g -> o_group g <> [] -> Forall2 (profile_number g) (profiles (c_profile (p1_last p))) is -> c_normalized (p1_last p) = true ->
  data1d sqrt bin_width (view h) p id = Err AttributeError.
Proof.
  intros EP Hok HG HP Hn. unfold data1d. rewrite EP. cbn [bind].
  rewrite (C43_normalized_groups_refuted sqrt bin_width g _ (profiles (c_profile (p1_last p))) is); auto.
Qed.
Print Assumptions C57_normalized_groups_refuted.

(** Each bin that is drawn is at a place in it: bins of lines and markers inside, those of steps and areas
    from the low edge on, so that the bins are drawn in their order, with none on another. *)
Theorem C57_positions_lie_in_their_bins l q a p : axis_fine a -> is_number_axis a = true -> (is_baseline (c_kind l) = true -> first_bin_wide a) -> drawn q a p = true ->
  nleb (fst (ends q a p)) (at_position l q a p) = true /\ nltb (at_position l q a p) (snd (ends q a p)) = true.
Proof.
  intros Ha Hn Hw Hd. unfold drawn in Hd. pose proof (iends_eq a (slot q p) Ha Hn) as E.
  destruct (bin_ends a (slot q p)) as [[lo hi]|] eqn:Eb; [|discriminate].
  assert (Eat : at_position l q a p = ipos l a (slot q p)).
  { unfold at_position, ipos, is_first, drawn, ends, first_slot, lo_of, hi_of. rewrite Eb, E, (ends_low a Hn), (ends_high a Hn). cbn [fst snd andb]. reflexivity. }
  rewrite Eat. unfold ends. rewrite Eb. cbn [fst snd]. destruct (is_baseline (c_kind l)) eqn:EB.
  - destruct (position_in_bin l a Ha Hn EB (Hw eq_refl)) as (u & n & e & _ & _ & P). destruct (P (slot q p)) as (i & _ & _ & Ei & L & R & _); [congruence|]. rewrite E in Ei. injection Ei as -> ->. auto.
  - unfold ipos, lo_of, hi_of. rewrite EB, E. destruct (edges_ok a Ha Hn) as (u & n & e & P & M & _). destruct (P _ _ _ Eb) as (i & Hi & _ & -> & ->).
    pose proof (M i (S i) ltac:(lia) ltac:(lia)) as Hlt.
    assert (Hf : isfin (e i) = true /\ isfin (e (S i)) = true).
    { unfold iends in E. destruct (dk a (slot q p)) as [?|[lo hi c1 c2| | |]]; try discriminate. destruct (isfin lo) eqn:F1; [|discriminate]. destruct (isfin hi) eqn:F2; [|discriminate]. injection E as <- <-. auto. }
    destruct Hf as (F1 & F2). destruct (e i) as [x| | |]; try discriminate. destruct (e (S i)) as [y| | |]; try discriminate.
    cbn in Hlt |- *. apply qltb_iff in Hlt. split; [apply nltb_nleb; cbn|]; apply qltb_iff; qc_push; lra.
Qed.
Print Assumptions C57_positions_lie_in_their_bins.

(** h.overlay("g").stack("y").area("x", error=True), with groupby("g"), groupbin("y", 10) and
    bin("x", 2, 0, 2, underflow). *)
Definition ve_last (k : terminal) (a : axis) (error : bool) : last1d :=
  {| c_kind := k; c_axis := a; c_profile := None; c_error := error; c_normalized := false; c_log := false |}.
Definition ve_plot : plot1d := {| p1_chain := [ChOverlay pd_g; ChStack pd_y None]; p1_last := ve_last TArea pd_x true |}.
Lemma pd_real : real_groups (o_group (pd_hist pd_content)) pd_content.
Proof.
  intros p k a H E. apply pd_keys in H. destruct H as [(-> & H)|(El & H)].
  - cbn in E. inversion E; subst. destruct H as [-> | ->]; eexists (VNum _); (split; [|reflexivity]); discriminate.
  - rewrite El in E. cbn in E. inversion E; subst.
    assert (X : exists z, k = GNum (Fin (qz 0 + qz 10 * qz z)%Qc)).
    { destruct H as [-> |[-> | ->]]; [exists 2%Z|exists 1%Z|exists 3%Z]; f_equal; f_equal; apply Qc_is_canon; reflexivity. }
    destruct X as (z & ->). exists (VNum (Fin (qz 0 + qz 10 * qz z)%Qc)). split; [eexists; split; [reflexivity|left; reflexivity]|].
    left. exists (qz 0 + qz 10 * qz z)%Qc, z. split; auto. split; auto. split; [right; split; [auto|split; [auto|discriminate]]|left].
    cbn [nadd nltb]. generalize (qz 0 + qz 10 * qz z)%Qc. intros q. change (qltb q (q + qz 10)%Qc = true). apply qltb_iff; rewrite this_add, this_qz; unfold inject_Z; lra.
Qed.
Lemma bin_ends_in a s e : bin_ends a s = Some e -> s < length (keys a).
Proof. unfold bin_ends. intros H. apply nth_error_Some. intros E. rewrite E in H. discriminate. Qed.
Lemma pd_wide : first_bin_wide pd_x.
Proof.
  intros s lo hi E _. pose proof (bin_ends_in _ _ _ E) as Hs. change (length (keys pd_x)) with 3 in Hs. destruct s as [|[|[|s]]]; [discriminate E| | |lia]; vm_compute in E; injection E as <- <-; vm_compute; reflexivity.
Qed.
Example C57_example : let h := pd_hist pd_content in let axes := map ch_axis (p1_chain ve_plot) ++ [pd_x] in
  hobj_ok h /\ all_in axes (o_group h ++ o_fixed h) = true /\ keeps_groups h axes /\ Forall axis_fine (o_group h) /\ Forall axis_fine (o_fixed h) /\
  comparable (o_content h) /\ real_groups (o_group h) (o_content h) /\ number_keys (o_group h) (o_content h) /\ first_bin_wide pd_x /\
  chain_stack [ChOverlay pd_g] pd_y None = Ok (p1_chain ve_plot) /\ chain_last (p1_chain ve_plot) (p1_last ve_plot) = Ok ve_plot /\
  exists data domains, data1d (fun x => x) exact_width (view h) ve_plot None = Ok ([pd_g; pd_y; pd_x], data, domains) /\ length data = 12 /\
    map (fun d => map (fun c => match c with VNumber x => x | VText _ => NaN end) (skipn 2 (d_row d))) (firstn 4 data) =
      [[nz 0; nz 0; nz 0]; [Fin (qfrac 1 5000000000); nz 8; nz 8]; [nz 1; nz 9; nz 9]; [nz 2; nz 0; nz 0]] /\
    map d_centre (firstn 4 data) = [Some (VNumber (nz 0)); Some (VNumber (Fin (qfrac 1 2))); Some (VNumber (Fin (qfrac 3 2))); Some (VNumber (nz 2))] /\
    map (firstn 2) (map d_row (firstn 1 data)) = [[VText (XKey (GNum (nz 0))); VText (XBin (KIv (nz 30) (nz 40) true false))]].
Proof.
  cbn zeta. split; [repeat (ok_tac; cbn [snd map fst])|]. split; [reflexivity|]. split; [reflexivity|]. split.
  { constructor; [constructor|constructor; [|constructor]]. eapply (fine_groupbin "y" (qz 10) (qz 0) true true). reflexivity. }
  split. { constructor; [|constructor]. eapply (fine_bin "x" 2 (qz 0) (qz 2) true false false true); [reflexivity|lia|vm_compute; discriminate]. }
  split. { intros p k k' H1 H2. apply pd_keys in H1. apply pd_keys in H2. destruct H1 as [(E & H1)|(E & H1)], H2 as [(E2 & H2)|(E2 & H2)]; try (subst; discriminate);
    intuition (subst; reflexivity). }
  split; [apply pd_real|]. split.
  { intros p k e w org nf cl H _. apply pd_keys in H. destruct H as [(_ & H)|(_ & H)]; [destruct H as [-> | ->]; eauto|destruct H as [-> | [-> | ->]]; eauto]. }
  split; [apply pd_wide|]. split; [reflexivity|]. split; [reflexivity|].
  do 2 eexists. split; [vm_compute; reflexivity|]. split; [reflexivity|]. split; [num_tac|]. split; num_tac.
Qed.
(** Bars are drawn for all bins, by their names; here 3 bins in each of 3 groups. *)
Example C57_bar_example : exists data domains,
  data1d (fun x => x) exact_width (view (pd_hist pd_content)) {| p1_chain := [ChOverlay pd_g; ChStack pd_y None]; p1_last := ve_last TBar pd_x false |} None = Ok ([pd_g; pd_y; pd_x], data, domains) /\
  length data = 9 /\ d_row (nth 0 data {| d_id := None; d_row := []; d_centre := None |}) =
    [VText (XKey (GNum (nz 0))); VText (XBin (KIv (nz 30) (nz 40) true false)); VText (XBin (KIv NInf (nz 0) true false)); VNumber (nz 7)].
Proof. do 2 eexists. split; [vm_compute; reflexivity|]. split; [reflexivity|num_tac]. Qed.

(** h.step("x", normalized=True), with bin("x", 2, 0, 4) that holds 1 and 3 entries, and 7 below: the steps are
    at 1/4 and 3/4, between the zeros of a baseline. *)
Definition ve_norm : plot1d := {| p1_chain := []; p1_last :=
  {| c_kind := TStep; c_axis := ABin "x" 2 (nz 0) (nz 4) true true true true; c_profile := None; c_error := false; c_normalized := true; c_log := false |} |}.
Example C57_normalized_example : hobj_ok tb_wide /\ project (view tb_wide) [c_axis (p1_last ve_norm)] = Ok (view tb_wide) /\ Forall axis_fine (o_fixed tb_wide) /\
  exists data domains, data1d (fun x => x) exact_width (view tb_wide) ve_norm None = Ok (o_fixed tb_wide, data, domains) /\
    map (fun d => match d_row d with [VNumber x; VNumber y] => (x, y) | _ => (NaN, NaN) end) data = [(nz 0, nz 0); (Fin (qfrac 1 2500000000), Fin (qfrac 1 4)); (nz 2, Fin (qfrac 3 4)); (nz 4, nz 0)].
Proof.
  split; [ok_tac|]. split; [vm_compute; reflexivity|]. split.
  { constructor; [|constructor]. eapply (fine_bin "x" 2 (qz 0) (qz 4) true true true true); [reflexivity|lia|vm_compute; discriminate]. }
  do 2 eexists. split; [vm_compute; reflexivity|]. num_tac.
Qed.

(** ** Where the data do not say what the bins hold *)
(** A groupbin axis with a NaN group cannot be plotted. *)
Theorem C57_nan_group_refuted : exists h, hobj_ok h /\ key_at (o_content h) [] (GStr "NaN") /\ comparable (o_content h) /\
  data1d (fun x => x) exact_width (view h) {| p1_chain := [ChOverlay pd_y]; p1_last := ve_last TStep pd_x false |} None = Err TypeError.
Proof.
  exists {| o_group := [pd_y]; o_fixed := [pd_x]; o_prof := []; o_weight := None; o_filter := None; o_defs := []; o_attach := []; o_content := CDict [(GStr "NaN", arr [1; 2; 3]%Z)] |}.
  split; [ok_tac|]. split; [eexists; split; [reflexivity|left; reflexivity]|]. split.
  - assert (X : forall p k, key_at (CDict [(GStr "NaN", arr [1; 2; 3]%Z)]) p k -> k = GStr "NaN").
    { intros p q H. apply key_at_dict in H. destruct H as [(_ & [H|[]])|(k1 & x & p' & _ & [H|[]] & Hk)]; [cbn in H; congruence|inversion H; subst; contradiction (key_at_arr _ _ _ Hk)]. }
    intros p k k' H1 H2. cbn [o_content] in *. rewrite (X p k H1), (X p k' H2). reflexivity.
  - vm_compute. reflexivity.
Qed.
Print Assumptions C57_nan_group_refuted.
(** Removing a group axis that has one key makes the plot an error (C37). *)
Theorem C57_one_removed_group_refuted : exists h, hobj_ok h /\ Forall axis_fine (o_group h ++ o_fixed h) /\
  data1d (fun x => x) exact_width (view h) {| p1_chain := []; p1_last := ve_last TStep pd_x false |} None = Err AttributeError.
Proof.
  exists {| o_group := [pd_g]; o_fixed := [pd_x]; o_prof := []; o_weight := None; o_filter := None; o_defs := []; o_attach := []; o_content := CDict [(GNum (nz 1), arr [1; 2; 3]%Z)] |}.
  split; [ok_tac|]. split.
  { constructor; [constructor|constructor; [|constructor]]. eapply (fine_bin "x" 2 (qz 0) (qz 2) true false false true); [reflexivity|lia|vm_compute; discriminate]. }
  vm_compute. reflexivity.
Qed.
Print Assumptions C57_one_removed_group_refuted.
(** A split axis whose last edge is infinity: the step of its first bin is at infinity. *)
Definition sp_hist (es : list Num) (c : list Z) : hobj := {|
  o_group := []; o_fixed := [ASplit "x" es false false false true]; o_prof := []; o_weight := None; o_filter := None; o_defs := []; o_attach := []; o_content := arr c |}.
Definition sp_plot (es : list Num) (error : bool) : plot1d := {| p1_chain := []; p1_last := ve_last TStep (ASplit "x" es false false false true) error |}.
Theorem C57_infinite_edge_refuted : let es := [nz 0; nz 1; PInf] in let h := sp_hist es [5; 7]%Z in
  hobj_ok h /\ Forall axis_fine (o_fixed h) /\ exists data domains,
  data1d (fun x => x) exact_width (view h) (sp_plot es false) None = Ok (o_fixed h, data, domains) /\
  map d_row data = [[VNumber (nz 0); VNumber (nz 0)]; [VNumber PInf; VNumber (nz 5)]].
Proof.
  cbn zeta. split; [ok_tac|]. split.
  { constructor; [|constructor]. eapply (fine_split "x" [nz 0; nz 1; PInf] false false false true); [|reflexivity]. cbn [In]. intros x [<-|[<-|[<-|[]]]]; discriminate. }
  do 2 eexists. split; [vm_compute; reflexivity|]. num_tac.
Qed.
Print Assumptions C57_infinite_edge_refuted.
(** A first bin of width 1e-10 of the axis: its step is where the second one is, and its error bar is that
    of the second bin. *)
Theorem C57_narrow_first_bin_refuted : let es := [nz 0; tiny; nz 1] in let h := sp_hist es [5; 7]%Z in
  hobj_ok h /\ Forall axis_fine (o_fixed h) /\ exists data domains,
  data1d (fun x => x) exact_width (view h) (sp_plot es true) None = Ok (o_fixed h, data, domains) /\
  map d_row data = [[VNumber (nz 0); VNumber (nz 0); VNumber (nz 0)]; [VNumber tiny; VNumber (nz 5); VNumber (nz 5)]; [VNumber tiny; VNumber (nz 7); VNumber (nz 7)]; [VNumber (nz 1); VNumber (nz 0); VNumber (nz 0)]] /\
  map d_centre data = map (fun x => Some (VNumber x)) [nz 0; middle tiny (nz 1); middle tiny (nz 1); nz 1].
Proof.
  cbn zeta. split; [ok_tac|]. split.
  { constructor; [|constructor]. eapply (fine_split "x" [nz 0; tiny; nz 1] false false false true); [|vm_compute; reflexivity]. cbn [In]. intros x [<-|[<-|[<-|[]]]]; discriminate. }
  do 2 eexists. split; [vm_compute; reflexivity|]. split; num_tac.
Qed.
Print Assumptions C57_narrow_first_bin_refuted.
