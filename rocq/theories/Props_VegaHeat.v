(** Properties of heat maps: C61. *)
From Coq Require Import String Permutation Sorted Lia Lqa.
From Verif Require Import Base Num NumFacts Axis AxisSpec AxisProofs AxisMain Calc Content Fill FillSpec FillProofs FillProofs2 FillProofs3 FillMain
  Tree Order Expr ExprFacts Instr InstrSpec Elem HistFill HistSpec KeySpec HistAlg AlgSpec HistAlgProofs HistAlgMain CompareProofs Props_Alg
  Nd NdProofs Proj ProjSpec ProjProofs ProjMain ProjMain2 ProjLaws ProjDrop Props_Proj
  Select Table TableSpec TableProofs FracProofs Props_Table Pandas PandasSpec PandasProofs PandasMain Props_Pandas
  Vega VegaSpec VegaProofs VegaGroups VegaAxis VegaMain VegaData Props_Vega VegaEnc VegaEncProofs Props_VegaEnc VegaHeatSpec VegaHeat.
Local Open Scope string_scope.
Local Open Scope list_scope.

(** ** C61: heat maps *)
(** [h.beside(..).below(..).heatmap(x, y)]: [g] is the histogram projected onto the axes of the chain, x and y
    (C35, C37); [numbers] are those of its table (C43): the entries, or the mean of the profile. *)
Theorem C61_heatmap_shows_every_bin sqrt bin_width h g p id is : hobj_ok h ->
  project (view h) (map ch_axis (p2_chain p) ++ [c_xaxis (p2_last p); c_yaxis (p2_last p)]) = Ok (view g) ->
  hobj_ok g -> Forall axis_fine (o_group g) -> Forall axis_fine (o_fixed g) ->
  comparable (o_content g) -> real_groups (o_group g) (o_content g) -> number_keys (o_group g) (o_content g) ->
  Forall2 (profile_number g) (profiles (c_profile2 (p2_last p))) is ->
  let l := p2_last p in
  let numbers := fun pl : place => expected_row sqrt g (fst pl) (snd pl) (no_profile (c_profile2 l)) false false is in
  exists data domains jx jy, data2d sqrt bin_width (view h) p id = Ok (o_group g ++ o_fixed g, data, domains) /\
    nth_error (o_group g ++ o_fixed g) jx = Some (c_xaxis l) /\ nth_error (o_group g ++ o_fixed g) jy = Some (c_yaxis l) /\
    heat_data (o_group g) (o_fixed g) id jx jy numbers (has_group g) data.
Proof. apply data2d_ok. Qed.
Print Assumptions C61_heatmap_shows_every_bin.

(** When the heat map has all group axes, the conditions are about the histogram itself. *)
Theorem C61_heatmap_of_all_groups sqrt bin_width h p id is : let l := p2_last p in let axes := map ch_axis (p2_chain p) ++ [c_xaxis l; c_yaxis l] in
  hobj_ok h -> all_in axes (o_group h ++ o_fixed h) = true -> keeps_groups h axes ->
  Forall axis_fine (o_group h) -> Forall axis_fine (o_fixed h) -> comparable (o_content h) -> real_groups (o_group h) (o_content h) -> number_keys (o_group h) (o_content h) ->
  Forall2 (profile_number h) (profiles (c_profile2 l)) is ->
  exists g data domains jx jy, project (view h) axes = Ok (view g) /\ o_group g = o_group h /\ o_fixed g = filter (fun x => axis_in x axes) (o_fixed h) /\
    data2d sqrt bin_width (view h) p id = Ok (o_group g ++ o_fixed g, data, domains) /\
    nth_error (o_group g ++ o_fixed g) jx = Some (c_xaxis l) /\ nth_error (o_group g ++ o_fixed g) jy = Some (c_yaxis l) /\
    let numbers := fun pl : place => expected_row sqrt g (fst pl) (snd pl) (no_profile (c_profile2 l)) false false is in
    heat_data (o_group g) (o_fixed g) id jx jy numbers (has_group g) data.
Proof.
  intros l axes Hok Ha Hk HG HF Hc Hr Hn HP. pose proof (project_hist h axes Hok Ha Hk) as E.
  assert (EG : o_group (proj_hist h axes) = o_group h) by (cbn; apply keeps_groups_all; auto).
  assert (EF : o_fixed (proj_hist h axes) = filter (fun x => axis_in x axes) (o_fixed h)) by reflexivity.
  assert (EC : forall p k, key_at (o_content (proj_hist h axes)) p k -> key_at (o_content h) p k).
  { intros q k Hq. cbn [o_content proj_hist proj_head] in Hq. apply key_at_cmap in Hq. exact Hq. }
  destruct (C61_heatmap_shows_every_bin sqrt bin_width h (proj_hist h axes) p id is) as (data & domains & jx & jy & Ed & Hd); auto.
  - apply proj_hist_ok; auto.
  - rewrite EG. auto.
  - rewrite EF. apply Forall_forall. intros x Hx. apply filter_In in Hx. rewrite Forall_forall in HF. apply HF. tauto.
  - intros q k k' H1 H2. apply (Hc q); auto.
  - rewrite EG. intros q k a H1 H2. apply (Hr q k a); auto.
  - rewrite EG. intros q k e w org nf cl H1 H2. apply (Hn q k e w org nf cl); auto.
  - exists (proj_hist h axes), data, domains, jx, jy. split; auto.
Qed.
Print Assumptions C61_heatmap_of_all_groups.

(** The centre of a bin is inside it, and so are those of groups of numbers: different bins of an axis are
    at different positions. *)
Lemma middle_inside lo hi : isfin lo = true -> isfin hi = true -> nltb lo hi = true -> nltb lo (middle lo hi) = true /\ nltb (middle lo hi) hi = true.
Proof.
  destruct lo as [x| | |]; try discriminate. destruct hi as [y| | |]; try discriminate. intros _ _ Hlt. cbn in Hlt |- *. apply qltb_iff in Hlt. split; apply qltb_iff; qc_push; lra.
Qed.
Theorem C61_centres a s lo hi : axis_fine a -> is_number_axis a = true -> bin_ends a s = Some (lo, hi) ->
  nltb lo (middle lo hi) = true /\ nltb (middle lo hi) hi = true /\
  forall s' lo' hi', bin_ends a s' = Some (lo', hi') -> middle lo' hi' = middle lo hi -> s' = s.
Proof.
  intros Ha Hn Eb. destruct (edges_ok a Ha Hn) as (u & n & e & P & M & _).
  assert (In : forall s lo hi, bin_ends a s = Some (lo, hi) -> nltb lo (middle lo hi) = true /\ nltb (middle lo hi) hi = true).
  { intros s1 lo1 hi1 E1. assert (F : isfin lo1 = true /\ isfin hi1 = true).
    { unfold bin_ends in E1. destruct (nth_error (keys a) s1) as [[x y c1 c2| |z|b]|]; try discriminate; [|injection E1 as <- <-; auto]. destruct (isfin x) eqn:F1, (isfin y) eqn:F2; try discriminate. injection E1 as <- <-. auto. }
    destruct (P _ _ _ E1) as (i & Hi & _ & -> & ->). apply middle_inside; try tauto. apply M; lia. }
  destruct (In _ _ _ Eb) as (I1 & I2). split; auto. split; auto. intros s' lo' hi' E' Em. destruct (In _ _ _ E') as (I1' & I2'). rewrite Em in I1', I2'.
  destruct (P _ _ _ Eb) as (i & Hi & -> & -> & ->). destruct (P _ _ _ E') as (j & Hj & -> & -> & ->). f_equal.
  assert (X : forall i j x, i < n -> j < n -> nltb (e i) x = true -> nltb x (e (S j)) = true -> i <= j).
  { intros i' j' x Hi' Hj' A B. destruct (Nat.le_gt_cases i' j') as [|Hgt]; auto. exfalso. assert (Y : nltb (e i') (e (S j')) = true) by (eapply nltb_trans; eauto).
    destruct (Nat.eq_dec (S j') i') as [<-|Hne]; [rewrite nltb_irrefl in Y; discriminate|]. pose proof (M (S j') i' ltac:(lia) ltac:(lia)) as Z. apply nltb_asym in Z. congruence. }
  apply Nat.le_antisymm; eapply X; eauto.
Qed.
Print Assumptions C61_centres.

(** The heat map is drawn along the columns of its axes, coloured by the number, and split by the columns of
    the axes given to beside and below.  It is refused exactly if an axis is a split axis, or y an intbin. *)
Theorem C61_encoding sorted p order ds e : encode2d sorted p order ds = Ok e ->
  position (c_xaxis (p2_last p)) order = Ok (n_x e) /\ position (c_yaxis (p2_last p)) order = Ok (n_y e) /\ (exists w, n_color e = Some (length order, w)) /\
  (forall cs1 cs2 a, p2_chain p = cs1 ++ ChBeside a :: cs2 -> existsb is_beside cs2 = false -> exists j, n_column e = Some j /\ position a order = Ok j) /\
  (forall cs1 cs2 a, p2_chain p = cs1 ++ ChBelow a :: cs2 -> existsb is_below cs2 = false -> exists j, n_row e = Some j /\ position a order = Ok j).
Proof.
  unfold encode2d. destruct (heat_axis false _) as [t1|]; [|discriminate]. destruct (heat_axis true _) as [t2|]; [|discriminate]. cbn [bind].
  destruct (position (c_xaxis (p2_last p)) order) as [jx|]; [|discriminate]. destruct (position (c_yaxis (p2_last p)) order) as [jy|]; [|discriminate]. cbn [bind].
  destruct (existsb (fun c => is_overlay c || is_stack c) (p2_chain p)) eqn:Eo; [discriminate|]. intros E. destruct (chain_keeps _ _ _ _ _ _ E) as (H1 & H2 & H3 & _). cbn [n_x n_y n_color] in *.
  split; [congruence|]. split; [congruence|]. split; [rewrite H3; [eauto|exact Eo]|].
  assert (HB : forall cs1 cs2 a, p2_chain p = cs1 ++ ChBeside a :: cs2 -> existsb is_beside cs2 = false -> exists j, n_column e = Some j /\ position a order = Ok j).
  { intros cs1 cs2 a Ec Hc. rewrite Ec in E. destruct (chain_at _ _ _ _ _ _ _ _ E) as (e1 & e2 & X1 & X2). destruct (chain_keeps _ _ _ _ _ _ X2) as (_ & _ & _ & _ & K & _).
    cbn [encode_channel] in X1. destruct (position a order) as [ja|]; [|discriminate]. cbn [bind] in X1. injection X1 as <-. exists ja. rewrite K by auto. auto. }
  split; [exact HB|].
  - intros cs1 cs2 a Ec Hc. rewrite Ec in E. destruct (chain_at _ _ _ _ _ _ _ _ E) as (e1 & e2 & X1 & X2). destruct (chain_keeps _ _ _ _ _ _ X2) as (_ & _ & _ & _ & _ & K).
    cbn [encode_channel] in X1. destruct (position a order) as [ja|]; [|discriminate]. cbn [bind] in X1. injection X1 as <-. exists ja. rewrite K by auto. auto.
Qed.
Print Assumptions C61_encoding.
Definition drawable_x (a : axis) : Prop := match a with ASplit _ _ _ _ _ _ => False | _ => True end.
Definition drawable_y (a : axis) : Prop := match a with ASplit _ _ _ _ _ _ | AIntbin _ _ _ _ _ => False | _ => True end.
Theorem C61_drawn_exactly_if sorted c l p order ds : chain_heatmap c l = Ok p ->
  (forall a, In a (map ch_axis c ++ [c_xaxis l; c_yaxis l]) -> exists j, position a order = Ok j) ->
  ((exists e, encode2d sorted p order ds = Ok e) <-> drawable_x (c_xaxis l) /\ drawable_y (c_yaxis l)).
Proof.
  intros Hc Hp. apply C59_heatmap_step in Hc. destruct Hc as (-> & Hc). unfold encode2d. cbn [p2_last p2_chain].
  destruct (Hp (c_xaxis l)) as (jx & Ex); [apply in_or_app; right; left; auto|]. destruct (Hp (c_yaxis l)) as (jy & Ey); [apply in_or_app; right; right; left; auto|]. rewrite Ex, Ey.
  assert (Ho : existsb (fun x => is_overlay x || is_stack x) c = false).
  { destruct (existsb _ c) eqn:B; auto. apply existsb_exists in B. destruct B as (x & Hx & B). destruct (Hc x Hx) as (B1 & B2). rewrite B1, B2 in B. discriminate. }
  rewrite Ho. assert (Hchain : forall e, exists e', encode_chain sorted order ds c e = Ok e').
  { assert (Hp' : forall x, In x c -> exists j, position (ch_axis x) order = Ok j) by (intros x Hx; apply Hp; apply in_or_app; left; apply in_map; auto). clear - Hc Hp'.
    induction c as [|x c IH]; intros e; [cbn; eauto|]. cbn [encode_chain]. destruct (Hc x (or_introl eq_refl)) as (B1 & B2). destruct (Hp' x (or_introl eq_refl)) as (j & Ej).
    assert (X : exists e1, encode_channel sorted order ds x e = Ok e1) by (destruct x; try discriminate; cbn [encode_channel ch_axis] in *; rewrite Ej; cbn [bind]; eauto). destruct X as (e1 & ->). cbn [bind].
    apply IH; intros; [apply Hc|apply Hp']; right; auto. }
  split.
  - intros (e & E). destruct (c_xaxis l); cbn [heat_axis bind] in E; try discriminate; (split; [exact I|]); destruct (c_yaxis l); cbn [heat_axis bind] in E; try discriminate; exact I.
  - intros (H1 & H2). assert (X1 : heat_axis false (c_xaxis l) = Ok tt) by (destruct (c_xaxis l); auto; contradiction). assert (X2 : heat_axis true (c_yaxis l) = Ok tt) by (destruct (c_yaxis l); auto; contradiction).
    rewrite X1, X2. cbn [bind]. apply Hchain.
Qed.
Print Assumptions C61_drawn_exactly_if.

(** h.beside("g").heatmap("y", "x"): the groups of y are at 15, 25 and 35, the bins of x at 1/2 and 3/2; the
    underflow bin of x is not shown. *)
Definition he_plot : plot2d := {| p2_chain := [ChBeside pd_g]; p2_last := {| c_xaxis := pd_y; c_yaxis := pd_x; c_profile2 := None |} |}.
Example C61_example : let h := pd_hist pd_content in let axes := map ch_axis (p2_chain he_plot) ++ [pd_y; pd_x] in
  hobj_ok h /\ all_in axes (o_group h ++ o_fixed h) = true /\ keeps_groups h axes /\ Forall axis_fine (o_group h) /\ Forall axis_fine (o_fixed h) /\
  comparable (o_content h) /\ real_groups (o_group h) (o_content h) /\ number_keys (o_group h) (o_content h) /\
  chain_heatmap (p2_chain he_plot) (p2_last he_plot) = Ok he_plot /\
  exists data domains, data2d (fun x => x) exact_width (view h) he_plot None = Ok ([pd_g; pd_y; pd_x], data, domains) /\
    map (fun d => map (fun c => match c with VNumber x => x | VText _ => NaN end) (skipn 1 (d_row d))) data =
      [[nz 35; Fin (qfrac 1 2); nz 8]; [nz 35; Fin (qfrac 3 2); nz 9]; [nz 15; Fin (qfrac 1 2); nz 5]; [nz 15; Fin (qfrac 3 2); nz 6]; [nz 25; Fin (qfrac 1 2); nz 2]; [nz 25; Fin (qfrac 3 2); nz 3]] /\
    map (firstn 1) (map d_row (firstn 1 data)) = [[VText (XKey (GNum (nz 0)))]].
Proof.
  cbn zeta. destruct C57_example as (H1 & _ & _ & H4 & H5 & H6 & H7 & H8 & _). split; [exact H1|]. split; [reflexivity|]. split; [reflexivity|]. repeat (split; [assumption|]). split; [reflexivity|].
  do 2 eexists. split; [vm_compute; reflexivity|]. split; num_tac.
Qed.
(** A heat map whose y axis is an intbin, or with a split axis, has data but cannot be drawn; exchanging x and
    y draws the first. *)
Theorem C61_intbin_refuted sorted : hobj_ok vc_hist /\ let n := AIntbin "n" 1 2 false false in
  let p := {| p2_chain := []; p2_last := {| c_xaxis := pd_x; c_yaxis := n; c_profile2 := None |} |} in
  let q := {| p2_chain := []; p2_last := {| c_xaxis := n; c_yaxis := pd_x; c_profile2 := None |} |} in
  exists data ds, data2d (fun x => x) exact_width (view vc_hist) p None = Ok ([n; pd_x], data, ds) /\ length data = 4 /\
    encode2d sorted p [n; pd_x] ds = Err AttributeError /\ exists e, encode2d sorted q [n; pd_x] ds = Ok e.
Proof.
  split; [exact (proj1 C58_refuted_example)|]. cbn zeta. do 2 eexists. split; [vm_compute; reflexivity|]. split; [reflexivity|]. split; [reflexivity|]. eexists. reflexivity.
Qed.
Print Assumptions C61_intbin_refuted.
Theorem C61_split_refuted sorted : let es := [nz 0; nz 1; nz 2] in let a := ASplit "x" es false false false true in let h := sp_hist es [5; 7]%Z in
  let p := {| p2_chain := []; p2_last := {| c_xaxis := a; c_yaxis := a; c_profile2 := None |} |} in
  hobj_ok h /\ exists data ds, data2d (fun x => x) exact_width (view h) p None = Ok ([a], data, ds) /\ length data = 2 /\ encode2d sorted p [a] ds = Err NotImplementedError.
Proof. cbn zeta. split; [ok_tac|]. do 2 eexists. split; [vm_compute; reflexivity|]. split; reflexivity. Qed.
Print Assumptions C61_split_refuted.
