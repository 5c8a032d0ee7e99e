(** Properties of tables and fractions: C43, C44. *)
From Coq Require Import String Permutation.
From Verif Require Import Base Num NumFacts Axis AxisSpec Calc Content Fill FillSpec FillProofs FillProofs2 FillProofs3 FillMain
  Tree Order Expr ExprFacts Instr InstrSpec InstrProofs Elem HistFill HistSpec HistFillProofs HistFillMain HistFillMain2 HistFillMain3 HistFillMain4 Props_Fill Props_Hist
  HistAlg AlgSpec HistAlgProofs HistAlgMain CompareProofs Props_Alg
  Nd NdProofs Proj ProjSpec ProjProofs ProjMain ProjMain2 ProjFill ProjLaws ProjGroup ProjDrop ProjE2E Props_Proj
  Select SelSpec SelMain Table TableSpec TableProofs TableNorm TableStats FracProofs.
Local Open Scope string_scope.
Local Open Scope list_scope.

(** ** C43: tables *)
(** One array per group, one row per bin, and in each row the number of entries, its error (the square
    root of the sum of squared weights, or of the count), the effective number of entries (W^2/W2, or
    the count), and for each profile its mean and the error of the mean.  [sqrt] is any function. *)
Theorem C43_table_lists_every_bin sqrt bin_width h o profs is : hobj_ok h -> Forall2 (profile_number h) profs is -> t_normalized o = false ->
  (t_recarray o = true -> table_columns o profs <> [] /\ has_dup (table_columns o profs) = false) ->
  exists T, table sqrt bin_width (view h) o profs = Ok (T, table_columns o profs) /\
    one_row_per_bin h T (l_tots (o_layout h)) (length (table_columns o profs)) /\
    forall ks ss, has_group h ks -> in_shape (o_layout h) ss ->
      bin_row T ks ss = Some (expected_row sqrt h ks ss (t_count o) (t_effcount o) (t_error o) is).
Proof. apply table_ok. Qed.
Print Assumptions C43_table_lists_every_bin.
Definition plain_opts (eff err : bool) : topts := {| t_count := true; t_effcount := eff; t_error := err; t_normalized := false; t_recarray := true |}.
(** A weighted profile histogram with 4 entries of weight 2 in the first bin. *)
Definition tb_hist : hobj := {|
  o_group := []; o_fixed := [pr_x]; o_prof := [pr_p; pr_q]; o_weight := Some (XStr "w"); o_filter := None;
  o_defs := []; o_attach := []; o_content := arr [24; 80; 40; 208; 8; 16; 0; 0; 0; 0; 0; 0]%Z |}.
Example C43_table_example : hobj_ok tb_hist /\ Forall2 (profile_number tb_hist) [pr_q; pr_p] [1; 0] /\
  has_dup (table_columns (plain_opts true true) [pr_q; pr_p]) = false /\
  exists T, table (fun x => x) (fun _ _ _ => none1) (view tb_hist) (plain_opts true true) [pr_q; pr_p] = Ok (T, ["count()"; "err(count())"; "effcount()"; "q"; "err(q)"; "p"; "err(p)"]) /\
    bin_row T [] [0] = Some [nz 8; nz 16; nz 4; nz 5; Fin (qfrac 1 4); nz 3; Fin (qfrac 1 4)] /\ bin_row T [] [1] = Some (map nz [0; 0; 0; 0; 0; 0; 0]%Z).
Proof.
  split; [ok_tac|]. split.
  { constructor; [|constructor; [|constructor]]; (split; [reflexivity|]); intros j Hj; destruct j as [|j]; try lia; discriminate. }
  split; [reflexivity|]. eexists. split; [vm_compute; reflexivity|]. split; num_tac.
Qed.

(** What these numbers are after a fill of a new histogram: the rows of the bin are those that the
    axes put there (C08-C10); the mean is the weighted average of the rows and the error that of the
    mean, from the weighted variance and the effective number of entries. *)
Theorem C43_table_of_filled_bins sqrt h m rows c ks ss p w x : o_content h = CNone -> fill_pre (o_layout h) (length (o_group h)) m rows CNone ->
  fill_rows (o_layout h) (length (o_group h)) m rows CNone = (c, None) -> in_shape (o_layout h) ss -> p < length (o_prof h) ->
  let rs := filter (in_cell ks ss) rows in let g := with_content h c in
  Forall (has_numbers m p w x) rs -> (0 < this (sum_w w rs))%Q ->
  entries g ks ss = Fin (sum_w w rs) /\
  effective g ks ss = Fin (sum_w w rs * sum_w w rs / sum_w2 w rs)%Qc /\
  mean g ks ss p = Fin (average w x rs) /\
  mean_error sqrt g ks ss p = sqrt (Fin (variance w x rs / (sum_w w rs * sum_w w rs / sum_w2 w rs))%Qc).
Proof. apply filled_stats. Qed.
Print Assumptions C43_table_of_filled_bins.

(** Three rows in the first bin of a new histogram like the one above: weights 1, 2, 1 and values 1, 4, 7. *)
Definition tb_new : hobj := with_content tb_hist CNone.
Definition tb_row (w x : Z) : row := {| r_keys := []; r_slots := [Some 0%Z]; r_prof := [(nz x, nz (x * x)); (nz 0, nz 0)]; r_w := nz w; r_w2 := nz (w * w) |}.
Definition tb_rows : list row := [tb_row 1 1; tb_row 2 4; tb_row 1 7].
Definition row_q (f : row -> Num) (r : row) : Qc := match f r with Fin q => q | _ => qc0 end.
Definition row_x : row -> Qc := row_q (fun r => fst (nth 0 (r_prof r) (nzero, nzero))).
Definition row_wt : row -> Qc := row_q r_w.
Example C43_filled_example : exists c, fill_pre (o_layout tb_new) (length (o_group tb_new)) ExprWeight tb_rows CNone /\
  fill_rows (o_layout tb_new) (length (o_group tb_new)) ExprWeight tb_rows CNone = (c, None) /\ in_shape (o_layout tb_new) [0] /\
  filter (in_cell [] [0]) tb_rows = tb_rows /\ Forall (has_numbers ExprWeight 0 row_wt row_x) tb_rows /\
  (forall r, In r tb_rows -> (0 <= this (row_wt r))%Q) /\ (0 < this (sum_w row_wt tb_rows))%Q /\
  average row_wt row_x tb_rows = qz 4 /\ variance row_wt row_x tb_rows = qfrac 9 2 /\
  effective (with_content tb_new c) [] [0] = Fin (qfrac 8 3).
Proof.
  eexists. split.
  { split; [unfold layout_ok; simpl; lia|]. split; [reflexivity|]. split; [unfold tb_rows; row_ok_tac; simpl; row_ok_tac|].
    split; [left; reflexivity|]. right. unfold tb_rows. row_ok_tac. }
  split; [vm_compute; reflexivity|]. split; [repeat constructor|]. split; [reflexivity|].
  split; [repeat constructor; num_tac|]. split.
  { intros r [<-|[<-|[<-|[]]]]; vm_compute; discriminate. }
  split; [reflexivity|]. split; [apply Qc_is_canon; reflexivity|]. split; [apply Qc_is_canon; reflexivity|]. num_tac.
Qed.

(** The mean lies between the smallest and the largest value, no error is the square root of a
    negative number, and the effective number of entries is at most the number of rows. *)
Theorem C43_means_and_errors_are_sound sqrt h m rows c ks ss p w x : o_content h = CNone -> fill_pre (o_layout h) (length (o_group h)) m rows CNone ->
  fill_rows (o_layout h) (length (o_group h)) m rows CNone = (c, None) -> in_shape (o_layout h) ss -> p < length (o_prof h) ->
  let rs := filter (in_cell ks ss) rows in let g := with_content h c in
  Forall (has_numbers m p w x) rs -> (forall r, In r rs -> (0 <= this (w r))%Q) -> (0 < this (sum_w w rs))%Q ->
  exists e n v, effective g ks ss = Fin e /\ mean g ks ss p = Fin n /\ mean_error sqrt g ks ss p = sqrt (Fin v) /\
    (0 < this e <= inject_Z (Z.of_nat (length rs)))%Q /\ (0 <= this v)%Q /\
    forall lo hi : Qc, (forall r, In r rs -> (this lo <= this (x r) <= this hi)%Q) -> (this lo <= this n <= this hi)%Q.
Proof.
  intros HN Hpre HE Hs Hp rs g Hnum Hw HW. destruct (filled_stats sqrt h m rows c ks ss p w x HN Hpre HE Hs Hp Hnum HW) as (_ & E2 & E3 & E4).
  fold rs g in E2, E3, E4. do 3 eexists. split; [exact E2|]. split; [exact E3|]. split; [exact E4|].
  pose proof (square_of_sum w rs) as SQ. pose proof (sum_w2_pos w rs HW) as W2. pose proof (variance_nonneg w x rs HW Hw) as HV.
  rewrite this_qz in SQ.
  assert (P : (0 < this (sum_w w rs * sum_w w rs / sum_w2 w rs)%Qc)%Q).
  { rewrite this_div, this_mul. apply Qlt_shift_div_l; auto. nra. }
  assert (U : (this (sum_w w rs * sum_w w rs / sum_w2 w rs)%Qc <= inject_Z (Z.of_nat (length rs)))%Q).
  { rewrite this_div, this_mul. apply Qle_shift_div_r; auto. }
  split; [auto|]. split.
  - rewrite this_div. apply Qle_shift_div_l; auto. nra.
  - intros lo hi Hx. apply average_bounds; auto.
Qed.
Print Assumptions C43_means_and_errors_are_sound.

(** For unweighted data the effective count is the count; for equal weights it is the number of rows. *)
Theorem C43_effective_count_unweighted h ks ss : weighted h = false -> effective h ks ss = entries h ks ss.
Proof. intros E. unfold effective. rewrite E. reflexivity. Qed.
Print Assumptions C43_effective_count_unweighted.
Theorem C43_effective_count_equal_weights h m rows c ks ss p w x (u : Qc) : o_content h = CNone -> fill_pre (o_layout h) (length (o_group h)) m rows CNone ->
  fill_rows (o_layout h) (length (o_group h)) m rows CNone = (c, None) -> in_shape (o_layout h) ss -> p < length (o_prof h) ->
  let rs := filter (in_cell ks ss) rows in
  Forall (has_numbers m p w x) rs -> (forall r, In r rs -> w r = u) -> (0 < this u)%Q -> rs <> [] ->
  effective (with_content h c) ks ss = nnat (length rs).
Proof.
  intros HN Hpre HE Hs Hp rs Hnum Hu HU Hne.
  assert (ES : forall l, (forall r, In r l -> w r = u) -> sum_w w l = (qz (Z.of_nat (length l)) * u)%Qc /\ sum_w2 w l = (qz (Z.of_nat (length l)) * (u * u))%Qc).
  { intros l Hl. unfold sum_w, sum_w2. rewrite <- (sum_ones l). induction l as [|r l IH]; cbn [map]; [split; apply Qc_ext; cbn; ring|].
    rewrite !qsum_cons. destruct IH as (I1 & I2); [intros; apply Hl; right; auto|]. rewrite I1, I2, (Hl r) by (left; auto). split; change qc1 with 1%Qc; ring. }
  destruct (ES rs Hu) as (E1 & E2).
  assert (HL : (0 < this (qz (Z.of_nat (length rs))))%Q).
  { rewrite this_qz. destruct rs; [congruence|]. unfold Qlt. cbn. lia. }
  assert (HW : (0 < this (sum_w w rs))%Q) by (rewrite E1, this_mul; nra).
  destruct (filled_stats (fun y => y) h m rows c ks ss p w x HN Hpre HE Hs Hp Hnum HW) as (_ & EE & _). fold rs in EE. rewrite EE, E1, E2.
  unfold nnat, nz. f_equal. pose proof (pos_ne _ HU). pose proof (pos_ne _ HL). field. auto.
Qed.
Print Assumptions C43_effective_count_equal_weights.

(** A profile that the histogram does not have is an error; so is one given twice in a record array. *)
Theorem C43_unknown_profile_refused sqrt bin_width h o profs p : In p profs -> axis_in p (o_prof h) = false ->
  table sqrt bin_width (view h) o profs = Err IndexError.
Proof.
  intros Hi Hp. assert (HI : profile_index (with_content h CNone) p = Err IndexError).
  { unfold profile_index. cbn [o_prof with_content]. destruct (index_of p (o_prof h)) as [i|] eqn:E; auto. exfalso.
    clear Hi. revert i E. unfold axis_in in Hp. induction (o_prof h) as [|a l IH]; intros i E; [discriminate|]. cbn [index_of existsb] in *.
    apply orb_false_elim in Hp. destruct Hp as (H1 & H2).
    assert (axis_eqb a p = false). { apply not_true_is_false. intros T. apply axis_eqb_iff in T. destruct T as (-> & T). rewrite axis_eqb_refl in H1; auto. discriminate. }
    rewrite H in E. destruct (index_of p l) as [j|]; [apply (IH H2 j); auto|discriminate]. }
  unfold table, table_with. change (p_head (view h)) with (with_content h CNone). cbn zeta.
  assert (E : mapM (profile_index (with_content h CNone)) profs = Err IndexError).
  { induction profs as [|y profs IH]; [contradiction|]. cbn [mapM]. destruct Hi as [->|Hi].
    - rewrite HI. reflexivity.
    - unfold profile_index at 1. destruct (index_of _ _); [|reflexivity]. cbn [bind]. rewrite IH by auto. reflexivity. }
  rewrite E. reflexivity.
Qed.
Print Assumptions C43_unknown_profile_refused.
Example C43_unknown_profile_example : axis_in (AProfile "r") (o_prof tb_hist) = false. Proof. reflexivity. Qed.
Theorem C43_repeated_profile_refuted : exists h, hobj_ok h /\ forall sqrt bin_width,
  table sqrt bin_width (view h) (plain_opts false true) [pr_p; pr_p] = Err ValueError.
Proof. exists tb_hist. split; [ok_tac|]. reflexivity. Qed.
Print Assumptions C43_repeated_profile_refuted.

(** *** normalized=True *)
(** Counts are divided by the number of entries in bins that are not overflow bins, so they add up to
    one; the bin widths cancel.  Overflow bins get 0.  The documentation promises that the sum of
    counts times bin widths is one. *)
Theorem C43_normalized_counts_are_shares sqrt bin_width h o profs is : hobj_ok h -> o_group h = [] -> o_content h <> CNone ->
  Forall uniform (o_fixed h) -> Forall (fun a => pos (width_of bin_width a)) (o_fixed h) -> finite_content h -> pos (grand_total h) ->
  Forall2 (profile_number h) profs is -> t_count o = true -> t_normalized o = true ->
  (t_recarray o = true -> table_columns o profs <> [] /\ has_dup (table_columns o profs) = false) ->
  exists T, table sqrt bin_width (view h) o profs = Ok (T, table_columns o profs) /\
    forall ss, in_shape (o_layout h) ss ->
      bin_row T [] ss = Some (ndiv (hcell h [] ss SumW) (divisor h ss) :: (if t_error o then [ndiv (entries_error sqrt h [] ss) (divisor h ss)] else []) ++
                              expected_row sqrt h [] ss false (t_effcount o) (t_error o) is).
Proof. apply norm_table_ok. Qed.
Print Assumptions C43_normalized_counts_are_shares.
Theorem C43_normalized_counts_add_up_to_one h : o_group h = [] -> finite_content h -> pos (grand_total h) ->
  nsum (map (fun ss => ndiv (hcell h [] ss SumW) (divisor h ss)) (finite_cells h)) = none1 /\
  forall ss, in_shape (o_layout h) ss -> ~ In ss (finite_cells h) -> ndiv (hcell h [] ss SumW) (divisor h ss) = nzero.
Proof.
  intros HG HF (N & EN & HN). assert (HFin : forall ss, In ss (finite_cells h) -> in_shape (o_layout h) ss).
  { intros ss Hs. apply filter_In in Hs. apply indices_in. tauto. }
  split.
  - transitivity (nsum (map (fun x => ndiv x (Fin N)) (map (fun ss => hcell h [] ss SumW) (finite_cells h)))).
    + rewrite map_map. f_equal. apply map_ext_in. intros ss Hs. unfold divisor. apply filter_In in Hs. destruct Hs as (_ & ->). rewrite EN. reflexivity.
    + rewrite div_sum; auto.
      * fold (grand_total h). rewrite EN. rewrite ndiv_fin by (apply pos_ne; auto). unfold none1. f_equal. pose proof (pos_ne _ HN). change qc1 with 1%Qc. field. auto.
      * apply Forall_forall. intros x Hx. apply in_map_iff in Hx. destruct Hx as (ss & <- & Hs). apply HF. auto.
  - intros ss Hs Hn. unfold divisor. destruct (finite_slots (o_fixed h) ss) eqn:E.
    + exfalso. apply Hn. apply filter_In. split; auto. apply indices_in. exact Hs.
    + specialize (HF ss Hs). destruct (hcell h [] ss SumW); try discriminate. reflexivity.
Qed.
Print Assumptions C43_normalized_counts_add_up_to_one.
Definition norm_opts : topts := {| t_count := true; t_effcount := false; t_error := false; t_normalized := true; t_recarray := true |}.
(** bin("x", 2, 0, 4): widths 2, with 1 and 3 entries. *)
Definition tb_wide : hobj := {|
  o_group := []; o_fixed := [ABin "x" 2 (nz 0) (nz 4) true true true true]; o_prof := []; o_weight := None; o_filter := None;
  o_defs := []; o_attach := []; o_content := arr [7; 1; 3; 5; 9]%Z |}.
Definition exact_width (n : nat) (l h : Num) : Num := ndiv (nsub h l) (nnat n).
Example C43_normalized_example : hobj_ok tb_wide /\ Forall uniform (o_fixed tb_wide) /\ Forall (fun a => pos (width_of exact_width a)) (o_fixed tb_wide) /\
  finite_content tb_wide /\ pos (grand_total tb_wide) /\
  exists T, table (fun x => x) exact_width (view tb_wide) norm_opts [] = Ok (T, ["count()"]) /\
    map (fun s => bin_row T [] [s]) [0; 1; 2; 3; 4] = [Some [nz 0]; Some [Fin (qfrac 1 4)]; Some [Fin (qfrac 3 4)]; Some [nz 0]; Some [nz 0]].
Proof.
  split; [ok_tac|]. split; [repeat constructor|]. split.
  { constructor; [|constructor]. exists (qz 2). split; [num_tac|reflexivity]. }
  split.
  { intros ss Hs. inversion Hs as [|s ? ? ? Hlt Hr]; subst. inversion Hr; subst. cbn in Hlt. do 5 (destruct s as [|s]; [reflexivity|]). lia. }
  split; [exists (qz 4); split; [num_tac|reflexivity]|].
  eexists. split; [vm_compute; reflexivity|]. num_tac.
Qed.
(** So the sum of counts times widths is 2 here, not 1. *)
Theorem C43_normalized_refuted : exists h T, hobj_ok h /\ table (fun x => x) exact_width (view h) norm_opts [] = Ok (T, ["count()"]) /\
  nsum (map (fun ss => nmul (match bin_row T [] ss with Some (n :: _) => n | _ => nzero end) (volume exact_width (o_fixed h))) (finite_cells h)) = nz 2.
Proof. exists tb_wide. eexists. split; [ok_tac|]. split; [vm_compute; reflexivity|]. num_tac. Qed.
Print Assumptions C43_normalized_refuted.
(** A histogram with group axes cannot be normalized at all. *)
Theorem C43_normalized_groups_refuted sqrt bin_width h o profs is : hobj_ok h -> o_group h <> [] -> Forall2 (profile_number h) profs is -> t_normalized o = true ->
  table sqrt bin_width (view h) o profs = Err AttributeError.
Proof.
  intros Hok HG HP Hn. unfold table, table_with. change (p_head (view h)) with (with_content h CNone). cbn zeta. rewrite (mapM_index h profs is Hok HP). cbn [bind]. rewrite Hn.
  destruct Hok as (Hg & _). unfold binwidths. cbn [o_group with_content]. destruct (o_group h) as [|a G]; [congruence|]. inversion Hg as [|? ? Ha ?]; subst.
  destruct a; try discriminate; reflexivity.
Qed.
Print Assumptions C43_normalized_groups_refuted.
Example C43_normalized_groups_example : hobj_ok (pr_grouped 2) /\ o_group (pr_grouped 2) <> []. Proof. split; [ok_tac|discriminate]. Qed.
(** The widths of a split axis that is not the last one are multiplied onto the last one. *)
Theorem C43_normalized_split_refuted : exists h, hobj_ok h /\ o_group h = [] /\ o_content h <> CNone /\
  table (fun x => x) exact_width (view h) norm_opts [] = Err ValueError.
Proof.
  exists {| o_group := []; o_fixed := [ASplit "x" (map nz [0; 1; 3; 6]%Z) false false false true; pr_y]; o_prof := []; o_weight := None; o_filter := None;
            o_defs := []; o_attach := []; o_content := arr [1; 2; 3; 4; 5; 6]%Z |}.
  split; [ok_tac|]. split; [reflexivity|]. split; [discriminate|]. vm_compute. reflexivity.
Qed.
Print Assumptions C43_normalized_split_refuted.

(** ** C44: fractions *)
(** For a histogram with profiles, whose cuts are different: one row per bin of the other axes, with
    the number of entries there and, for each cut, the entries that pass it over all entries, and the
    error that was asked for.  Where there are no entries, all are zero. *)
Theorem C44_fraction_of_every_bin sqrt sigmas err_name parse h o cuts qs : hobj_ok h -> Forall nan_free_axis (o_group h ++ o_fixed h) ->
  o_prof h <> [] -> (o_filter h = None \/ o_weight h <> None) ->
  Forall2 (cut_number parse h) cuts qs -> (f_error o = FNone \/ f_error o = FNormal \/ f_error o = FWilson) ->
  (f_recarray o = true -> fraction_columns err_name o cuts <> [] /\ has_dup (fraction_columns err_name o cuts) = false) ->
  exists T, fraction sqrt sigmas err_name parse (view h) o cuts = Ok (T, fraction_columns err_name o cuts) /\
    one_row_per_bin h T (select (other_axes cuts h) (l_tots (o_layout h))) (length (fraction_columns err_name o cuts)) /\
    forall ks ss, has_group h ks -> in_shape (layout_keep (other_axes cuts h) (o_layout h)) ss ->
      bin_row T ks ss = Some (fraction_row sqrt sigmas h cuts qs o ks ss).
Proof. apply fraction_ok. Qed.
Print Assumptions C44_fraction_of_every_bin.

(** What passes a cut and what fails it add up to all entries of the bin, whatever the contents. *)
Lemma bins_slot parse h cuts c q ss ss' : cut_number parse h c q -> In ss' (bins_over h cuts ss) -> nth q ss' 0 = 0 \/ nth q ss' 0 = 1.
Proof.
  intros (Hc & Hn & _) Hi. apply filter_In in Hi. destruct Hi as (Hi & _). apply indices_in in Hi.
  destruct (nth_tots h q c Hn) as (Ht & Hq). assert (E : totbins c = 2) by (destruct c; try discriminate; reflexivity).
  assert (nth q ss' 0 < nth q (l_tots (o_layout h)) 0); [|rewrite Ht, E in H; lia].
  clear - Hi Hq. revert q Hq. induction Hi as [|x n xs ns Hx H IH]; intros [|q] Hq; cbn in *; try lia. apply IH. lia.
Qed.
Theorem C44_passing_and_failing_is_all parse h cuts c q ks ss : cut_number parse h c q ->
  nadd (passing h cuts q ks ss) (failing h cuts q ks ss) = total_over h cuts ks ss.
Proof.
  intros Hc. unfold passing, failing, part_over, total_over. rewrite !nsum_filter, <- nsum_map_add. f_equal. apply map_ext_in. intros ss' Hi.
  destruct (bins_slot parse h cuts c q ss ss' Hc Hi) as [->| ->]; cbn [Nat.eqb]; [apply nadd_0_l|apply nadd_0_r].
Qed.
Print Assumptions C44_passing_and_failing_is_all.

(** For contents that are not negative, the fractions that the table shows lie between 0 and 1, and
    with the fraction that fails they add up to 1 where there are entries. *)
Definition counted (h : hobj) (ks : list gkey) : Prop :=
  forall ss, in_shape (o_layout h) ss -> exists v, hcell h ks ss SumW = Fin v /\ (0 <= this v)%Q.
Lemma counted_sum h cuts ks ss (f : list nat -> bool) : counted h ks ->
  exists v, nsum (map (fun ss' => hcell h ks ss' SumW) (filter f (bins_over h cuts ss))) = Fin v /\ (0 <= this v)%Q.
Proof.
  intros Hc. assert (H : forall ss', In ss' (filter f (bins_over h cuts ss)) -> exists v, hcell h ks ss' SumW = Fin v /\ (0 <= this v)%Q).
  { intros ss' Hi. apply filter_In in Hi. destruct Hi as (Hi & _). apply filter_In in Hi. destruct Hi as (Hi & _). apply Hc. apply indices_in. auto. }
  induction (filter f (bins_over h cuts ss)) as [|s l IH]; [exists qc0; split; [reflexivity|rewrite this_qc0; lra]|].
  destruct IH as (v & E & Hv); [intros; apply H; right; auto|]. destruct (H s) as (u & Eu & Hu); [left; auto|].
  exists (u + v)%Qc. cbn [map]. rewrite nsum_cons, E, Eu, nadd_fin. split; auto. rewrite this_add. lra.
Qed.
Theorem C44_fractions_between_zero_and_one parse h cuts c q ks ss : cut_number parse h c q -> counted h ks ->
  nltb nzero (total_over h cuts ks ss) = true ->
  exists p f, ndiv (passing h cuts q ks ss) (total_over h cuts ks ss) = Fin p /\ ndiv (failing h cuts q ks ss) (total_over h cuts ks ss) = Fin f /\
    (0 <= this p <= 1)%Q /\ (0 <= this f <= 1)%Q /\ (p + f = 1)%Qc.
Proof.
  intros Hn Hc. pose proof (C44_passing_and_failing_is_all parse h cuts c q ks ss Hn) as HS.
  destruct (counted_sum h cuts ks ss (fun ss' => Nat.eqb (nth q ss' 0) 1) Hc) as (a & Ea & Ha).
  destruct (counted_sum h cuts ks ss (fun ss' => Nat.eqb (nth q ss' 0) 0) Hc) as (b & Eb & Hb).
  unfold passing, failing, part_over in *. rewrite Ea, Eb in *. rewrite nadd_fin in HS. rewrite <- HS. intros Hp.
  assert (HP : (0 < this (a + b)%Qc)%Q). { unfold nzero in Hp. cbn [nltb] in Hp. apply qltb_iff in Hp. rewrite this_qc0 in Hp. exact Hp. }
  pose proof (pos_ne _ HP) as HP0. exists (a / (a + b))%Qc, (b / (a + b))%Qc. rewrite !ndiv_fin by auto. do 2 (split; [reflexivity|]).
  rewrite !this_div. pose proof HP as HP'. rewrite this_add in HP'.
  assert (B : forall u : Qc, (0 <= this u)%Q -> (this u <= this (a + b)%Qc)%Q -> (0 <= this u / this (a + b)%Qc <= 1)%Q).
  { intros u H1 H2. split; [apply Qle_shift_div_l; auto; lra|apply Qle_shift_div_r; auto; lra]. }
  split; [apply B; auto; rewrite this_add; lra|]. split; [apply B; auto; rewrite this_add; lra|]. field. auto.
Qed.
Print Assumptions C44_fractions_between_zero_and_one.

(** Filled histograms with non-negative weights have such contents. *)
Theorem C44_filled_histograms_are_counted h m rows c ks w : o_content h = CNone -> fill_pre (o_layout h) (length (o_group h)) m rows CNone ->
  fill_rows (o_layout h) (length (o_group h)) m rows CNone = (c, None) ->
  Forall (fun r => row_adds m SumW r = Fin (w r) /\ (0 <= this (w r))%Q) rows -> counted (with_content h c) ks.
Proof.
  intros HN Hpre HE Hw ss Hs. destruct (fill_ok _ _ _ _ _ Hpre) as (c1 & E1 & _ & Hv & _). rewrite HE in E1. inversion E1; subst c1.
  exists (qsum (map w (filter (in_cell ks ss) rows))). rewrite Forall_forall in Hw. split.
  - unfold hcell. change (o_layout (with_content h c)) with (o_layout h). cbn [o_content with_content]. rewrite Hv by (auto; exact I). unfold cell. rewrite block_none, nadd_0_l.
    apply nsum_fin. intros r Hr. apply filter_In in Hr. apply Hw. tauto.
  - apply qsum_nonneg. intros r Hr. apply filter_In in Hr. apply Hw. tauto.
Qed.
Print Assumptions C44_filled_histograms_are_counted.

(** bin("x", 2, 0, 2), cut("a"), cut("b"), profile("p"): the numbers of entries by (x, a, b). *)
Definition ct_a : axis := ACut "a".
Definition ct_b : axis := ACut "b".
Definition ct_hist (prof : list axis) (c : content) : hobj := {|
  o_group := []; o_fixed := [pr_x; ct_a; ct_b]; o_prof := prof; o_weight := None; o_filter := None; o_defs := []; o_attach := []; o_content := c |}.
Definition ct_content : content := arr [9; 9; 1;  9; 9; 2;  9; 9; 3;  9; 9; 2;  0; 0; 0;  0; 0; 0;  0; 0; 0;  0; 0; 0]%Z.
Definition frac_opts (e : ferror) : fopts := {| f_count := true; f_error := e; f_levels := [nz 1]; f_recarray := true |}.
Definition plain_frac (e : ferror) : fopts := {| f_count := true; f_error := e; f_levels := [nz 1]; f_recarray := false |}.
Definition err_label (s : string) (l : Num) : string := err_of s.
Example C44_example : let h := ct_hist [pr_p] ct_content in
  hobj_ok h /\ Forall nan_free_axis (o_group h ++ o_fixed h) /\ o_prof h <> [] /\ Forall2 (cut_number EName h) [ct_b; ct_a] [2; 1] /\ counted h [] /\
  has_dup (fraction_columns err_label (frac_opts FNormal) [ct_b; ct_a]) = false /\
  exists T, fraction (fun x => x) (fun l => l) err_label EName (view h) (frac_opts FNormal) [ct_b; ct_a] = Ok (T, ["count()"; "b"; "err(b)"; "a"; "err(a)"]) /\
    bin_row T [] [0] = Some [nz 8; Fin (qfrac 1 2); Fin (qfrac 1 32); Fin (qfrac 5 8); Fin (qfrac 15 512)] /\ bin_row T [] [1] = Some (map nz [0; 0; 0; 0; 0]%Z).
Proof.
  cbn zeta. split; [ok_tac|]. split; [repeat constructor|]. split; [discriminate|]. split.
  { constructor; [|constructor; [|constructor]]; (split; [reflexivity|]); (split; [reflexivity|]);
      intros [|[|[|[|i]]]] a Ha Hc He; cbn in Ha; inversion Ha; subst; try discriminate; auto. }
  split.
  { intros ss Hs. inversion Hs as [|x ? ? ? Hx H1]; subst. inversion H1 as [|a ? ? ? Ha H2]; subst. inversion H2 as [|b ? ? ? Hb H3]; subst. inversion H3; subst. cbn in Hx, Ha, Hb.
    destruct x as [|[|x]], a as [|[|a]], b as [|[|b]]; try lia; eexists; (split; [reflexivity|vm_compute; discriminate]). }
  split; [reflexivity|]. eexists. split; [vm_compute; reflexivity|]. split; num_tac.
Qed.

(** A histogram without profiles has no fractions: it drops all its profiles first, and dropping none
    is an error. *)
Theorem C44_without_profiles_refuted sqrt sigmas err_name parse h o cuts : o_prof h = [] ->
  fraction sqrt sigmas err_name parse (view h) o cuts = Err IndexError.
Proof. intros E. unfold fraction. cbn zeta. change (p_head (view h)) with (with_content h CNone). cbn [o_prof with_content]. rewrite E. destruct (negb _); reflexivity. Qed.
Print Assumptions C44_without_profiles_refuted.
(** An axis that is not a cut of the histogram is refused. *)
Theorem C44_unknown_cut_refused sqrt sigmas err_name parse h o cuts c : In c cuts -> axis_in c (o_fixed h) && is_cut c = false ->
  fraction sqrt sigmas err_name parse (view h) o cuts = Err IndexError.
Proof.
  intros Hi Hc. unfold fraction. cbn zeta. change (p_head (view h)) with (with_content h CNone). cbn [o_fixed with_content].
  replace (forallb _ cuts) with false; [reflexivity|]. symmetry. apply not_true_is_false. intros T. rewrite forallb_forall in T. specialize (T c Hi). cbn beta in T. congruence.
Qed.
Print Assumptions C44_unknown_cut_refused.
(** Most documented error names are not implemented. *)
Theorem C44_unimplemented_errors_refuted : exists h, hobj_ok h /\ forall sqrt sigmas,
  fraction sqrt sigmas err_label EName (view h) (frac_opts FUnimplemented) [ct_a] = Err NotImplementedError.
Proof. exists (ct_hist [pr_p] ct_content). split; [ok_tac|]. intros. reflexivity. Qed.
Print Assumptions C44_unimplemented_errors_refuted.
(** An error name that does not exist is accepted, and then the columns are shifted: the column
    "err(b)" shows the fraction of a, and the column "a" is 0.  Without a record array it is an error. *)
Theorem C44_unknown_error_name_refuted : exists h T, hobj_ok h /\
  fraction (fun x => x) (fun l => l) err_label EName (view h) (frac_opts FOther) [ct_b; ct_a] = Ok (T, ["count()"; "b"; "err(b)"; "a"; "err(a)"]) /\
  bin_row T [] [0] = Some [nz 8; Fin (qfrac 1 2); Fin (qfrac 5 8); nz 0; nz 0] /\
  fraction (fun x => x) (fun l => l) err_label EName (view h) (plain_frac FOther) [ct_b; ct_a] = Err ValueError.
Proof.
  exists (ct_hist [pr_p] ct_content). eexists. split; [ok_tac|]. split; [vm_compute; reflexivity|]. split; [num_tac|]. vm_compute. reflexivity.
Qed.
Print Assumptions C44_unknown_error_name_refuted.
