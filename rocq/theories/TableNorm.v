(** Normalized tables. *)
From Coq Require Import String Permutation.
From Verif Require Import Base Num NumFacts Axis Calc Content Fill FillSpec FillProofs FillProofs2 FillProofs3 FillMain
  Tree Order Expr HistAlg AlgSpec HistAlgProofs HistAlgMain Nd NdProofs Proj ProjSpec ProjProofs ProjMain ProjMain2 ProjFill ProjLaws ProjDrop Select Table TableSpec TableProofs.
Local Open Scope list_scope.

Lemma clip_nat n z : clip n (Z.of_nat z) = Nat.min n z.
Proof. unfold clip. destruct (Z.ltb_spec (Z.of_nat z) 0); lia. Qed.

Definition slot_slice (a : axis) : slc := Slice (Some (Z.of_nat (underflows a))) (Some (Z.of_nat (underflows a + finite_bins a))).
Lemma uniform_slice a : uniform a -> finite_slice a = Ok (slot_slice a).
Proof.
  unfold slot_slice. destruct a as [| |e n l h u o nf cl|e mn mx u o| | | |]; cbn [uniform]; try contradiction; intros _; try reflexivity;
    cbn [finite_slice underflows finite_bins num_bins]; do 3 f_equal; unfold b2n, b2z; destruct u; try reflexivity; f_equal; lia.
Qed.
Lemma uniform_tot a : uniform a -> underflows a + finite_bins a <= totbins a.
Proof. destruct a; cbn; try contradiction; intros; lia. Qed.
Lemma slot_slice_in a s : uniform a -> s < totbins a ->
  Nat.leb (slice_lo (slot_slice a) (totbins a)) s && Nat.ltb s (slice_hi (slot_slice a) (totbins a)) = finite_slot a s.
Proof.
  intros Hu Hs. pose proof (uniform_tot a Hu). unfold slot_slice, slice_lo, slice_hi, finite_slot. rewrite !clip_nat, !Nat.min_r by lia. reflexivity.
Qed.
Lemma inside_all axes : Forall uniform axes -> forall ss, Forall2 lt ss (map totbins axes) ->
  inside (map slot_slice axes) (map totbins axes) ss = finite_slots axes ss.
Proof.
  intros H. induction H as [|a axes Ha H IH]; intros ss Hs; inversion Hs as [|s ? ss' ? Hlt Hs']; subst; auto.
  unfold inside in *. cbn [map combine forallb finite_slots]. rewrite slot_slice_in by auto. rewrite IH by auto. reflexivity.
Qed.
Lemma inside_full sh : forall ss, Forall2 lt ss sh -> inside (repeat full (length sh)) sh ss = true.
Proof.
  induction sh as [|n sh IH]; intros ss H; inversion H as [|s ? ss' ? Hs Hss]; subst; auto. unfold inside in *. cbn [length repeat combine forallb]. rewrite IH by auto.
  cbn [full slice_lo slice_hi]. rewrite (proj2 (Nat.ltb_lt s n)) by auto. reflexivity.
Qed.
Lemma full_slices' s p len : forall k, p < k -> map (fun j => if Nat.eqb j p then s j else full) (seq k len) = repeat full len.
Proof. induction len as [|len IH]; intros k H; auto. cbn [seq map repeat]. rewrite IH by lia. destruct (Nat.eqb_spec k p); [lia|]. reflexivity. Qed.
(** One slice, the others full. *)
Lemma inside_one axes : forall q k ss a, Forall uniform axes -> Forall2 lt ss (map totbins axes) -> nth_error axes q = Some a ->
  inside (map (fun j => if Nat.eqb j (k + q) then nth (j - k) (map slot_slice axes) full else full) (seq k (length axes))) (map totbins axes) ss =
  finite_slot a (nth q ss 0).
Proof.
  induction axes as [|b axes IH]; intros q k ss a H Hs Ha; [destruct q; discriminate|]. inversion H; subst. inversion Hs as [|s ? ss' ? Hlt Hs']; subst. destruct q as [|q].
  - injection Ha as ->. cbn [length seq map]. rewrite Nat.add_0_r, Nat.eqb_refl, Nat.sub_diag. cbn [nth].
    rewrite (full_slices' (fun j => nth (j - k) (slot_slice a :: map slot_slice axes) full)) by lia.
    unfold inside. cbn [combine forallb]. rewrite slot_slice_in by auto. fold (inside (repeat full (length axes)) (map totbins axes) ss').
    rewrite <- (map_length totbins axes), inside_full by auto. apply andb_true_r.
  - cbn [length seq map nth]. replace (Nat.eqb k (k + S q)) with false by (symmetry; apply Nat.eqb_neq; lia).
    unfold inside. cbn [combine forallb]. cbn [full slice_lo slice_hi]. rewrite (proj2 (Nat.ltb_lt s (totbins b))) by auto. cbn [Nat.leb andb].
    rewrite <- (IH q (S k) ss' a) by auto. unfold inside. do 2 f_equal. apply map_ext_in. intros j Hj. apply in_seq in Hj.
    replace (k + S q) with (S k + q) by lia. destruct (Nat.eqb j (S k + q)); auto. replace (j - k) with (S (j - S k)) by lia. reflexivity.
Qed.

Section Norm.
  Variable bin_width : nat -> Num -> Num -> Num.
  Definition pos (w : Num) : Prop := exists q, w = Fin q /\ (0 < this q)%Q.
  Lemma pinf_pos w : pos w -> nmul PInf w = PInf.
  Proof. intros (q & -> & H). cbn. unfold ninf_sign. rewrite (proj2 (qltb_iff qc0 q)) by (rewrite this_qc0; auto). reflexivity. Qed.
  Lemma uniform_widths a : uniform a -> axis_widths bin_width a = OneWidth (width_of bin_width a).
  Proof. destruct a; cbn; try contradiction; reflexivity. Qed.
  Lemma finite_slots_nth axes : forall q ss a, Forall2 lt ss (map totbins axes) -> nth_error axes q = Some a -> finite_slots axes ss = true -> finite_slot a (nth q ss 0) = true.
  Proof.
    induction axes as [|b axes IH]; intros q ss a Hs Ha Hf; [destruct q; discriminate|]. inversion Hs as [|s ? ss' ? Hlt Hs']; subst. cbn in Hf. apply andb_prop in Hf. destruct Hf as (H1 & H2).
    destruct q as [|q]; cbn in *; [congruence|]. eauto.
  Qed.
  Lemma width_loop_ok axes : Forall uniform axes -> Forall (fun a => pos (width_of bin_width a)) axes -> let tots := map totbins axes in
    forall done rest w, axes = done ++ rest ->
    width_loop bin_width tots (map slot_slice axes) (length done) rest (anew tots (fun i => if finite_slots axes i then w else PInf)) =
    Ok (anew tots (fun i => if finite_slots axes i then fold_left nmul (map (width_of bin_width) rest) w else PInf)).
  Proof.
    intros HU HW tots done rest. revert done. induction rest as [|a rest IH]; intros done w E; cbn [width_loop map fold_left]; auto.
    assert (Ha : nth_error axes (length done) = Some a) by (rewrite E, nth_error_app2, Nat.sub_diag by lia; reflexivity).
    assert (Hin : In a axes) by (eapply nth_error_In; eauto).
    rewrite uniform_widths by (rewrite Forall_forall in HU; auto). cbn [mul_widths bind].
    replace (anew tots _) with (anew tots (fun i => if finite_slots axes i then nmul w (width_of bin_width a) else PInf)).
    - replace (S (length done)) with (length (done ++ [a])) by (rewrite app_length; cbn; lia). apply IH. rewrite <- app_assoc. exact E.
    - apply anew_ext. intros i Hi. rewrite aget_anew by auto. unfold tots at 1. rewrite (map_length totbins).
      pose proof (inside_one axes (length done) 0 i a HU Hi Ha) as EI. cbn [plus] in EI.
      replace (map (fun j => if Nat.eqb j (length done) then nth j (map slot_slice axes) full else full) (seq 0 (length axes)))
        with (map (fun j => if Nat.eqb j (length done) then nth (j - 0) (map slot_slice axes) full else full) (seq 0 (length axes)))
        by (apply map_ext; intros j; rewrite Nat.sub_0_r; reflexivity).
      fold tots in EI. rewrite EI. destruct (finite_slots axes i) eqn:Ef.
      + rewrite (finite_slots_nth axes (length done) i a Hi Ha Ef). reflexivity.
      + rewrite pinf_pos by (rewrite Forall_forall in HW; auto). destruct (finite_slot a (nth (length done) i 0)); reflexivity.
  Qed.
  Lemma mapM_slices axes : Forall uniform axes -> mapM finite_slice axes = Ok (map slot_slice axes).
  Proof. intros H. induction H as [|a l Ha H IH]; auto. cbn [mapM map]. rewrite uniform_slice by auto. cbn [bind]. rewrite IH. reflexivity. Qed.
  Lemma pos_mul v w : pos v -> pos w -> pos (nmul v w).
  Proof. intros (q & -> & Hq) (r & -> & Hr). exists (q * r)%Qc. split; auto. rewrite this_mul. nra. Qed.
  Lemma pos_one : pos none1. Proof. exists qc1. split; auto. rewrite this_qc1. lra. Qed.
  Lemma volume_pos axes : Forall (fun a => pos (width_of bin_width a)) axes -> pos (volume bin_width axes).
  Proof. intros H. induction H as [|a l Ha H IH]; [apply pos_one|]. apply pos_mul; auto. Qed.
  Lemma fold_mul l : Forall pos l -> forall w, pos w -> fold_left nmul l w = nmul w (fold_right nmul none1 l).
  Proof.
    intros H. induction H as [|x l Hx H IH]; intros w Hw; cbn [fold_left fold_right]; [rewrite nmul_1_r; auto|].
    rewrite IH by (apply pos_mul; auto). destruct Hw as (q & -> & _), Hx as (r & -> & _). rewrite nmul_assoc_fin. reflexivity.
  Qed.
  Lemma binwidths_ok h : o_group h = [] -> Forall uniform (o_fixed h) -> Forall (fun a => pos (width_of bin_width a)) (o_fixed h) ->
    binwidths bin_width h = Ok (anew (l_tots (o_layout h)) (fun i => if finite_slots (o_fixed h) i then volume bin_width (o_fixed h) else PInf)).
  Proof.
    intros HG HU HW. unfold binwidths. rewrite HG. cbn [mapM bind fold_left app]. rewrite mapM_slices by auto. cbn [bind].
    change (l_tots (o_layout h)) with (map totbins (o_fixed h)). 
    replace (anew (map totbins (o_fixed h)) (fun i => if inside (map slot_slice (o_fixed h)) (map totbins (o_fixed h)) i then none1 else PInf))
      with (anew (map totbins (o_fixed h)) (fun i => if finite_slots (o_fixed h) i then none1 else PInf)).
    - pose proof (width_loop_ok (o_fixed h) HU HW [] (o_fixed h) none1 eq_refl) as E. cbn [length] in E. rewrite E. f_equal. apply anew_ext. intros i _.
      rewrite fold_mul, nmul_1_l; [reflexivity| |apply pos_one]. apply Forall_map. exact HW.
    - apply anew_ext. intros i Hi. rewrite inside_all by auto. reflexivity.
  Qed.

  (** ** The counts *)
  Variable sqrt : Num -> Num.
  Definition finite_content (h : hobj) : Prop := forall ss, in_shape (o_layout h) ss -> isfin (hcell h [] ss SumW) = true.
  Definition grand_total (h : hobj) : Num := nsum (map (fun ss => hcell h [] ss SumW) (finite_cells h)).
  Definition divisor (h : hobj) (ss : list nat) : Num := if finite_slots (o_fixed h) ss then grand_total h else PInf.

  Lemma nth_anew sh f r : r < prod sh -> nth r (anew sh f) nzero = f (nth r (indices sh) []).
  Proof. intros H. unfold anew. rewrite nth_indep with (d' := f []) by (rewrite map_length, indices_length; auto). apply map_nth. Qed.
  Lemma seq_rows {A} (f : nat -> A) (g : list nat -> A) sh : (forall ss, Forall2 lt ss sh -> f (ravel sh ss) = g ss) -> map f (seq 0 (prod sh)) = map g (indices sh).
  Proof.
    intros H. apply nth_ext with (d := f 0) (d' := g []); [rewrite !map_length, seq_length, indices_length; auto|]. intros r Hr. rewrite map_length, seq_length in Hr.
    rewrite map_nth, seq_nth by auto. rewrite map_nth. destruct (ravel_surj sh r Hr) as (ss & Hs & <-). rewrite nth_indices by auto. cbn [plus]. auto.
  Qed.
  Lemma div_sum V l : (0 < this V)%Q -> Forall (fun x => isfin x = true) l -> nsum (map (fun x => ndiv x (Fin V)) l) = ndiv (nsum l) (Fin V).
  Proof.
    intros HV H. assert (HV0 : qeqb V qc0 = false) by (apply qeqb_false; intros ->; rewrite this_qc0 in HV; lra).
    assert (G : exists q, nsum l = Fin q /\ nsum (map (fun x => ndiv x (Fin V)) l) = Fin (q / V)%Qc).
    { induction H as [|x l Hx H (q & E1 & E2)]; [exists qc0; split; auto; change (nzero = Fin (qc0 / V)%Qc); unfold nzero; f_equal; apply Qc_ext; rewrite this_div, this_qc0; unfold Qdiv; rewrite Qmult_0_l; reflexivity|].
      destruct x as [x| | |]; try discriminate. exists (x + q)%Qc. cbn [map]. rewrite !nsum_cons, E1, E2. cbn [ndiv]. rewrite HV0. split; auto. cbn [nadd]. f_equal.
      apply Qc_ext. rewrite !this_add, !this_div, this_add. field. intros X. rewrite X in HV. lra. }
    destruct G as (q & E1 & E2). rewrite E1, E2. cbn [ndiv]. rewrite HV0. reflexivity.
  Qed.
  Lemma total_shares h V : volume bin_width (o_fixed h) = Fin V -> (0 < this V)%Q -> finite_content h ->
    nsum (map (fun ss => ndiv (hcell h [] ss SumW) (if finite_slots (o_fixed h) ss then Fin V else PInf)) (indices (l_tots (o_layout h)))) =
    ndiv (grand_total h) (Fin V).
  Proof.
    intros EV HV HF. unfold grand_total, finite_cells. rewrite <- div_sum; auto.
    - assert (HF' : forall ss, In ss (indices (l_tots (o_layout h))) -> isfin (hcell h [] ss SumW) = true) by (intros ss Hs; apply HF; apply indices_in; auto).
      rewrite map_map. induction (indices (l_tots (o_layout h))) as [|ss l IH]; auto. cbn [map filter]. rewrite nsum_cons, IH by (intros; apply HF'; right; auto).
      destruct (finite_slots (o_fixed h) ss); [cbn [map]; rewrite nsum_cons; reflexivity|].
      assert (F : isfin (hcell h [] ss SumW) = true) by (apply HF'; left; auto). destruct (hcell h [] ss SumW); try discriminate. cbn [ndiv]. apply nadd_0_l.
    - apply Forall_map, Forall_forall. intros ss Hs. apply filter_In in Hs. apply HF. apply indices_in. apply Hs.
  Qed.
  Lemma correction_ok h V ss : volume bin_width (o_fixed h) = Fin V -> (0 < this V)%Q -> finite_content h -> pos (grand_total h) ->
    nmul (ndiv (grand_total h) (Fin V)) (if finite_slots (o_fixed h) ss then Fin V else PInf) = divisor h ss.
  Proof.
    intros EV HV HF (N & EN & HN). unfold divisor. rewrite EN. assert (HV0 : qeqb V qc0 = false) by (apply qeqb_false; intros ->; rewrite this_qc0 in HV; lra).
    cbn [ndiv]. rewrite HV0. destruct (finite_slots (o_fixed h) ss).
    - cbn [nmul]. f_equal. apply Qc_ext. rewrite this_mul, this_div. field. intros X. rewrite X in HV. lra.
    - rewrite nmul_comm. apply pinf_pos. exists (N / V)%Qc. split; auto. rewrite this_div. apply Qlt_shift_div_l; auto. lra.
  Qed.

  Lemma norm_table_shape h o profs is : hobj_ok h -> o_group h = [] -> o_content h <> CNone -> Forall uniform (o_fixed h) -> Forall (fun a => pos (width_of bin_width a)) (o_fixed h) ->
    finite_content h -> pos (grand_total h) ->
    Forall2 (profile_number h) profs is -> t_count o = true -> t_normalized o = true ->
    (t_recarray o = true -> table_columns o profs <> [] /\ has_dup (table_columns o profs) = false) ->
    exists T, table sqrt bin_width (view h) o profs = Ok (T, table_columns o profs) /\
      (exists data, T = PArr (l_tots (o_layout h) ++ [length (table_columns o profs)]) data /\ length data = prodn (l_tots (o_layout h)) * length (table_columns o profs)) /\
      forall ss, in_shape (o_layout h) ss ->
        bin_row T [] ss = Some (ndiv (hcell h [] ss SumW) (divisor h ss) :: (if t_error o then [ndiv (entries_error sqrt h [] ss) (divisor h ss)] else []) ++
                                expected_row sqrt h [] ss false (t_effcount o) (t_error o) is).
  Proof.
    intros Hok HG Hc HU HW HF HN HP Ec En Hr.
    pose proof Hok as (_ & _ & _ & [HC|HC]); [contradiction|]. rewrite HG in HC. destruct (o_content h) as [|d|l] eqn:Ed; try contradiction. clear Hc.
    set (names := table_columns o profs). destruct (volume_pos (o_fixed h) HW) as (V & EV & HV).
    set (o' := {| t_count := false; t_effcount := t_effcount o; t_error := t_error o; t_normalized := false; t_recarray := t_recarray o |}).
    set (L := o_layout h). set (tots := l_tots L).
    set (sumw := fun r => item L d r (l_sumw L)).
    set (err := fun r => sqrt (if l_weighted L then item L d r (l_sumw2 L) else sumw r)).
    set (div := fun r => divisor h (nth r (indices tots) [])).
    set (cols := (map (fun r => ndiv (sumw r) (div r)) (seq 0 (l_rows L)) :: (if t_error o then [map (fun r => ndiv (err r) (div r)) (seq 0 (l_rows L))] else [])) ++
                 array_columns sqrt L o' is d).
    assert (Hcell : forall ss j, in_shape L ss -> item L d (ravel tots ss) j = cell L (o_content h) [] ss j).
    { intros ss j Hs. unfold cell. rewrite Ed. reflexivity. }
    assert (Hlen : length names = length cols).
    { unfold names, cols, array_columns. cbn zeta. rewrite (columns_length o profs is (Forall2_length _ _ _ HP) (list Num) [] [] [] (fun _ => []) (fun _ => [])).
      rewrite Ec. cbn [o' t_count t_effcount t_error]. rewrite app_nil_l, !app_length. f_equal; [destruct (t_error o); reflexivity|]. f_equal; [destruct (t_effcount o); reflexivity|].
      clear. induction is as [|i is IH]; auto. cbn [flat_map]. rewrite !app_length, IH. destruct (t_error o); reflexivity. }
    exists (PArr (tots ++ [length names]) (fill_cols (prodn tots) (length names) cols)). split; [|split; [eexists; split; [reflexivity|apply fill_cols_length]|]].
    - unfold table, table_with. rewrite pprefill_view. cbn zeta; change (p_head (view h)) with (with_content h CNone). rewrite (mapM_index h profs is Hok HP). cbn [bind].
      cbn [o_prof with_content]. rewrite (numbers_names h profs is HP), En.
      change (binwidths bin_width (with_content h CNone)) with (binwidths bin_width h). rewrite binwidths_ok by auto. cbn [bind]. fold names.
      unfold started, prefill. rewrite Ed. cbn [embed thandle]. fold L.
      match goal with |- bind ?X _ = _ => replace X with (finish (t_recarray o) tots names (prodn tots) cols) end.
      + rewrite finish_ok by auto. rewrite <- Hlen. reflexivity.
      + unfold table_array. change (o_layout (with_content h CNone)) with L. rewrite (rows_of L d HC), Ec, En.
        replace (Nat.eqb (l_rows L * l_last L) (length d)) with true by (symmetry; apply Nat.eqb_eq; rewrite HC; reflexivity). cbn [negb].
        rewrite anew_length. replace (Nat.eqb (prod (l_tots L)) (l_rows L)) with true by (symmetry; apply Nat.eqb_eq; reflexivity). cbn [negb bind].
        change (prodn tots) with (l_rows L). f_equal. unfold cols, array_columns. cbn zeta. cbn [o' t_count t_effcount t_error]. rewrite app_nil_l.
        assert (ET : nsum (map (fun r => ndiv (nth (r * l_last L + l_sumw L) d nzero)
            (nth r (anew (l_tots L) (fun i => if finite_slots (o_fixed h) i then volume bin_width (o_fixed h) else PInf)) nzero)) (seq 0 (l_rows L))) = ndiv (grand_total h) (Fin V)).
        { rewrite <- (total_shares h V EV HV HF). f_equal. apply (seq_rows _ _ tots). intros ss Hs.
          rewrite nth_anew by (apply ravel_lt; auto). rewrite nth_indices by auto. rewrite EV. f_equal. apply (Hcell ss (l_sumw L) Hs). }
        assert (EC : forall r, In r (seq 0 (l_rows L)) -> nmul (ndiv (grand_total h) (Fin V)) (nth r (anew (l_tots L) (fun i => if finite_slots (o_fixed h) i then volume bin_width (o_fixed h) else PInf)) nzero) = div r).
        { intros r Hr'. apply in_seq in Hr'. rewrite nth_anew by (apply Hr'). rewrite EV. apply correction_ok; auto. }
        rewrite ET. f_equal.
        * unfold sumw, item. f_equal; [|destruct (t_error o); auto; f_equal]; symmetry; apply map_ext_in; intros r Hr'; rewrite EC by auto; reflexivity.
    - intros ss Hs. unfold bin_row. cbn [table_block]. rewrite last_last. f_equal. rewrite Hlen. rewrite cols_row by exact Hs. unfold cols. rewrite map_app. fold tots.
      pose proof (ravel_lt _ _ Hs) as Hlt. change (prod (l_tots (o_layout h))) with (l_rows L) in Hlt. fold L tots in Hlt.
      assert (Ediv : div (ravel tots ss) = divisor h ss) by (unfold div; rewrite nth_indices by exact Hs; reflexivity).
      change (?x :: ?y ++ ?z) with ((x :: y) ++ z). f_equal.
      + cbn [map]. rewrite nth_rows by auto. rewrite Ediv. f_equal; [f_equal; apply (Hcell ss _ Hs)|]. destruct (t_error o); auto. cbn [map]. rewrite nth_rows by auto. rewrite Ediv.
        f_equal. unfold err, entries_error, entries, sumw. rewrite !Hcell by auto. reflexivity.
      + apply (array_columns_row sqrt h o' is [] ss d); auto. unfold started, prefill. rewrite Ed. reflexivity.
  Qed.
  Lemma norm_table_ok h o profs is : hobj_ok h -> o_group h = [] -> o_content h <> CNone -> Forall uniform (o_fixed h) -> Forall (fun a => pos (width_of bin_width a)) (o_fixed h) ->
    finite_content h -> pos (grand_total h) ->
    Forall2 (profile_number h) profs is -> t_count o = true -> t_normalized o = true ->
    (t_recarray o = true -> table_columns o profs <> [] /\ has_dup (table_columns o profs) = false) ->
    exists T, table sqrt bin_width (view h) o profs = Ok (T, table_columns o profs) /\
      forall ss, in_shape (o_layout h) ss ->
        bin_row T [] ss = Some (ndiv (hcell h [] ss SumW) (divisor h ss) :: (if t_error o then [ndiv (entries_error sqrt h [] ss) (divisor h ss)] else []) ++
                                expected_row sqrt h [] ss false (t_effcount o) (t_error o) is).
  Proof. intros H1 H2 H3 H4 H5 H6 H7 H8 H9 H10 H11. destruct (norm_table_shape h o profs is H1 H2 H3 H4 H5 H6 H7 H8 H9 H10 H11) as (T & E & _ & R). exists T. auto. Qed.
End Norm.
