(** C43: normalized tables of histograms with one split axis. *)
From Coq Require Import String Permutation.
From Verif Require Import Base Num NumFacts Axis AxisSpec Calc Content Fill FillSpec FillProofs FillProofs2 FillProofs3 FillMain
  Tree Order Expr ExprFacts Instr InstrSpec InstrProofs Elem HistFill HistSpec HistFillProofs HistFillMain HistFillMain2 HistFillMain3 HistFillMain4 Props_Fill Props_Hist
  HistAlg AlgSpec HistAlgProofs HistAlgMain CompareProofs Props_Alg
  Nd NdProofs Proj ProjSpec ProjProofs ProjMain ProjMain2 ProjFill ProjLaws ProjGroup ProjDrop ProjE2E Props_Proj
  Select SelSpec SelMain Table TableSpec TableProofs TableNorm TableStats FracProofs Props_Table.
Local Open Scope string_scope.
Local Open Scope list_scope.

(** Whatever the widths of the bins are. *)
Section Any.
  Variable bin_width : nat -> Num -> Num -> Num.
  Variable sqrt : Num -> Num.
  Variable h : hobj.
  Variable W : list nat -> Num.
  Definition any_total : Num := nsum (map (fun ss => ndiv (hcell h [] ss SumW) (W ss)) (indices (l_tots (o_layout h)))).
  Definition any_divisor (ss : list nat) : Num := nmul any_total (W ss).
  Lemma any_table o profs is : hobj_ok h -> o_group h = [] -> o_content h <> CNone ->
    binwidths bin_width h = Ok (anew (l_tots (o_layout h)) W) ->
    Forall2 (profile_number h) profs is -> t_count o = true -> t_normalized o = true ->
    (t_recarray o = true -> table_columns o profs <> [] /\ has_dup (table_columns o profs) = false) ->
    exists T, table sqrt bin_width (view h) o profs = Ok (T, table_columns o profs) /\
      forall ss, in_shape (o_layout h) ss ->
        bin_row T [] ss = Some (ndiv (hcell h [] ss SumW) (any_divisor ss) :: (if t_error o then [ndiv (entries_error sqrt h [] ss) (any_divisor ss)] else []) ++
                                expected_row sqrt h [] ss false (t_effcount o) (t_error o) is).
  Proof.
    intros Hok HG Hc HB HP Ec En Hr.
    pose proof Hok as (_ & _ & _ & [HC|HC]); [contradiction|]. rewrite HG in HC. destruct (o_content h) as [|d|l] eqn:Ed; try contradiction. clear Hc.
    set (names := table_columns o profs).
    set (o' := {| t_count := false; t_effcount := t_effcount o; t_error := t_error o; t_normalized := false; t_recarray := t_recarray o |}).
    set (L := o_layout h). set (tots := l_tots L).
    set (sumw := fun r => item L d r (l_sumw L)).
    set (err := fun r => sqrt (if l_weighted L then item L d r (l_sumw2 L) else sumw r)).
    set (div := fun r => any_divisor (nth r (indices tots) [])).
    set (cols := (map (fun r => ndiv (sumw r) (div r)) (seq 0 (l_rows L)) :: (if t_error o then [map (fun r => ndiv (err r) (div r)) (seq 0 (l_rows L))] else [])) ++
                 array_columns sqrt L o' is d).
    assert (Hcell : forall ss j, in_shape L ss -> item L d (ravel tots ss) j = cell L (o_content h) [] ss j).
    { intros ss j Hs. unfold cell. rewrite Ed. reflexivity. }
    assert (Hlen : length names = length cols).
    { unfold names, cols, array_columns. cbn zeta. rewrite (columns_length o profs is (Forall2_length _ _ _ HP) (list Num) [] [] [] (fun _ => []) (fun _ => [])).
      rewrite Ec. cbn [o' t_count t_effcount t_error]. rewrite app_nil_l, !app_length. f_equal; [destruct (t_error o); reflexivity|]. f_equal; [destruct (t_effcount o); reflexivity|].
      clear. induction is as [|i is IH]; auto. cbn [flat_map]. rewrite !app_length, IH. destruct (t_error o); reflexivity. }
    exists (PArr (tots ++ [length names]) (fill_cols (prodn tots) (length names) cols)). split.
    - unfold table, table_with. rewrite pprefill_view. cbn zeta; change (p_head (view h)) with (with_content h CNone). rewrite (mapM_index h profs is Hok HP). cbn [bind].
      cbn [o_prof with_content]. rewrite (numbers_names h profs is HP), En.
      change (binwidths bin_width (with_content h CNone)) with (binwidths bin_width h). rewrite HB. cbn [bind]. fold names.
      unfold started, prefill. rewrite Ed. cbn [embed thandle]. fold L.
      match goal with |- bind ?X _ = _ => replace X with (finish (t_recarray o) tots names (prodn tots) cols) end.
      + rewrite finish_ok by auto. rewrite <- Hlen. reflexivity.
      + unfold table_array. change (o_layout (with_content h CNone)) with L. rewrite (rows_of L d HC), Ec, En.
        replace (Nat.eqb (l_rows L * l_last L) (length d)) with true by (symmetry; apply Nat.eqb_eq; rewrite HC; reflexivity). cbn [negb].
        rewrite anew_length. replace (Nat.eqb (prod (l_tots L)) (l_rows L)) with true by (symmetry; apply Nat.eqb_eq; reflexivity). cbn [negb bind].
        change (prodn tots) with (l_rows L). f_equal. unfold cols, array_columns. cbn zeta. cbn [o' t_count t_effcount t_error]. rewrite app_nil_l.
        assert (ET : nsum (map (fun r => ndiv (nth (r * l_last L + l_sumw L) d nzero) (nth r (anew (l_tots L) W) nzero)) (seq 0 (l_rows L))) = any_total).
        { unfold any_total. f_equal. apply (seq_rows _ _ tots). intros ss Hs.
          rewrite nth_anew by (apply ravel_lt; auto). rewrite nth_indices by auto. f_equal. apply (Hcell ss (l_sumw L) Hs). }
        assert (EC : forall r, In r (seq 0 (l_rows L)) -> nmul any_total (nth r (anew (l_tots L) W) nzero) = div r).
        { intros r Hr'. apply in_seq in Hr'. rewrite nth_anew by (apply Hr'). reflexivity. }
        rewrite ET. f_equal.
        * unfold sumw, item. f_equal; [|destruct (t_error o); auto; f_equal]; symmetry; apply map_ext_in; intros r Hr'; rewrite EC by auto; reflexivity.
    - intros ss Hs. unfold bin_row. cbn [table_block]. rewrite last_last. f_equal. rewrite Hlen. rewrite cols_row by exact Hs. unfold cols. rewrite map_app. fold tots.
      pose proof (ravel_lt _ _ Hs) as Hlt. change (prod (l_tots (o_layout h))) with (l_rows L) in Hlt. fold L tots in Hlt.
      assert (Ediv : div (ravel tots ss) = any_divisor ss) by (unfold div; rewrite nth_indices by exact Hs; reflexivity).
      change (?x :: ?y ++ ?z) with ((x :: y) ++ z). f_equal.
      + cbn [map]. rewrite nth_rows by auto. rewrite Ediv. f_equal; [f_equal; apply (Hcell ss _ Hs)|]. destruct (t_error o); auto. cbn [map]. rewrite nth_rows by auto. rewrite Ediv.
        f_equal. unfold err, entries_error, entries, sumw. rewrite !Hcell by auto. reflexivity.
      + apply (array_columns_row sqrt h o' is [] ss d); auto. unfold started, prefill. rewrite Ed. reflexivity.
  Qed.
End Any.

(** Bin number [k] of a split is between the edges [k] and [k + 1], and in slot [k], or the one after with
    an underflow bin. *)
Definition split_width (es : list Num) (k : nat) : Num := nsub (nth (S k) es NaN) (nth k es NaN).
Definition split_density (h : hobj) (u : bool) (es : list Num) (k : nat) : Num := ndiv (hcell h [] [b2n u + k] SumW) (split_width es k).
Definition split_total (h : hobj) (u : bool) (es : list Num) : Num := nsum (map (split_density h u es) (seq 0 (length es - 1))).
Definition one_split (h : hobj) (u : bool) (es : list Num) : Prop :=
  o_group h = [] /\ (exists e o nf cl, o_fixed h = [ASplit e es u o nf cl]) /\ forall k, k < length es - 1 -> pos (split_width es k).

Lemma gaps_length es : length (gaps es) = length es - 1.
Proof. induction es as [|x [|y t] IH]; auto. cbn [gaps length] in *. rewrite IH. lia. Qed.
Lemma gaps_nth es : forall k, k < length es - 1 -> nth k (gaps es) nzero = split_width es k.
Proof.
  induction es as [|x [|y t] IH]; intros k H; cbn [length] in H; try lia. destruct k as [|k]; [reflexivity|].
  change (gaps (x :: y :: t)) with (nsub y x :: gaps (y :: t)). cbn [nth]. rewrite IH by (cbn [length]; lia). reflexivity.
Qed.
Definition widths_at (u : bool) (es : list Num) (ss : list nat) : Num :=
  match ss with [s] => if Nat.leb (b2n u) s && Nat.ltb s (b2n u + (length es - 1)) then split_width es (s - b2n u) else PInf | _ => PInf end.
Lemma split_binwidths bin_width h u es : one_split h u es -> binwidths bin_width h = Ok (anew (l_tots (o_layout h)) (widths_at u es)).
Proof.
  intros (HG & (e & o & nf & cl & HF) & Hw). unfold binwidths. rewrite HG, HF. set (a := ASplit e es u o nf cl). cbn [mapM bind fold_left app].
  change (l_tots (o_layout h)) with (map totbins (o_fixed h)). rewrite HF. cbn [map]. fold a. set (n := totbins a).
  assert (En : n = (length es - 1) + b2n u + b2n o + b2n nf) by reflexivity.
  set (s := Slice (Some (b2z u)) (Some (b2z u + Z.of_nat (length es - 1))%Z)).
  assert (ES : finite_slice a = Ok s) by reflexivity. rewrite ES. cbn [bind width_loop length seq map Nat.eqb nth].
  assert (Lo : slice_lo s n = b2n u).
  { unfold s, slice_lo. change (b2z u) with (Z.of_nat (b2n u)) || (replace (b2z u) with (Z.of_nat (b2n u)) by (destruct u; reflexivity)). rewrite clip_nat. lia. }
  assert (Hi : slice_hi s n = b2n u + (length es - 1)).
  { unfold s, slice_hi. replace (b2z u + Z.of_nat (length es - 1))%Z with (Z.of_nat (b2n u + (length es - 1))) by (destruct u; cbn [b2n b2z]; lia). rewrite clip_nat. lia. }
  change (axis_widths bin_width a) with (Widths (gaps es)). unfold mul_widths. cbn [last]. unfold slice_len. rewrite Lo, Hi, gaps_length.
  replace (b2n u + (length es - 1) - b2n u) with (length es - 1) by lia. rewrite Nat.eqb_refl. cbn [bind]. f_equal. apply anew_ext. intros i Hi'.
  inversion Hi' as [|j ? ? ? Hj Hn]; subst. inversion Hn; subst. rewrite aget_anew by auto.
  unfold inside. cbn [combine forallb]. rewrite Lo, Hi, andb_true_r. unfold widths_at. cbn [last].
  destruct (Nat.leb_spec (b2n u) j), (Nat.ltb_spec j (b2n u + (length es - 1))); cbn [andb]; auto.
  rewrite gaps_nth by lia. destruct (Hw (j - b2n u)) as (q & -> & _); [lia|]. apply nmul_1_l.
Qed.

Lemma indices_one n : indices [n] = map (fun s => [s]) (seq 0 n).
Proof. cbn [indices]. induction (seq 0 n) as [|s l IH]; cbn; [reflexivity|]; f_equal; auto. Qed.
Lemma nsum_zeros l : Forall (fun x => x = nzero) l -> nsum l = nzero.
Proof. intros H. induction H as [|x l -> H IH]; auto. rewrite nsum_cons, IH. reflexivity. Qed.
Lemma seq_plus a m : map (plus a) (seq 0 m) = seq a m.
Proof.
  revert a. induction m as [|m IH]; intros a; auto. cbn [seq map]. rewrite Nat.add_0_r. f_equal. rewrite <- seq_shift, map_map, <- (IH (S a)).
  apply map_ext. intros k. cbn [plus]. lia.
Qed.
Lemma split_total_ok h u es : one_split h u es -> finite_content h -> any_total h (widths_at u es) = split_total h u es.
Proof.
  intros (HG & (e & o & nf & cl & HF) & Hw) Hfin. unfold any_total, split_total. change (l_tots (o_layout h)) with (map totbins (o_fixed h)). unfold finite_content, in_shape in Hfin.
  change (l_tots (o_layout h)) with (map totbins (o_fixed h)) in Hfin. rewrite HF in *. cbn [map totbins] in *. rewrite indices_one, map_map.
  set (m := length es - 1) in *. replace (m + b2n u + b2n o + b2n nf) with (b2n u + (m + (b2n o + b2n nf))) in * by lia.
  assert (F : forall s, s < b2n u + (m + (b2n o + b2n nf)) -> isfin (hcell h [] [s] SumW) = true) by (intros s Hs; apply Hfin; repeat constructor; auto).
  assert (Z : forall s, s < b2n u + (m + (b2n o + b2n nf)) -> s < b2n u \/ b2n u + m <= s -> ndiv (hcell h [] [s] SumW) (widths_at u es [s]) = nzero).
  { intros s Hs Ho. unfold widths_at. fold m. replace (Nat.leb (b2n u) s && Nat.ltb s (b2n u + m)) with false.
    - specialize (F s Hs). destruct (hcell h [] [s] SumW); try discriminate. reflexivity.
    - destruct (Nat.leb_spec (b2n u) s), (Nat.ltb_spec s (b2n u + m)); auto. lia. }
  set (r := b2n o + b2n nf) in *. rewrite !seq_app, !map_app, !nsum_app. rewrite (nsum_zeros (map _ (seq 0 (b2n u)))).
  2:{ apply Forall_forall. intros x Hx. apply in_map_iff in Hx. destruct Hx as (s & <- & Hs). apply in_seq in Hs. apply Z; lia. }
  rewrite (nsum_zeros (map _ (seq (0 + b2n u + m) _))).
  2:{ apply Forall_forall. intros x Hx. apply in_map_iff in Hx. destruct Hx as (s & <- & Hs). apply in_seq in Hs. apply Z; lia. }
  rewrite nadd_0_l, nadd_0_r. f_equal. cbn [plus]. replace (seq (b2n u) m) with (map (plus (b2n u)) (seq 0 m)).
  - rewrite map_map. apply map_ext_in. intros k Hk. apply in_seq in Hk. unfold split_density, widths_at. fold m.
    rewrite (proj2 (Nat.leb_le _ _)), (proj2 (Nat.ltb_lt _ _)) by lia. cbn [andb]. do 2 f_equal. lia.
  - apply seq_plus.
Qed.

(** The divisor of the counts in a slot: the width of the bin times the sum, over the bins between edges,
    of entries over width; infinity in underflow, overflow and nanflow. *)
Definition split_divisor (h : hobj) (u : bool) (es : list Num) (s : nat) : Num :=
  if Nat.leb (b2n u) s && Nat.ltb s (b2n u + (length es - 1)) then nmul (split_total h u es) (split_width es (s - b2n u)) else PInf.
Theorem C43_normalized_split sqrt bin_width h u es o profs is : hobj_ok h -> one_split h u es -> o_content h <> CNone ->
  finite_content h -> pos (split_total h u es) ->
  Forall2 (profile_number h) profs is -> t_count o = true -> t_normalized o = true ->
  (t_recarray o = true -> table_columns o profs <> [] /\ has_dup (table_columns o profs) = false) ->
  exists T, table sqrt bin_width (view h) o profs = Ok (T, table_columns o profs) /\
    forall s, in_shape (o_layout h) [s] ->
      bin_row T [] [s] = Some (ndiv (hcell h [] [s] SumW) (split_divisor h u es s) ::
                               (if t_error o then [ndiv (entries_error sqrt h [] [s]) (split_divisor h u es s)] else []) ++
                               expected_row sqrt h [] [s] false (t_effcount o) (t_error o) is).
Proof.
  intros Hok H1 Hc Hfin Hpos HP Ec En Hr. pose proof (split_total_ok h u es H1 Hfin) as ET.
  destruct (any_table bin_width sqrt h (widths_at u es) o profs is Hok (proj1 H1) Hc (split_binwidths bin_width h u es H1) HP Ec En Hr) as (T & E & R).
  exists T. split; auto. intros s Hs. rewrite (R [s] Hs). unfold any_divisor. rewrite ET.
  replace (nmul (split_total h u es) (widths_at u es [s])) with (split_divisor h u es s); auto.
  unfold split_divisor, widths_at. destruct (_ && _); auto. rewrite nmul_comm, pinf_pos; auto.
Qed.
Print Assumptions C43_normalized_split.

(** So the counts between edges add up to one, and those of the other bins are zero. *)
Theorem C43_normalized_split_adds_up_to_one h u es : one_split h u es -> finite_content h -> pos (split_total h u es) ->
  nsum (map (fun k => ndiv (hcell h [] [b2n u + k] SumW) (split_divisor h u es (b2n u + k))) (seq 0 (length es - 1))) = none1 /\
  forall s, in_shape (o_layout h) [s] -> s < b2n u \/ b2n u + (length es - 1) <= s -> ndiv (hcell h [] [s] SumW) (split_divisor h u es s) = nzero.
Proof.
  intros (HG & (e & o & nf & cl & HF) & Hw) Hfin (N & EN & HN). split.
  - assert (Hs : forall k, k < length es - 1 -> in_shape (o_layout h) [b2n u + k]).
    { intros k Hk. unfold in_shape. change (l_tots (o_layout h)) with (map totbins (o_fixed h)). rewrite HF. cbn [map totbins]. repeat constructor. lia. }
    assert (Hq : forall k, k < length es - 1 -> exists x w, hcell h [] [b2n u + k] SumW = Fin x /\ split_width es k = Fin w /\ w <> 0%Qc).
    { intros k Hk. specialize (Hfin _ (Hs k Hk)). destruct (hcell h [] [b2n u + k] SumW) as [x| | |]; try discriminate. destruct (Hw k Hk) as (w & -> & Hw').
      exists x, w. repeat split; auto. apply pos_ne. auto. }
    transitivity (nsum (map (fun x => ndiv x (Fin N)) (map (split_density h u es) (seq 0 (length es - 1))))).
    + rewrite map_map. f_equal. apply map_ext_in. intros k Hk. apply in_seq in Hk. unfold split_divisor, split_density.
      rewrite (proj2 (Nat.leb_le _ _)), (proj2 (Nat.ltb_lt _ _)) by lia. cbn [andb]. replace (b2n u + k - b2n u) with k by lia. rewrite EN.
      destruct (Hq k ltac:(lia)) as (x & w & -> & -> & Hw0). pose proof (pos_ne _ HN) as HN0. cbn [nmul]. rewrite !ndiv_fin; auto.
      * f_equal. field. auto.
      * intros Z. apply Qcmult_integral in Z. tauto.
    + rewrite div_sum; auto.
      * fold (split_total h u es). rewrite EN. rewrite ndiv_fin by (apply pos_ne; auto). unfold none1. f_equal. pose proof (pos_ne _ HN). change qc1 with 1%Qc. field. auto.
      * apply Forall_forall. intros x Hx. apply in_map_iff in Hx. destruct Hx as (k & <- & Hk). apply in_seq in Hk. unfold split_density.
        destruct (Hq k ltac:(lia)) as (y & w & -> & -> & Hw0). rewrite ndiv_fin; auto.
  - intros s Hs Ho. unfold split_divisor. replace (Nat.leb (b2n u) s && Nat.ltb s (b2n u + (length es - 1))) with false.
    + specialize (Hfin _ Hs). destruct (hcell h [] [s] SumW); try discriminate. reflexivity.
    + destruct (Nat.leb_spec (b2n u) s), (Nat.ltb_spec s (b2n u + (length es - 1))); auto. lia.
Qed.
Print Assumptions C43_normalized_split_adds_up_to_one.

(** Bins of widths 1, 2 and 4, with an underflow bin: 2/1 + 6/2 + 20/4 = 10. *)
Definition ns_hist : hobj :=
  {| o_group := []; o_fixed := [ASplit "x" (map nz [0; 1; 3; 7]%Z) true true false true]; o_prof := []; o_weight := None; o_filter := None;
     o_defs := []; o_attach := []; o_content := arr [9; 2; 6; 20; 5]%Z |}.
Example C43_normalized_split_example : hobj_ok ns_hist /\ one_split ns_hist true (map nz [0; 1; 3; 7]%Z) /\ o_content ns_hist <> CNone /\ finite_content ns_hist /\
  split_total ns_hist true (map nz [0; 1; 3; 7]%Z) = nz 10 /\ pos (split_total ns_hist true (map nz [0; 1; 3; 7]%Z)) /\
  exists T, table (fun x => x) exact_width (view ns_hist) norm_opts [] = Ok (T, ["count()"]) /\
    map (fun s => bin_row T [] [s]) (seq 0 5) =
    [Some [nzero]; Some [ndiv (nz 2) (nz 10)]; Some [ndiv (nz 3) (nz 10)]; Some [ndiv (nz 5) (nz 10)]; Some [nzero]].
Proof.
  assert (E : split_total ns_hist true (map nz [0; 1; 3; 7]%Z) = nz 10) by num_tac.
  split; [ok_tac|]. split.
  { split; [reflexivity|]. split; [repeat eexists|]. intros k Hk. cbn in Hk. destruct k as [|[|[|k]]]; try lia; (eexists; split; [reflexivity|vm_compute; reflexivity]). }
  split; [discriminate|]. split.
  { intros ss Hs. inversion Hs as [|s ? ? ? Hlt Hn]; subst. inversion Hn; subst. cbn in Hlt. do 5 (destruct s as [|s]; [reflexivity|]). lia. }
  split; [exact E|]. split; [rewrite E; eexists; split; [reflexivity|vm_compute; reflexivity]|].
  eexists. split; [vm_compute; reflexivity|]. num_tac.
Qed.
