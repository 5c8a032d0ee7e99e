(** Properties of the export to Pandas: C53. *)
From Coq Require Import String Permutation Sorted.
From Verif Require Import Base Num NumFacts Axis AxisSpec Calc Content Fill FillSpec FillProofs FillProofs2 FillProofs3 FillMain
  Tree Order Expr ExprFacts Instr InstrSpec Elem HistFill HistSpec KeySpec HistAlg AlgSpec HistAlgProofs HistAlgMain CompareProofs Props_Alg
  Nd NdProofs Proj ProjSpec ProjProofs ProjMain ProjMain2 ProjLaws ProjDrop Props_Proj
  Select Table TableSpec TableProofs FracProofs Props_Table Pandas PandasSpec PandasProofs PandasMain.
Local Open Scope string_scope.
Local Open Scope list_scope.

(** ** Tables *)
(** [hist.pandas( *profiles)]: one row per bin of each group, in the order of the group keys and then of
    the bins; the row's labels show the keys of its bin, and its numbers are those of the table for that
    bin (C43).  Python can sort the group keys, and the axes are as a filled histogram needs them. *)
Theorem C53_pandas_lists_every_bin sqrt bin_width sigmas err_name parse h o of profs is : hobj_ok h -> Forall axis_fine (o_group h) -> Forall axis_shown (o_fixed h) ->
  o_group h ++ o_fixed h <> [] -> comparable (o_content h) -> real_groups (o_group h) (o_content h) ->
  Forall2 (profile_number h) profs is -> t_normalized o = false -> table_columns o profs <> [] -> has_dup (table_columns o profs) = false ->
  exists F, pandas sqrt bin_width sigmas err_name parse (view h) o of profs = Ok F /\ f_cols F = table_columns o profs /\
    lists_places (o_group h) (o_fixed h) (has_group h) (map totbins (o_fixed h))
      (fun p => expected_row sqrt h (fst p) (snd p) (t_count o) (t_effcount o) (t_error o) is) F.
Proof. apply pandas_table_ok. Qed.
Print Assumptions C53_pandas_lists_every_bin.

(** groupby("g"), groupbin("y", 10) and bin("x", 2, 0, 2, underflow): groups (1, 10), (1, 20) and
    ("0" comes first as a number) (0, 30). *)
Definition pd_x : axis := ABin "x" 2 (nz 0) (nz 2) true false false true.
Definition pd_g : axis := AGroupby "g".
Definition pd_y : axis := AGroupbin "y" (nz 10) (nz 0) true true.
Definition pd_hist (c : content) : hobj := {|
  o_group := [pd_g; pd_y]; o_fixed := [pd_x]; o_prof := []; o_weight := None; o_filter := None; o_defs := []; o_attach := []; o_content := c |}.
Definition pd_content : content :=
  CDict [(GNum (nz 1), CDict [(GNum (nz 20), arr [1; 2; 3]%Z); (GNum (nz 10), arr [4; 5; 6]%Z)]);
         (GNum (nz 0), CDict [(GNum (nz 30), arr [7; 8; 9]%Z)])].
Lemma key_at_dict l p k : key_at (CDict l) p k -> (p = [] /\ In k (map fst l)) \/ exists k1 x p', p = k1 :: p' /\ In (k1, x) l /\ key_at x p' k.
Proof.
  intros (m & E & I). destruct p as [|k1 p]; [left; cbn in E; inversion E; subst; auto|right]. cbn [sub] in E. destruct (assoc k1 l) as [x|] eqn:E1; [|discriminate].
  exists k1, x, p. split; auto. split; [apply assoc_in; auto|]. exists m. auto.
Qed.
Lemma key_at_arr d p k : ~ key_at (CArr d) p k.
Proof. intros (m & E & _). destruct p; discriminate. Qed.
Lemma pd_keys p k : key_at pd_content p k -> (p = [] /\ (k = GNum (nz 1) \/ k = GNum (nz 0))) \/ (length p = 1 /\ (k = GNum (nz 20) \/ k = GNum (nz 10) \/ k = GNum (nz 30))).
Proof.
  intros H. apply key_at_dict in H. destruct H as [(-> & H)|(k1 & x & p' & -> & H & Hk)].
  - left. cbn in H. intuition congruence.
  - right. assert (X : exists l, x = CDict l /\ forall q y, In (q, y) l -> exists d, y = CArr d /\ (q = GNum (nz 20) \/ q = GNum (nz 10) \/ q = GNum (nz 30))).
    { destruct H as [H|[H|[]]]; inversion H; subst; eexists; (split; [reflexivity|]); intros q y Hq; 
        cbn [In] in Hq; repeat (destruct Hq as [Hq|Hq]; [inversion Hq; subst; eexists; split; [reflexivity|tauto]|]); contradiction. }
    destruct X as (l & -> & Hl). apply key_at_dict in Hk. destruct Hk as [(-> & Hk)|(k2 & y & p2 & -> & Hy & Hk)].
    + split; auto. apply in_map_iff in Hk. destruct Hk as ([q y] & <- & Hy). destruct (Hl q y Hy) as (d & _ & X). exact X.
    + exfalso. destruct (Hl k2 y Hy) as (d & -> & _). eapply key_at_arr; eauto.
Qed.
Example C53_pandas_example : let h := pd_hist pd_content in let o := {| t_count := true; t_effcount := false; t_error := false; t_normalized := false; t_recarray := false |} in
  hobj_ok h /\ Forall axis_fine (o_group h) /\ Forall axis_shown (o_fixed h) /\ comparable (o_content h) /\ real_groups (o_group h) (o_content h) /\
  exists F, pandas (fun x => x) exact_width (fun x => x) err_label EName (view h) o (plain_frac FNone) [] = Ok F /\
    f_names F = [Some "g"; Some "y"; Some "x"] /\ f_cols F = ["count()"] /\
    f_data F = map (fun z => [nz z]) [7; 8; 9; 4; 5; 6; 1; 2; 3]%Z /\
    nth 4 (f_index F) [] = [LKey (GNum (nz 1)); LIv (nz 10) (nz 20) true; LIv (nz 0) (nz 1) true].
Proof.
  cbn zeta. split; [repeat (ok_tac; cbn [snd map fst])|]. split.
  { constructor; [constructor|constructor; [|constructor]]. eapply (fine_groupbin "y" (qz 10) (qz 0) true true). reflexivity. }
  split. { constructor; [|constructor]. left. eapply (fine_bin "x" 2 (qz 0) (qz 2) true false false true); [reflexivity|lia|vm_compute; discriminate]. }
  split. { intros p k k' H1 H2. apply pd_keys in H1. apply pd_keys in H2. destruct H1 as [(E & H1)|(E & H1)], H2 as [(E2 & H2)|(E2 & H2)]; try (subst; discriminate);
    intuition (subst; reflexivity). }
  split.
  { intros p k a H E. cbn [pd_hist o_content] in H. apply pd_keys in H. destruct H as [(-> & H)|(El & H)].
    - cbn in E. inversion E; subst. destruct H as [-> | ->]; eexists (VNum _); (split; [|reflexivity]); discriminate.
    - rewrite El in E. cbn in E. inversion E; subst.
      assert (X : exists z, k = GNum (Fin (qz 0 + qz 10 * qz z)%Qc)).
      { destruct H as [-> |[-> | ->]]; [exists 2%Z|exists 1%Z|exists 3%Z]; f_equal; f_equal; apply Qc_is_canon; reflexivity. }
      destruct X as (z & ->). exists (VNum (Fin (qz 0 + qz 10 * qz z)%Qc)). split; [eexists; split; [reflexivity|left; reflexivity]|].
      left. exists (qz 0 + qz 10 * qz z)%Qc, z. split; auto. split; auto. split; [right; split; [auto|split; [auto|discriminate]]|left].
      cbn [nadd nltb]. generalize (qz 0 + qz 10 * qz z)%Qc. intros q. change (qltb q (q + qz 10)%Qc = true). apply qltb_iff; rewrite this_add, this_qz; unfold inject_Z; lra. }
  eexists. split; [vm_compute; reflexivity|]. split; [reflexivity|]. split; [reflexivity|]. split; num_tac.
Qed.

(** What [lists_places] gives for one bin: its row has its labels and numbers. *)
Theorem C53_each_bin_has_its_row groups fixed has tots numbers F ks ss : lists_places groups fixed has tots numbers F -> has ks -> Forall2 lt ss tots ->
  exists i row, nth_error (f_index F) i = Some row /\ describes groups fixed (ks, ss) row /\ nth_error (f_data F) i = Some (numbers (ks, ss)) /\
    forall j row', nth_error (f_index F) j = Some row' -> exists ks' ss', has ks' /\ Forall2 lt ss' tots /\ describes groups fixed (ks', ss') row' /\
      nth_error (f_data F) j = Some (numbers (ks', ss')) /\ (j < i -> before (ks', ss') (ks, ss)) /\ (i < j -> before (ks, ss) (ks', ss')).
Proof.
  intros (pl & H1 & H2 & H3 & H4 & _) Hk Hs. assert (Hi : In (ks, ss) pl) by (apply H1; auto). apply In_nth_error in Hi. destruct Hi as (i & Ei).
  assert (G : forall j q, nth_error pl j = Some q -> exists row, nth_error (f_index F) j = Some row /\ describes groups fixed q row).
  { clear - H3. induction H3 as [|q row ps rows H H3 IH]; intros j q' Hj; destruct j as [|j]; try discriminate; cbn in *; [inversion Hj; subst; eauto|eauto]. }
  assert (G' : forall j row, nth_error (f_index F) j = Some row -> exists q, nth_error pl j = Some q /\ describes groups fixed q row).
  { clear - H3. induction H3 as [|q row ps rows H H3 IH]; intros j q' Hj; destruct j as [|j]; try discriminate; cbn in *; [inversion Hj; subst; eauto|eauto]. }
  assert (S1 : forall a b x y, a < b -> nth_error pl a = Some x -> nth_error pl b = Some y -> before x y).
  { clear - H2. induction H2 as [|p l H IH Hp]; intros a b x y Hab Ha Hb; [destruct a; discriminate|]. destruct b as [|b]; [lia|]. destruct a as [|a]; cbn in Ha, Hb.
    - inversion Ha; subst. apply nth_error_In in Hb. rewrite Forall_forall in Hp. auto.
    - apply (IH a b); auto. lia. }
  destruct (G i _ Ei) as (row & Er & Dr). exists i, row. split; auto. split; auto. split; [rewrite H4; apply map_nth_error; auto|].
  intros j row' Ej. destruct (G' j row' Ej) as ([ks' ss'] & Eq & Dq). exists ks', ss'.
  assert (X : has ks' /\ Forall2 lt ss' tots) by (apply H1; eapply nth_error_In; eauto). destruct X as (X1 & X2).
  split; auto. split; auto. split; auto. split; [rewrite H4; apply (map_nth_error numbers); auto|].
  split; intros Hlt; [apply (S1 j i)|apply (S1 i j)]; auto.
Qed.
Print Assumptions C53_each_bin_has_its_row.

(** ** Fractions *)
(** [hist.pandas( *cuts)] for different cuts, where some fixed axis is not among them. *)
Theorem C53_pandas_fraction_lists_every_bin sqrt bin_width sigmas err_name parse h ot o cuts qs : hobj_ok h -> Forall nan_free_axis (o_group h ++ o_fixed h) -> o_prof h <> [] -> (o_filter h = None \/ o_weight h <> None) ->
  Forall axis_fine (o_group h) -> Forall axis_shown (o_fixed h) -> comparable (o_content h) -> real_groups (o_group h) (o_content h) ->
  cuts <> [] -> Forall2 (cut_number parse h) cuts qs -> (f_error o = FNone \/ f_error o = FNormal \/ f_error o = FWilson) ->
  let others := filter (fun x => negb (axis_in x cuts)) (o_fixed h) in others <> [] ->
  fraction_columns err_name o cuts <> [] -> has_dup (fraction_columns err_name o cuts) = false ->
  exists F, pandas sqrt bin_width sigmas err_name parse (view h) ot o cuts = Ok F /\ f_cols F = fraction_columns err_name o cuts /\
    lists_places (o_group h) others (has_group h) (map totbins others) (fun p => fraction_row sqrt sigmas h cuts qs o (fst p) (snd p)) F.
Proof. apply pandas_fraction_ok. Qed.
Print Assumptions C53_pandas_fraction_lists_every_bin.
Lemma no_keys_comparable c : (forall p k, ~ key_at c p k) -> comparable c.
Proof. intros H p k k' Hk. contradiction (H p k Hk). Qed.
Lemma no_keys_real g c : (forall p k, ~ key_at c p k) -> real_groups g c.
Proof. intros H p k a Hk. contradiction (H p k Hk). Qed.
Example C53_fraction_example : let h := ct_hist [pr_p] ct_content in
  hobj_ok h /\ Forall nan_free_axis (o_group h ++ o_fixed h) /\ Forall axis_shown (o_fixed h) /\ comparable (o_content h) /\ real_groups (o_group h) (o_content h) /\
  Forall2 (cut_number EName h) [ct_b] [2] /\ filter (fun x => negb (axis_in x [ct_b])) (o_fixed h) = [pr_x; ct_a] /\
  exists F, pandas (fun x => x) exact_width (fun x => x) err_label EName (view h) (plain_opts false false) (plain_frac FNone) [ct_b] = Ok F /\
    f_cols F = ["count()"; "b"] /\ f_names F = [Some "x"; Some "a"] /\
    f_index F = [[LIv (nz 0) (nz 1) true; LBool false]; [LIv (nz 0) (nz 1) true; LBool true]; [LIv (nz 1) (nz 2) true; LBool false]; [LIv (nz 1) (nz 2) true; LBool true]] /\
    f_data F = [[nz 3; Fin (qfrac 2 3)]; [nz 5; Fin (qfrac 2 5)]; [nz 0; nz 0]; [nz 0; nz 0]].
Proof.
  cbn zeta. split; [ok_tac|]. split; [repeat constructor|]. split.
  { constructor; [left; eapply (fine_bin "x" 2 (qz 0) (qz 2) false false false true); [reflexivity|lia|vm_compute; discriminate]|].
    constructor; [left; constructor|]. constructor; [left; constructor|constructor]. }
  split; [apply no_keys_comparable; intros; apply key_at_arr|]. split; [apply no_keys_real; intros; apply key_at_arr|].
  split. { constructor; [|constructor]. split; [reflexivity|]. split; [reflexivity|]. intros [|[|[|[|i]]]] a Ha Hc He; cbn in Ha; inversion Ha; subst; try discriminate; auto. }
  split; [reflexivity|]. eexists. split; [vm_compute; reflexivity|]. split; [reflexivity|]. split; [reflexivity|]. split; num_tac.
Qed.

(** ** Errors, and where the labels or numbers are not those of the bins *)
(** Axes of both kinds are refused. *)
Theorem C53_other_axes_refused sqrt bin_width sigmas err_name parse h ot of axes : forallb is_profile axes = false -> forallb is_cut axes = false ->
  pandas sqrt bin_width sigmas err_name parse h ot of axes = Err TypeError.
Proof. intros E1 E2. unfold pandas. rewrite E1, E2. reflexivity. Qed.
Print Assumptions C53_other_axes_refused.
(** A histogram without group and fixed axes cannot be exported. *)
Theorem C53_no_axes_refuted sqrt bin_width sigmas err_name parse h o of profs is : hobj_ok h -> o_group h = [] -> o_fixed h = [] ->
  Forall2 (profile_number h) profs is -> t_normalized o = false -> table_columns o profs <> [] -> has_dup (table_columns o profs) = false ->
  pandas sqrt bin_width sigmas err_name parse (view h) o of profs = Err ValueError.
Proof.
  intros Hok HG HF HP Hn Hc1 Hc2.
  destruct (table_ok_shape sqrt bin_width h (with_recarray o) profs is) as (T & E & _); auto.
  assert (Hpr : forallb is_profile profs = true).
  { apply forallb_forall. intros x Hx. destruct Hok as (_ & _ & Hp & _). rewrite Forall_forall in Hp. clear - HP Hx Hp. induction HP as [|p i ps is (X & _) H IH]; [contradiction|].
    destruct Hx as [->|Hx]; auto. apply Hp. eapply nth_error_In; eauto. }
  unfold pandas. cbn zeta. rewrite Hpr, E. cbn [bind]. change (o_fixed (p_head (view h))) with (o_fixed h). change (o_group (p_head (view h))) with (o_group h).
  rewrite HG, HF. reflexivity.
Qed.
Print Assumptions C53_no_axes_refuted.
(** Groups whose keys are numbers and strings, such as those of a groupbin axis with a NaN group and
    another one, cannot be exported. *)
Theorem C53_mixed_groups_refuted sqrt bin_width sigmas err_name parse h o of profs is k k' : hobj_ok h -> o_group h <> [] ->
  Forall2 (profile_number h) profs is -> t_normalized o = false -> table_columns o profs <> [] -> has_dup (table_columns o profs) = false ->
  key_at (o_content h) [] k -> key_at (o_content h) [] k' -> is_str k <> is_str k' ->
  pandas sqrt bin_width sigmas err_name parse (view h) o of profs = Err TypeError.
Proof.
  intros Hok HG HP Hn Hc1 Hc2 (l & El & Hk) (l' & El' & Hk') Hd. cbn in El, El'. inversion El as [E0]. rewrite E0 in El'. inversion El'; subst l'. clear El El'.
  destruct (table_ok_shape sqrt bin_width h (with_recarray o) profs is) as (T & E & (g & ET & _) & _); auto.
  assert (Hpr : forallb is_profile profs = true).
  { apply forallb_forall. intros x Hx. destruct Hok as (_ & _ & Hp & _). rewrite Forall_forall in Hp. clear - HP Hx Hp. induction HP as [|p i ps is (X & _) H IH]; [contradiction|].
    destruct Hx as [->|Hx]; auto. apply Hp. eapply nth_error_In; eauto. }
  unfold pandas. cbn zeta. rewrite Hpr, E. cbn [bind]. change (o_fixed (p_head (view h))) with (o_fixed h). change (o_group (p_head (view h))) with (o_group h).
  destruct Hok as (Hgr & _). destruct (o_group h) as [|a G] eqn:EG; [congruence|]. inversion Hgr as [|? ? Ha _]; subst. unfold make_frame. cbn [fst snd app index]. rewrite Ha.
  unfold started. rewrite E0. cbn [prefill]. rewrite tmap_dict.
  replace (map fst _) with (map fst l) by (rewrite map_map; reflexivity). rewrite (py_sorted_mixed (map fst l) k k'); auto.
Qed.
Print Assumptions C53_mixed_groups_refuted.
Example C53_mixed_example : let h := {| o_group := [pd_y]; o_fixed := []; o_prof := []; o_weight := None; o_filter := None; o_defs := []; o_attach := [];
    o_content := CDict [(GNum (nz 10), arr [1]%Z); (GStr "NaN", arr [2]%Z)] |} in
  hobj_ok h /\ key_at (o_content h) [] (GNum (nz 10)) /\ key_at (o_content h) [] (GStr "NaN") /\ comparable (o_content (with_content h (CDict [(GStr "NaN", arr [2]%Z)]))).
Proof.
  cbn zeta. split; [ok_tac|]. split; [eexists; split; [reflexivity|left; reflexivity]|]. split; [eexists; split; [reflexivity|right; left; reflexivity]|].
  intros p k k' H1 H2. cbn [o_content with_content] in *.
  assert (X : forall k, key_at (CDict [(GStr "NaN", arr [2]%Z)]) p k -> k = GStr "NaN").
  { intros q H. apply key_at_dict in H. destruct H as [(_ & [H|[]])|(k1 & x & p' & _ & [H|[]] & Hk)]; [cbn in H; congruence|inversion H; subst; contradiction (key_at_arr _ _ _ Hk)]. }
  rewrite (X k H1), (X k' H2). reflexivity.
Qed.
(** The label of an overflow bin says that the bin does not hold infinity, but it does. *)
Theorem C53_infinite_values_refuted : exists a l k, axis_fine a /\ fixed_labels a = Ok l /\ nth_error (keys a) 1 = Some k /\
  contains k PInf /\ exists lb, nth_error l 1 = Some lb /\ ~ label_holds lb PInf.
Proof.
  exists (ABin "x" 1 (nz 0) (nz 1) false true false true). do 2 eexists. split; [eapply (fine_bin "x" 1 (qz 0) (qz 1) false true false true); [reflexivity|lia|vm_compute; discriminate]|].
  split; [vm_compute; reflexivity|]. split; [vm_compute; reflexivity|]. split.
  - split; [left; reflexivity|right; auto]. repeat split. discriminate.
  - eexists. split; [reflexivity|]. intros (_ & [H|(H & _)]); discriminate.
Qed.
Print Assumptions C53_infinite_values_refuted.
(** When all fixed axes are the given cuts, the frame is refused, or with a group axis all its numbers
    are NaN. *)
Definition cut_hist_of (groups : list axis) (c : content) : hobj := {|
  o_group := groups; o_fixed := [ct_a]; o_prof := [pr_p]; o_weight := None; o_filter := None; o_defs := []; o_attach := []; o_content := c |}.
Theorem C53_all_cuts_refuted :
  (exists h, hobj_ok h /\ Forall2 (cut_number EName h) [ct_a] [0] /\
    pandas (fun x => x) exact_width (fun x => x) err_label EName (view h) (plain_opts false false) (plain_frac FNone) [ct_a] = Err ValueError) /\
  (exists h F, hobj_ok h /\ Forall2 (cut_number EName h) [ct_a] [0] /\ total_over h [ct_a] [GNum (nz 1)] [] = nz 5 /\
    pandas (fun x => x) exact_width (fun x => x) err_label EName (view h) (plain_opts false false) (plain_frac FNone) [ct_a] = Ok F /\
    f_cols F = ["count()"; "a"] /\ f_index F = [[LKey (GNum (nz 1))]] /\ f_data F = [[NaN; NaN]]).
Proof.
  assert (X : forall g c, Forall2 (cut_number EName (cut_hist_of g c)) [ct_a] [0]).
  { intros g c. constructor; [|constructor]. split; [reflexivity|]. split; [reflexivity|]. intros [|[|i]] a Ha Hc He; cbn in Ha; inversion Ha; subst; auto. }
  split.
  - exists (cut_hist_of [] (arr [0; 0; 3; 0; 0; 2]%Z)). split; [ok_tac|]. split; [apply X|]. vm_compute. reflexivity.
  - exists (cut_hist_of [pd_g] (CDict [(GNum (nz 1), arr [0; 0; 3; 0; 0; 2]%Z)])). eexists. split; [ok_tac|]. split; [apply X|]. split; [num_tac|].
    split; [vm_compute; reflexivity|]. split; [reflexivity|]. split; reflexivity.
Qed.
Print Assumptions C53_all_cuts_refuted.
(** A histogram with group axes that was never filled has no rows, and then all index levels but the
    first have no name. *)
Theorem C53_level_names_refuted sqrt bin_width sigmas err_name parse h o of profs is a b rest : hobj_ok h -> o_group h = a :: b :: rest -> o_content h = CNone ->
  Forall2 (profile_number h) profs is -> t_normalized o = false -> table_columns o profs <> [] -> has_dup (table_columns o profs) = false ->
  exists F, pandas sqrt bin_width sigmas err_name parse (view h) o of profs = Ok F /\ f_index F = [] /\
    nth_error (f_names F) 0 = Some (Some (axis_expr a)) /\ nth_error (f_names F) 1 = Some None.
Proof.
  intros Hok HG HN HP Hn Hc1 Hc2.
  destruct (table_ok_shape sqrt bin_width h (with_recarray o) profs is) as (T & E & (g & ET & _) & _); auto.
  assert (Hpr : forallb is_profile profs = true).
  { apply forallb_forall. intros x Hx. destruct Hok as (_ & _ & Hp & _). rewrite Forall_forall in Hp. clear - HP Hx Hp. induction HP as [|p i ps is (X & _) H IH]; [contradiction|].
    destruct Hx as [->|Hx]; auto. apply Hp. eapply nth_error_In; eauto. }
  unfold pandas. cbn zeta. rewrite Hpr, E. cbn [bind]. change (o_fixed (p_head (view h))) with (o_fixed h). change (o_group (p_head (view h))) with (o_group h).
  destruct Hok as (Hgr & _). rewrite HG in Hgr. inversion Hgr as [|? ? Ha _]; subst. unfold make_frame, started. rewrite HN, HG. cbn [prefill length Nat.eqb fst snd]. rewrite tmap_dict. cbn [map app index]. rewrite Ha.
  eexists. split; [reflexivity|]. split; [reflexivity|]. split; reflexivity.
Qed.
Print Assumptions C53_level_names_refuted.
