(** The frames of tables and fractions. *)
From Coq Require Import String Permutation Sorted.
From Verif Require Import Base Num NumFacts Axis AxisSpec Calc Content Fill FillSpec FillProofs FillProofs2 FillProofs3 FillMain
  Tree Order Expr ExprFacts Instr InstrSpec Elem HistFill HistSpec KeySpec HistAlg AlgSpec HistAlgProofs HistAlgMain
  CompareProofs Nd NdProofs Proj ProjSpec ProjProofs ProjMain ProjMain2 ProjFill ProjLaws ProjGroup ProjDrop
  Select Table TableSpec TableProofs FracProofs Pandas PandasSpec PandasProofs.
Local Open Scope list_scope.

Lemma started_key h p k : key_at (started h) p k -> key_at (o_content h) p k.
Proof.
  unfold started. destruct (o_content h) as [|d|l]; auto. cbn [prefill]. intros (l & E & H). exfalso.
  destruct (Nat.eqb (length (o_group h)) 0); destruct p; cbn in E; try discriminate. inversion E; subst. contradiction.
Qed.
Lemma started_comparable h : comparable (o_content h) -> comparable (started h).
Proof. intros H p k k' H1 H2. apply (H p); apply started_key; auto. Qed.
Lemma started_real h groups : real_groups groups (o_content h) -> real_groups groups (started h).
Proof. intros H p k a H1 H2. apply (H p k a); auto. apply started_key; auto. Qed.

Lemma lists_places_ext groups fixed has has' tots n n' F : (forall ks, has ks <-> has' ks) -> (forall ks ss, has ks -> Forall2 lt ss tots -> n (ks, ss) = n' (ks, ss)) ->
  lists_places groups fixed has tots n F -> lists_places groups fixed has' tots n' F.
Proof.
  intros Hh Hn (pl & H1 & H2 & H3 & H4 & H5). exists pl. split; [intros ks ss; rewrite H1, Hh; reflexivity|]. split; auto. split; auto. split; auto.
  rewrite H4. apply map_ext_in. intros [ks ss] Hi. apply H1 in Hi. destruct Hi. apply Hn; auto.
Qed.

Lemma table_frame h F T g cols numbers : hobj_ok h -> Forall axis_fine (o_group h) -> Forall axis_shown F -> Forall (fun a => is_fixed a = true) F ->
  o_group h ++ F <> [] -> comparable (o_content h) -> real_groups (o_group h) (o_content h) ->
  let tots := map totbins F in let k := length cols in
  T = tmap (tots ++ [k]) g (started h) -> (forall d, length (g d) = prodn tots * k) ->
  (forall ks ss, has_group h ks -> Forall2 lt ss tots -> bin_row T ks ss = Some (numbers (ks, ss))) ->
  exists Fm, make_frame (no_axes F) (o_group h ++ F) (T, cols) = Ok Fm /\ f_cols Fm = cols /\
    lists_places (o_group h) F (has_group h) tots numbers Fm.
Proof.
  intros Hok HG HF Hfix Hne Hcmp Hre tots k -> Hg Hrow. destruct (Hok) as (Hgr & _).
  destruct (index_groups (o_layout h) (tots ++ [k]) g F HF Hfix (o_group h) HG Hgr (started h) []) as (r & Er & Hr).
  { apply started_ok; auto. } { apply started_comparable; auto. } { apply started_real; auto. }
  unfold make_frame. cbn [fst snd]. rewrite Er. cbn [bind].
  destruct (to_frame_ok (o_group h) F (started h) g cols r HF Hfix Hne) as (Fm & E & Ec & Hl); auto.
  exists Fm. split; auto. split; auto. eapply lists_places_ext; [| |exact Hl]; cbn beta.
  - intros ks. apply started_group; auto.
  - intros ks ss Hb Hs. cbn [fst snd]. assert (Hgk : has_group h ks) by (apply started_group; auto).
    specialize (Hrow ks ss Hgk Hs). unfold bin_row in Hrow. rewrite table_block_tmap in Hrow.
    unfold block_data. destruct (block (started h) ks) as [d|] eqn:E1; [|congruence]. cbn [option_map] in Hrow. rewrite last_last in Hrow. assert (Hrow2 := f_equal (fun o => match o with Some x => x | None => [] end) Hrow). exact Hrow2.
Qed.

Section Main.
  Variables (sqrt : Num -> Num) (bin_width : nat -> Num -> Num -> Num) (sigmas : Num -> Num)
            (err_name : string -> Num -> string) (parse : string -> expr).
  Lemma pandas_table_ok h o of profs is : hobj_ok h -> Forall axis_fine (o_group h) -> Forall axis_shown (o_fixed h) ->
    o_group h ++ o_fixed h <> [] -> comparable (o_content h) -> real_groups (o_group h) (o_content h) ->
    Forall2 (profile_number h) profs is -> t_normalized o = false -> table_columns o profs <> [] -> has_dup (table_columns o profs) = false ->
    exists F, pandas sqrt bin_width sigmas err_name parse (view h) o of profs = Ok F /\ f_cols F = table_columns o profs /\
      lists_places (o_group h) (o_fixed h) (has_group h) (map totbins (o_fixed h))
        (fun p => expected_row sqrt h (fst p) (snd p) (t_count o) (t_effcount o) (t_error o) is) F.
  Proof.
    intros Hok HG HF Hne Hcmp Hre HP Hn Hc1 Hc2.
    destruct (table_ok_shape sqrt bin_width h (with_recarray o) profs is) as (T & E & (g & ET & Hg) & _ & Hrow); auto.
    change (table_columns (with_recarray o) profs) with (table_columns o profs) in *.
    assert (Hpr : forallb is_profile profs = true).
    { apply forallb_forall. intros x Hx. destruct Hok as (_ & _ & Hp & _). rewrite Forall_forall in Hp. clear - HP Hx Hp. induction HP as [|p i ps is (X & _) H IH]; [contradiction|].
      destruct Hx as [->|Hx]; auto. apply Hp. eapply nth_error_In; eauto. }
    unfold pandas. cbn zeta. rewrite Hpr, E. cbn [bind]. change (o_fixed (p_head (view h))) with (o_fixed h). change (o_group (p_head (view h))) with (o_group h).
    destruct (Hok) as (_ & Hfix & _).
    apply (table_frame h (o_fixed h) T g); auto.
  Qed.

  Lemma fraction_axes_ok h cuts : hobj_ok h -> Forall nan_free_axis (o_group h ++ o_fixed h) -> o_prof h <> [] -> (o_filter h = None \/ o_weight h <> None) ->
    Forall (fun c => is_cut c = true) cuts -> fraction_axes (view h) cuts = Ok (o_group h ++ filter (fun x => negb (axis_in x cuts)) (o_fixed h)).
  Proof.
    intros Hok Hnan Hp Hw Hcuts. set (h1 := with_content h (started h)).
    assert (Hok1 : hobj_ok h1).
    { destruct (Hok) as (HG & HF & HP & _). split; [|split; [|split]]; auto. right. apply (started_ok h Hok). }
    destruct (Hok) as (_ & _ & HP & _).
    assert (Hself : forall p, In p (o_prof h) -> axis_in p (o_prof h) = true).
    { intros p Hi. apply existsb_exists. exists p. split; auto. apply axis_eqb_refl. rewrite Forall_forall in HP. specialize (HP p Hi). destruct p; try discriminate; exact I. }
    destruct (drop_all h1 (o_prof h)) as (c & Ed & Hokw & _); auto.
    { apply forallb_forall. auto. } { apply Forall_forall. auto. }
    cbn zeta in *. set (w := without_profiles h1 c) in *.
    destruct (denominator_ok w Hokw Hnan cuts Hcuts) as (Pd & _).
    unfold fraction_axes. cbn zeta. change (p_head (view h)) with (with_content h CNone). cbn [o_fixed o_group o_prof with_content].
    rewrite pprefill_view. change (PH (with_content h CNone) (embed (o_layout h) (started h))) with (view h1). rewrite Ed. cbn [bind].
    change (o_group h ++ o_fixed h) with (o_group w ++ o_fixed w). fold (axes_but cuts (o_group w ++ o_fixed w)). rewrite Pd. cbn [bind].
    change (o_group w ++ o_fixed w) with (o_group h ++ o_fixed h) in *.
    f_equal. change (p_head (view (denominator w cuts))) with (with_content (denominator w cuts) CNone). cbn [denominator proj_hist proj_head o_group o_fixed with_content].
    change (o_group w) with (o_group h). change (o_fixed w) with (o_fixed h). unfold axes_but.
    assert (X : forall x, In x (o_group h ++ o_fixed h) -> axis_in x (filter (fun x => negb (axis_in x cuts)) (o_group h ++ o_fixed h)) = negb (axis_in x cuts)).
    { intros x Hx. apply (axis_in_filter x (fun x => negb (axis_in x cuts))); auto. rewrite Forall_forall in Hnan; auto. }
    f_equal.
    - apply filter_all. apply Forall_forall. intros x Hx. rewrite X by (apply in_or_app; auto). rewrite (group_not_cut h cuts x); auto.
    - apply filter_ext_in. intros x Hx. apply X. apply in_or_app; auto.
  Qed.

  Lemma select_filter {A B} (f : A -> bool) (g : A -> B) l : select (map f l) (map g l) = map g (filter f l).
  Proof. induction l as [|x l IH]; auto. cbn [map filter]. destruct (f x); cbn [select map]; rewrite IH; auto. Qed.

  Lemma pandas_fraction_ok h ot o cuts qs : hobj_ok h -> Forall nan_free_axis (o_group h ++ o_fixed h) -> o_prof h <> [] -> (o_filter h = None \/ o_weight h <> None) ->
    Forall axis_fine (o_group h) -> Forall axis_shown (o_fixed h) -> comparable (o_content h) -> real_groups (o_group h) (o_content h) ->
    cuts <> [] -> Forall2 (cut_number parse h) cuts qs -> (f_error o = FNone \/ f_error o = FNormal \/ f_error o = FWilson) ->
    let others := filter (fun x => negb (axis_in x cuts)) (o_fixed h) in others <> [] ->
    fraction_columns err_name o cuts <> [] -> has_dup (fraction_columns err_name o cuts) = false ->
    exists F, pandas sqrt bin_width sigmas err_name parse (view h) ot o cuts = Ok F /\ f_cols F = fraction_columns err_name o cuts /\
      lists_places (o_group h) others (has_group h) (map totbins others) (fun p => fraction_row sqrt sigmas h cuts qs o (fst p) (snd p)) F.
  Proof.
    intros Hok Hnan Hp Hw HG HF Hcmp Hre Hne HC He others Ho Hc1 Hc2.
    assert (Hcuts : Forall (fun c => is_cut c = true) cuts).
    { clear - HC. induction HC as [|x q cs qs (X & _) H IH]; constructor; auto. }
    destruct (fraction_ok_shape sqrt sigmas err_name parse h (with_frecarray o) cuts qs) as (T & E & (g & ET & Hg) & _ & Hrow); auto.
    change (fraction_columns err_name (with_frecarray o) cuts) with (fraction_columns err_name o cuts) in *.
    unfold pandas. cbn zeta.
    assert (X1 : forallb is_profile cuts = false).
    { destruct cuts as [|c cs]; [congruence|]. inversion Hcuts; subst. destruct c; try discriminate. reflexivity. }
    assert (X2 : forallb is_cut cuts = true) by (apply forallb_forall; rewrite Forall_forall in Hcuts; auto).
    rewrite X1, X2, E. cbn [bind]. rewrite fraction_axes_ok by auto. cbn [bind]. fold others. change (o_fixed (p_head (view h))) with (o_fixed h).
    assert (Hsel : select (other_axes cuts h) (l_tots (o_layout h)) = map totbins others) by (unfold other_axes, o_layout; cbn [l_tots]; apply select_filter).
    destruct (Hok) as (_ & Hfix & _).
    replace (no_axes (o_fixed h)) with (no_axes others).
    2:{ unfold others in *. destruct (o_fixed h) as [|a f]; [contradiction|]. cbn [no_axes]. destruct (filter _ (a :: f)); [contradiction|reflexivity]. }
    rewrite Hsel in ET, Hg. apply (table_frame h others T g); auto.
    - unfold others. apply Forall_forall. intros x Hx. apply filter_In in Hx. rewrite Forall_forall in HF. apply HF. tauto.
    - unfold others. apply Forall_forall. intros x Hx. apply filter_In in Hx. rewrite Forall_forall in Hfix. apply Hfix. tauto.
    - destruct (o_group h); cbn; [auto|discriminate].
    - intros ks ss Hk Hs. apply Hrow; auto. unfold in_shape, layout_keep. cbn [l_tots]. rewrite Hsel. auto.
  Qed.
End Main.
