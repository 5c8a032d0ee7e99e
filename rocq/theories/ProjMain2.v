(** Projection of histograms. *)
From Coq Require Import String Permutation.
From Verif Require Import Base Num NumFacts Axis Calc Content Fill FillSpec FillProofs FillProofs2 FillProofs3 FillMain
  HistAlg AlgSpec HistAlgProofs HistAlgMain Nd NdProofs Proj ProjSpec ProjProofs ProjMain.
Local Open Scope list_scope.

Lemma projected_cell keepg keepf L n x y ks ss j : length keepf = length (l_tots L) -> projected keepg keepf L n x y ->
  in_shape (layout_keep keepf L) ss -> j < l_last L ->
  cell (layout_keep keepf L) y ks ss j =
  nsum (map (fun p => nsum (map (fun ss' => cell L x p ss' j) (slots_over keepf (l_tots L) ss))) (keys_over keepg (paths n x) ks)).
Proof.
  intros Hf (_ & H & _) Hs Hj. rewrite cell_at, H. f_equal. apply map_ext. intros p. unfold proj_block.
  destruct (block x p) as [d|] eqn:E; cbn [option_map at_].
  - rewrite proj_data_cell by auto. f_equal. apply map_ext. intros ss'. unfold cell. rewrite E. reflexivity.
  - symmetry. apply nsum_zero. intros z Hz. apply in_map_iff in Hz. destruct Hz as (ss' & <- & _). unfold cell. rewrite E. reflexivity.
Qed.

(** ** Axes of the projected histogram *)
Lemma filter_all {A} (p : A -> bool) l : Forall (fun x => p x = true) l -> filter p l = l.
Proof. induction 1 as [|x l Hx]; cbn [filter]; auto. rewrite Hx, IHForall. reflexivity. Qed.
Lemma filter_none {A} (p : A -> bool) l : Forall (fun x => p x = false) l -> filter p l = [].
Proof. induction 1 as [|x l Hx]; cbn [filter]; auto. rewrite Hx. auto. Qed.
Lemma Forall_filter {A} (P : A -> Prop) q l : Forall P l -> Forall P (filter q l).
Proof. intros H. apply Forall_forall. intros x Hx. apply filter_In in Hx. rewrite Forall_forall in H. apply H. tauto. Qed.
Lemma kinds (a : axis) : (is_group a = true -> is_fixed a = false /\ is_profile a = false) /\
  (is_fixed a = true -> is_group a = false /\ is_profile a = false) /\ (is_profile a = true -> is_group a = false /\ is_fixed a = false).
Proof. destruct a; cbn; intuition congruence. Qed.
Lemma sort_axes G F P : Forall (fun a => is_group a = true) G -> Forall (fun a => is_fixed a = true) F ->
  Forall (fun a => is_profile a = true) P ->
  filter is_group (G ++ F ++ P) = G /\ filter is_fixed (G ++ F ++ P) = F /\ filter is_profile (G ++ F ++ P) = P.
Proof.
  intros HG HF HP. rewrite !filter_app.
  assert (forall (p q : axis -> bool) l, (forall a, p a = true -> q a = false) -> Forall (fun a => p a = true) l -> filter q l = []) as G0.
  { intros p q l H Hl. apply filter_none. eapply Forall_impl; [|exact Hl]. cbn. auto. }
  rewrite (filter_all is_group G), (filter_all is_fixed F), (filter_all is_profile P) by auto.
  rewrite (G0 is_fixed is_group F), (G0 is_profile is_group P), (G0 is_group is_fixed G), (G0 is_profile is_fixed P), (G0 is_group is_profile G), (G0 is_fixed is_profile F);
    try (intros a Ha; destruct (kinds a) as (K1 & K2 & K3); tauto); auto. rewrite !app_nil_r. auto.
Qed.
Lemma map_filter_select {A B} (f : A -> B) p l : map f (filter p l) = select (map p l) (map f l).
Proof. induction l as [|x l IH]; cbn [filter map select]; auto. destruct (p x); cbn [map]; congruence. Qed.
Lemma trues_filter {A} (p : A -> bool) l : trues (map p l) = length (filter p l).
Proof. unfold trues. induction l as [|x l IH]; cbn [map filter]; auto. destruct (p x); cbn [length]; congruence. Qed.

Definition proj_head (h : hobj) (axes : list axis) (c : content) : hobj := {|
  o_group := filter (fun x => axis_in x axes) (o_group h); o_fixed := filter (fun x => axis_in x axes) (o_fixed h);
  o_prof := o_prof h; o_weight := o_weight h; o_filter := o_filter h; o_defs := o_defs h; o_attach := o_attach h;
  o_content := c |}.
Lemma proj_head_layout h axes c : o_layout (proj_head h axes c) = layout_keep (keep_of axes (o_fixed h)) (o_layout h).
Proof. unfold o_layout, layout_keep, keep_of, proj_head; cbn. rewrite map_filter_select. reflexivity. Qed.
Lemma keep_length axes h : length (keep_of axes (o_fixed h)) = length (l_tots (o_layout h)).
Proof. unfold keep_of, o_layout; cbn. rewrite !map_length. reflexivity. Qed.
Lemma rebuild_proj h axes : hobj_ok h ->
  rebuild h (filter (fun x => axis_in x axes) (o_group h ++ o_fixed h) ++ o_prof h) = proj_head h axes CNone.
Proof.
  intros (HG & HF & HP & _). unfold rebuild, proj_head. rewrite (filter_app _ (o_group h) (o_fixed h)), <- app_assoc.
  destruct (sort_axes (filter (fun x => axis_in x axes) (o_group h)) (filter (fun x => axis_in x axes) (o_fixed h)) (o_prof h)) as (-> & -> & ->);
    auto using Forall_filter.
Qed.
Lemma embed_content_not_none L n c : content_ok L n c -> embed L c <> PNone.
Proof. destruct n, c; cbn; try contradiction; discriminate. Qed.
Lemma project_kept h axes c : hobj_ok h -> content_ok (o_layout h) (length (o_group h)) (o_content h) ->
  all_in axes (o_group h ++ o_fixed h) = true ->
  projcontent (keep_of axes (o_group h)) (keep_of axes (o_fixed h)) (embed (o_layout h) (o_content h)) =
    Ok (embed (layout_keep (keep_of axes (o_fixed h)) (o_layout h)) c) ->
  project (view h) axes = Ok (view (proj_head h axes c)).
Proof.
  intros Ok Hc Ha E. unfold project, view; cbn [p_head p_content o_group o_fixed o_prof with_content].
  rewrite Ha. cbn [negb]. pose proof (embed_content_not_none _ _ _ Hc) as Hn.
  change (rebuild (with_content h CNone)) with (rebuild h). rewrite (rebuild_proj h axes Ok).
  destruct (embed (o_layout h) (o_content h)) eqn:Ee; try congruence; unfold keep_of in E; rewrite E; cbn [bind];
    rewrite proj_head_layout; reflexivity.
Qed.
Lemma project_empty h axes : hobj_ok h -> o_content h = CNone -> all_in axes (o_group h ++ o_fixed h) = true ->
  project (view h) axes = Ok (view (proj_head h axes CNone)).
Proof.
  intros Ok Hc Ha. unfold project, view; cbn [p_head p_content o_group o_fixed o_prof with_content]. rewrite Ha, Hc. cbn [negb embed].
  change (rebuild (with_content h CNone)) with (rebuild h). rewrite (rebuild_proj h axes Ok). reflexivity.
Qed.

Lemma all_in_incl B A : all_in B A = true -> forall x, axis_in x B = true -> axis_in x A = true.
Proof.
  unfold all_in, axis_in. intros H x Hx. apply existsb_exists in Hx. destruct Hx as (b & Hb & E).
  apply axis_eqb_eq in E. subst b. rewrite forallb_forall in H. apply H; auto.
Qed.

(** ** C35 and C37, cells *)
Lemma lists_perm L n c P : content_ok L n c -> lists_blocks c P -> Permutation P (paths n c).
Proof.
  intros Hc (Hn & HP). apply NoDup_Permutation; auto; [eapply paths_nodup; eauto|].
  intros p. rewrite HP. symmetry. eapply paths_spec; eauto.
Qed.
Lemma filter_perm {A} (p : A -> bool) l m : Permutation l m -> Permutation (filter p l) (filter p m).
Proof. induction 1; cbn [filter]; auto; try (destruct (p x); auto); try (destruct (p y); auto using perm_swap); eauto using perm_trans. Qed.

Lemma project_cells h axes : hobj_ok h -> all_in axes (o_group h ++ o_fixed h) = true ->
  power_groups (keep_of axes (o_group h)) (o_content h) ->
  exists c, let g := proj_head h axes c in project (view h) axes = Ok (view g) /\ hobj_ok g /\
    (forall P ks ss kd, lists_blocks (o_content h) P -> in_shape (o_layout g) ss -> has_column (o_layout g) kd ->
       hcell g ks ss kd =
       nsum (map (fun p => nsum (map (fun ss' => hcell h p ss' kd) (slots_over (keep_of axes (o_fixed h)) (l_tots (o_layout h)) ss)))
                 (keys_over (keep_of axes (o_group h)) P ks))) /\
    (forall P ks, lists_blocks (o_content h) P -> has_block g ks <-> exists p, In p (keys_over (keep_of axes (o_group h)) P ks)).
Proof.
  intros Hok Ha Hp. destruct (Hok) as (HG & HF & HP & [Hc|Hc]).
  - exists CNone. cbn zeta. split; [apply project_empty; auto|]. split.
    { repeat split; cbn; auto using Forall_filter. left; auto. }
    assert (E : forall P, lists_blocks (o_content h) P -> P = []).
    { intros [|p P] (_ & H); auto. exfalso. apply (H p); [left; auto|]. rewrite Hc. apply block_none. }
    split.
    + intros P ks ss kd Hl _ _. rewrite (E P Hl). cbn. unfold hcell, cell; cbn. rewrite block_none. reflexivity.
    + intros P ks Hl. rewrite (E P Hl). unfold has_block; cbn. rewrite block_none. split; [congruence|]. intros (p & []).
  - assert (Lg : length (keep_of axes (o_group h)) = length (o_group h)) by apply map_length.
    destruct (projcontent_embed (keep_of axes (o_fixed h)) (o_layout h) (keep_length axes h) (keep_of axes (o_group h)) (o_content h)) as (y & E & Hy);
      [rewrite Lg; auto|auto|]. rewrite Lg in Hy.
    exists y. cbn zeta. split; [apply project_kept; auto|]. split; [|split].
    + split; [cbn; auto using Forall_filter|]. split; [cbn; auto using Forall_filter|]. split; [cbn; auto|]. right.
      rewrite proj_head_layout. cbn. destruct Hy as (Hy & _). unfold keep_of in Hy at 2. rewrite trues_filter in Hy. exact Hy.
    + intros P ks ss kd Hl Hs Hk. unfold hcell. rewrite proj_head_layout in *. cbn [o_content proj_head].
      replace (column_of (layout_keep (keep_of axes (o_fixed h)) (o_layout h)) kd) with (column_of (o_layout h) kd) by (destruct kd; reflexivity).
      rewrite (projected_cell (keep_of axes (o_group h)) _ _ (length (o_group h)) (o_content h)); auto using keep_length.
      * apply nsum_perm. apply Permutation_map. apply filter_perm. symmetry. eapply lists_perm; eauto.
      * apply column_lt. destruct kd; exact Hk.
    + intros P ks Hl. unfold has_block; cbn [o_content proj_head]. destruct Hy as (_ & _ & Hy). rewrite Hy.
      pose proof (lists_perm _ _ _ _ Hc Hl) as Pm.
      split; intros (p & Hin); exists p; eapply Permutation_in; try exact Hin; apply filter_perm; auto. symmetry; auto.
Qed.
