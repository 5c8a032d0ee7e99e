(** Dropping profiles: right when all profiles are dropped and there is no filter without a weight. *)
From Coq Require Import String Permutation.
From Verif Require Import Base Num NumFacts Axis Calc Content Fill FillSpec FillProofs FillProofs2 FillProofs3 FillMain
  HistAlg AlgSpec HistAlgProofs HistAlgMain Nd NdProofs Proj ProjSpec ProjProofs ProjMain ProjMain2 ProjFill ProjLaws.
Local Open Scope list_scope.

Definition drop_data (index : list nat) (L : layout) (d : list Num) : list Num := snd (alast index (l_shape L) d).
(** The shape of the arrays that drop leaves. *)
Definition drop_shape (index : list nat) (L : layout) : list nat := l_tots L ++ [length index].
Lemma alast_shape index L d : fst (alast index (l_shape L) d) = drop_shape index L.
Proof. unfold alast, l_shape; cbn [fst]. rewrite removelast_last. reflexivity. Qed.
Lemma drop_data_length index L d : length (drop_data index L d) = prod (drop_shape index L).
Proof. rewrite <- (alast_shape index L d). unfold drop_data, alast; cbn [fst snd]. apply anew_length. Qed.
Lemma drop_data_cell index L d ss j : in_shape L ss -> j < length index ->
  nth (ravel (l_tots L) ss * length index + j) (drop_data index L d) nzero =
  nth (ravel (l_tots L) ss * l_last L + nth j index 0) d nzero.
Proof.
  intros Hs Hj. assert (Hl : length ss = length (l_tots L)) by (eapply Forall2_length; eauto).
  rewrite <- ravel_last by auto. rewrite <- (ravel_last (l_tots L) (l_last L)) by auto.
  change (aget (drop_shape index L) (drop_data index L d) (ss ++ [j]) = aget (l_shape L) d (ss ++ [nth j index 0])).
  unfold drop_data, alast; cbn [snd]. unfold l_shape at 1. rewrite removelast_last. fold (drop_shape index L).
  rewrite aget_anew; [rewrite removelast_last, last_last; reflexivity|]. apply Forall2_app; [exact Hs|constructor; auto].
Qed.

Lemma dropcontent_embed index L L' n : l_tots L' = l_tots L -> l_last L' = length index -> Forall (fun i => i < l_last L) index ->
  forall c, content_ok L n c ->
    dropcontent (length (l_shape L)) index (embed L c) = Ok (embed L' (cmap (drop_data index L) c)).
Proof.
  intros HT HL HI. induction n as [|n IH]; intros [|d|l] Hc; try contradiction.
  - cbn [embed dropcontent cmap]. rewrite Nat.eqb_refl. cbn [andb].
    replace (forallb (fun i => Nat.ltb i (last (l_shape L) 0)) index) with true.
    + rewrite alast_shape. unfold drop_shape, l_shape. rewrite HT, HL. reflexivity.
    + symmetry. apply forallb_forall. intros i Hi. unfold l_shape. rewrite last_last. apply Nat.ltb_lt. rewrite Forall_forall in HI. auto.
  - rewrite embed_dict, cmap_dict, embed_dict. cbn [dropcontent]. destruct Hc as (Hc & _).
    assert (E : proj_items (dropcontent (length (l_shape L)) index) (map (fun kv => (fst kv, embed L (snd kv))) l) =
      Ok (map (fun kv => (fst kv, embed L' (cmap (drop_data index L) (snd kv)))) l)).
    { induction Hc as [|[k x] l Hx Hl IHl]; auto. cbn [map proj_items fst snd] in *. rewrite IH by auto. cbn [bind].
      fold (proj_items (dropcontent (length (l_shape L)) index)). rewrite IHl. reflexivity. }
    rewrite E. cbn [rmap bind]. rewrite map_map. reflexivity.
Qed.

Definition without_profiles (h : hobj) (c : content) : hobj := {|
  o_group := o_group h; o_fixed := o_fixed h; o_prof := []; o_weight := o_weight h; o_filter := o_filter h;
  o_defs := o_defs h; o_attach := o_attach h; o_content := c |}.

Lemma block_cmap f c : forall ks, block (cmap f c) ks = option_map f (block c ks).
Proof.
  induction c as [|d|l H] using content_ind'; intros ks.
  - cbn [cmap]. rewrite block_none. reflexivity.
  - destruct ks; reflexivity.
  - rewrite cmap_dict. destruct ks as [|k ks]; auto. cbn [block]. rewrite assoc_map. destruct (assoc k l) as [x|] eqn:E; cbn [option_map]; auto.
    apply assoc_in in E. rewrite Forall_forall in H. apply (H _ E).
Qed.

Lemma drop_all_shape h dropped : hobj_ok h -> dropped <> [] -> all_in dropped (o_prof h) = true ->
  Forall (fun p => axis_in p dropped = true) (o_prof h) -> (o_filter h = None \/ o_weight h <> None) ->
  exists c, let g := without_profiles h c in drop (view h) dropped = Ok (view g) /\ (exists f, c = cmap f (o_content h)) /\ hobj_ok g /\
    (forall ks, has_block g ks <-> has_block h ks) /\
    forall ks ss kd, in_shape (o_layout h) ss -> has_column (o_layout g) kd -> hcell g ks ss kd = hcell h ks ss kd.
Proof.
  intros Hok Hne Hin Hall Hw. destruct (Hok) as (HG & HF & HP & HC).
  assert (Hi : drop_index h dropped = [2 * length (o_prof h)] ++ match o_weight h with Some _ => [2 * length (o_prof h) + 1] | None => [] end).
  { unfold drop_index. replace (filter _ _) with (@nil (nat * axis)); [reflexivity|]. symmetry. apply filter_none.
    apply Forall_forall. intros [i a] Hp. apply in_combine_r in Hp. cbn [snd]. rewrite Forall_forall in Hall. rewrite Hall; auto. }
  assert (Hr : rebuild h (o_group h ++ o_fixed h ++ filter (fun x => negb (axis_in x dropped)) (o_prof h)) = without_profiles h CNone).
  { rewrite (filter_none (fun x => negb (axis_in x dropped))) by (eapply Forall_impl; [|exact Hall]; cbn; intros a ->; auto).
    unfold rebuild, without_profiles. destruct (sort_axes (o_group h) (o_fixed h) []) as (-> & -> & ->); auto. }
  assert (LL : l_last (o_layout (without_profiles h CNone)) = length (drop_index h dropped)).
  { rewrite Hi. unfold l_last, o_layout; cbn. destruct (o_weight h), (o_filter h); cbn; auto. destruct Hw; congruence. }
  assert (HI : Forall (fun i => i < l_last (o_layout h)) (drop_index h dropped)).
  { rewrite Hi. unfold l_last, o_layout; cbn [l_nprof l_weighted]. apply Forall_forall. intros i Hi'. apply in_app_or in Hi'.
    destruct (o_weight h), (o_filter h); cbn [In] in Hi'; lia. }
  assert (ED : drop (view h) dropped = match embed (o_layout h) (o_content h) with PNone => Ok (PH (without_profiles h CNone) PNone)
    | c => do c' <- dropcontent (length (l_shape (o_layout h))) (drop_index h dropped) c; Ok (PH (without_profiles h CNone) c') end).
  { unfold drop. destruct dropped as [|p ps]; [congruence|]. unfold view; cbn [p_head p_content o_group o_fixed o_prof with_content].
    rewrite Hin. cbn [negb]. change (rebuild (with_content h CNone)) with (rebuild h). rewrite Hr.
    change (o_layout (with_content h CNone)) with (o_layout h). change (drop_index (with_content h CNone)) with (drop_index h). reflexivity. }
  destruct HC as [Hc|Hc].
  - exists CNone. cbn zeta. rewrite ED, Hc. cbn [embed]. split; [reflexivity|]. split; [exists (fun d => d); reflexivity|]. split; [|split].
    + split; [|split; [|split]]; auto; [constructor|left; auto].
    + intros ks. unfold has_block. rewrite Hc. reflexivity.
    + intros ks ss kd _ _. unfold hcell, cell. rewrite Hc. cbn [o_content without_profiles]. rewrite !block_none. reflexivity.
  - exists (cmap (drop_data (drop_index h dropped) (o_layout h)) (o_content h)). cbn zeta.
    set (c' := cmap _ _). set (g := without_profiles h c').
    assert (Lg : o_layout g = o_layout (without_profiles h CNone)) by reflexivity.
    split; [|split; [eexists; reflexivity|split; [|split]]].
    + rewrite ED. pose proof (embed_content_not_none _ _ _ Hc) as Hn.
      pose proof (dropcontent_embed (drop_index h dropped) (o_layout h) (o_layout g) (length (o_group h)) eq_refl LL HI _ Hc) as De.
      destruct (embed (o_layout h) (o_content h)); try congruence; rewrite De; reflexivity.
    + split; [|split; [|split]]; auto; [constructor|]. right. cbn [o_group g without_profiles]. rewrite Lg. cbn [o_content].
      eapply cmap_ok; [|exact Hc]. intros d _. rewrite drop_data_length, <- prod_shape. unfold drop_shape, l_shape. rewrite <- LL. reflexivity.
    + intros ks. unfold has_block. cbn [o_content g without_profiles]. unfold c'. rewrite block_cmap. destruct (block (o_content h) ks); cbn; split; congruence.
    + intros ks ss kd Hs Hk. unfold hcell, cell. cbn [o_content g without_profiles]. unfold c'. rewrite block_cmap.
      destruct (block (o_content h) ks) as [d|]; cbn [option_map]; auto.
      change (l_tots (o_layout g)) with (l_tots (o_layout h)). rewrite Lg, LL.
      pose proof (column_lt (o_layout g) kd Hk) as Hj. rewrite Lg, LL in Hj. rewrite drop_data_cell by auto. f_equal. f_equal.
      rewrite Hi. unfold o_layout; destruct kd; cbn [column_of l_nprof without_profiles o_prof length app] in *.
      * exfalso. cbn in Hk. lia.
      * exfalso. cbn in Hk. lia.
      * reflexivity.
      * cbn. destruct (o_weight h) eqn:Ew; cbn; auto. exfalso. cbn in Hk. rewrite Ew in Hk. destruct Hw as [Hw|Hw]; [rewrite Hw in Hk; discriminate|congruence].
Qed.

Lemma drop_all h dropped : hobj_ok h -> dropped <> [] -> all_in dropped (o_prof h) = true ->
  Forall (fun p => axis_in p dropped = true) (o_prof h) -> (o_filter h = None \/ o_weight h <> None) ->
  exists c, let g := without_profiles h c in drop (view h) dropped = Ok (view g) /\ hobj_ok g /\
    (forall ks, has_block g ks <-> has_block h ks) /\
    forall ks ss kd, in_shape (o_layout h) ss -> has_column (o_layout g) kd -> hcell g ks ss kd = hcell h ks ss kd.
Proof. intros H1 H2 H3 H4 H5. destruct (drop_all_shape h dropped H1 H2 H3 H4 H5) as (c & E & _ & R). exists c. cbn zeta in *. auto. Qed.

(** Whenever a profile is kept, the arrays do not have the shape of the resulting histogram. *)
Fixpoint pblock (c : pv) (ks : list gkey) : option pv :=
  match ks, c with
  | [], PArr _ _ => Some c
  | k :: ks', PDict l => match assoc k l with Some c' => pblock c' ks' | None => None end
  | _, _ => None
  end.
Lemma count_kept (q : axis -> bool) l : forall s, length (map fst (filter (fun p => q (snd p)) (combine (seq s (length l)) l))) = length (filter q l).
Proof. induction l as [|a l IH]; intros s; auto. cbn [length seq combine filter snd]. destruct (q a); cbn [map length]; rewrite IH; auto. Qed.
Lemma drop_blocks n index L ks d : forall c c', content_ok L n c -> dropcontent (length (l_shape L)) index (embed L c) = Ok c' ->
  block c ks = Some d -> exists e, pblock c' ks = Some (PArr (drop_shape index L) e).
Proof.
  revert ks. induction n as [|n IH]; intros ks c c' Hc E B; destruct c as [|d'|l]; try contradiction.
  - destruct ks; [|discriminate]. cbn [embed dropcontent] in E. destruct (_ && _); [|discriminate]. cbn zeta in E. rewrite alast_shape in E. inversion E; subst. cbn. eauto.
  - rewrite embed_dict in E. cbn [dropcontent] in E. destruct (proj_items _ _) as [l'|e] eqn:El; [|discriminate]. cbn [rmap bind] in E. inversion E; subst c'.
    destruct ks as [|k ks]; [discriminate|]. cbn [block pblock] in *. destruct Hc as (Hc & _). clear E. revert l' El.
    induction l as [|[k1 x] l IHl]; intros l' El; cbn [assoc] in B; [discriminate|]. cbn [map proj_items fst snd] in El.
    apply bind_ok' in El. destruct El as (y & Ey & El). apply bind_ok' in El. destruct El as (t & Et & El). inversion El; subst l'.
    inversion Hc; subst. cbn [assoc]. destruct (gkey_eqb k k1); [eapply IH; eauto|]. apply IHl; auto.
Qed.
Lemma drop_keeping h dropped g ks : hobj_ok h -> drop (view h) dropped = Ok g -> has_block h ks ->
  Exists (fun p => axis_in p dropped = false) (o_prof h) ->
  exists sh e, pblock (p_content g) ks = Some (PArr sh e) /\ sh <> l_shape (o_layout (p_head g)).
Proof.
  intros Hok E B K. destruct (Hok) as (HG & HF & HP & [Hc|Hc]); [unfold has_block in B; rewrite Hc, block_none in B; congruence|].
  unfold drop in E. destruct dropped as [|p0 ps] eqn:Ed; [discriminate|]. rewrite <- Ed in *. clear Ed.
  unfold view in E; cbn [p_head p_content o_group o_fixed o_prof with_content] in E.
  change (rebuild (with_content h CNone)) with (rebuild h) in E. change (o_layout (with_content h CNone)) with (o_layout h) in E. change (drop_index (with_content h CNone)) with (drop_index h) in E.
  destruct (negb _); [discriminate|].
  pose proof (embed_content_not_none _ _ _ Hc) as Hn.
  assert (E' : (do c' <- dropcontent (length (l_shape (o_layout h))) (drop_index h dropped) (embed (o_layout h) (o_content h));
    Ok (PH (rebuild h (o_group h ++ o_fixed h ++ filter (fun x => negb (axis_in x dropped)) (o_prof h))) c')) = Ok g).
  { destruct (embed (o_layout h) (o_content h)); auto. congruence. }
  clear E. apply bind_ok' in E'. destruct E' as (c' & Ec & Eg). inversion Eg; subst g. cbn [p_head p_content].
  unfold has_block in B. destruct (block (o_content h) ks) as [d|] eqn:Eb; [|congruence].
  destruct (drop_blocks _ _ _ _ _ _ _ Hc Ec Eb) as (e & Pe). exists (drop_shape (drop_index h dropped) (o_layout h)), e. split; auto.
  unfold drop_shape, l_shape. intros Es. apply (f_equal (fun l => last l 0)) in Es. rewrite !last_last in Es.
  unfold rebuild in Es. unfold l_last, o_layout in Es; cbn [o_group o_fixed o_prof o_weight o_filter l_nprof l_weighted] in Es.
  destruct (sort_axes (o_group h) (o_fixed h) (filter (fun x => negb (axis_in x dropped)) (o_prof h))) as (_ & _ & X); auto using Forall_filter. rewrite X in Es.
  assert (Hk : 1 <= length (filter (fun x => negb (axis_in x dropped)) (o_prof h))).
  { apply Exists_exists in K. destruct K as (p & Hp & Hp'). destruct (filter _ (o_prof h)) eqn:Ef; [|cbn; lia].
    exfalso. assert (In p []) as []. rewrite <- Ef. apply filter_In. rewrite Hp'. auto. }
  unfold drop_index in Es. rewrite !app_length, (count_kept (fun a => negb (axis_in a dropped))) in Es.
  destruct (o_weight h), (o_filter h); cbn [length] in Es; lia.
Qed.
