(** Projections compose and commute with addition and scaling (no group axis projected out). *)
From Coq Require Import String Permutation.
From Verif Require Import Base Num NumFacts Axis Calc Content Fill FillSpec FillProofs FillProofs2 FillProofs3 FillMain
  HistAlg AlgSpec HistAlgProofs HistAlgMain Nd NdProofs Proj ProjSpec ProjProofs ProjMain ProjMain2 ProjFill.
Local Open Scope list_scope.

Lemma bind_ok' {A B} (r : res A) (k : A -> res B) y : bind r k = Ok y -> exists x, r = Ok x /\ k x = Ok y.
Proof. destruct r as [x|e]; cbn [bind]; intros H; [eauto|discriminate]. Qed.

Definition cmap_items (f : content -> content) : list (gkey * content) -> list (gkey * content) :=
  fix go l := match l with [] => [] | (k, x) :: t => (k, f x) :: go t end.
Fixpoint cmap (f : list Num -> list Num) (c : content) : content :=
  match c with
  | CNone => CNone
  | CArr d => CArr (f d)
  | CDict l => CDict (cmap_items (cmap f) l)
  end.
Lemma cmap_items_map f l : cmap_items f l = map (fun kv => (fst kv, f (snd kv))) l.
Proof. induction l as [|[k x] l IH]; cbn; congruence. Qed.
Lemma cmap_dict f l : cmap f (CDict l) = CDict (map (fun kv => (fst kv, cmap f (snd kv))) l).
Proof. cbn [cmap]. rewrite cmap_items_map. reflexivity. Qed.
Lemma cmap_ext L n f g : (forall d, length d = l_size L -> f d = g d) -> forall c, content_ok L n c -> cmap f c = cmap g c.
Proof.
  intros H. induction n as [|n IH]; intros [|d|l] Hc; try contradiction.
  - cbn. f_equal. auto.
  - rewrite !cmap_dict. f_equal. apply map_ext_in. intros [k x] Hi. cbn [fst snd]. f_equal. apply IH. destruct Hc as (Hc & _).
    rewrite Forall_forall in Hc. apply (Hc _ Hi).
Qed.
Lemma cmap_cmap f g c : cmap f (cmap g c) = cmap (fun d => f (g d)) c.
Proof.
  induction c as [|d|l H] using content_ind'; auto. rewrite !cmap_dict, map_map. f_equal. cbn [fst snd].
  apply map_ext_in. intros [k x] Hi. cbn [fst snd]. f_equal. rewrite Forall_forall in H. apply (H (k, x) Hi).
Qed.
Lemma cmap_id c : cmap (fun d => d) c = c.
Proof.
  induction c as [|d|l H] using content_ind'; auto. rewrite cmap_dict. f_equal. rewrite <- (map_id l) at 2.
  apply map_ext_in. intros [k x] Hi. cbn [fst snd]. f_equal. rewrite Forall_forall in H. apply (H (k, x) Hi).
Qed.
Lemma cmap_ok f L L' n : (forall d, length d = l_size L -> length (f d) = l_size L') -> forall c, content_ok L n c -> content_ok L' n (cmap f c).
Proof.
  intros H. induction n as [|n IH]; intros [|d|l] Hc; try contradiction.
  - cbn in *. auto.
  - rewrite cmap_dict. destruct Hc as (Hc & Hn & Hk). cbn [content_ok]. rewrite map_map. cbn [fst]. split; auto.
    apply Forall_map. eapply Forall_impl; [|exact Hc]. cbn. auto.
Qed.

Lemma projcontent_kept keepf L : length keepf = length (l_tots L) -> forall keepg c, forallb (fun b : bool => b) keepg = true ->
  content_ok L (length keepg) c ->
  projcontent keepg keepf (embed L c) = Ok (embed (layout_keep keepf L) (cmap (proj_data keepf L) c)).
Proof.
  intros Hf. induction keepg as [|g gs IH]; intros c Hg Hc; destruct c as [|d|l]; try contradiction.
  - cbn [projcontent embed cmap]. rewrite projarray_embed by auto. reflexivity.
  - cbn [forallb] in Hg. apply andb_prop in Hg. destruct Hg as (-> & Hg). destruct Hc as (Hc & _).
    rewrite embed_dict, cmap_dict, embed_dict. cbn [projcontent].
    assert (E : proj_items (projcontent gs keepf) (map (fun kv => (fst kv, embed L (snd kv))) l) =
      Ok (map (fun kv => (fst kv, embed (layout_keep keepf L) (cmap (proj_data keepf L) (snd kv)))) l)).
    { induction Hc as [|[k x] l Hx Hl IHl]; auto. cbn [map proj_items fst snd] in *. rewrite IH by auto. cbn [bind].
      fold (proj_items (projcontent gs keepf)). rewrite IHl. reflexivity. }
    rewrite E. cbn [bind]. rewrite map_map. reflexivity.
Qed.

(** No group axis is projected out. *)
Definition keeps_groups (h : hobj) (axes : list axis) : Prop := forallb (fun x => axis_in x axes) (o_group h) = true.
Definition proj_hist (h : hobj) (axes : list axis) : hobj :=
  proj_head h axes (cmap (proj_data (keep_of axes (o_fixed h)) (o_layout h)) (o_content h)).
Lemma keeps_groups_keep h axes : keeps_groups h axes -> forallb (fun b : bool => b) (keep_of axes (o_group h)) = true.
Proof. unfold keeps_groups, keep_of. intros H. rewrite forallb_forall in *. intros b Hb. apply in_map_iff in Hb. destruct Hb as (x & <- & Hx). auto. Qed.
Lemma keeps_groups_all h axes : keeps_groups h axes -> filter (fun x => axis_in x axes) (o_group h) = o_group h.
Proof. intros H. apply filter_all. apply Forall_forall. intros x Hx. unfold keeps_groups in H. rewrite forallb_forall in H. auto. Qed.
Lemma project_hist h axes : hobj_ok h -> all_in axes (o_group h ++ o_fixed h) = true -> keeps_groups h axes ->
  project (view h) axes = Ok (view (proj_hist h axes)).
Proof.
  intros Hok Ha Hg. destruct (Hok) as (_ & _ & _ & [Hc|Hc]).
  - unfold proj_hist. rewrite Hc. cbn [cmap]. apply project_empty; auto.
  - apply project_kept; auto. apply projcontent_kept; auto using keep_length, keeps_groups_keep.
    unfold keep_of. rewrite map_length. auto.
Qed.
Lemma proj_hist_layout h axes : o_layout (proj_hist h axes) = layout_keep (keep_of axes (o_fixed h)) (o_layout h).
Proof. apply proj_head_layout. Qed.
Lemma proj_hist_ok h axes : hobj_ok h -> keeps_groups h axes -> hobj_ok (proj_hist h axes).
Proof.
  intros (HG & HF & HP & HC) Hg. split; [cbn; auto using Forall_filter|]. split; [cbn; auto using Forall_filter|]. split; [cbn; auto|].
  rewrite proj_hist_layout. cbn [proj_hist proj_head o_content o_group]. rewrite keeps_groups_all by auto.
  destruct HC as [->|HC]; [left; auto|right]. eapply cmap_ok; [|eauto]. intros d _. apply proj_data_length, keep_length.
Qed.

(** ** Composition *)
Lemma pick2_keep A B : (forall x, axis_in x B = true -> axis_in x A = true) -> forall l,
  pick2 (keep_of A l ++ [true]) (keep_of B (filter (fun x => axis_in x A) l) ++ [true]) = keep_of B l ++ [true].
Proof.
  intros H. induction l as [|x l IH]; auto. cbn [keep_of map filter app]. fold (keep_of A l). fold (keep_of B l).
  destruct (axis_in x A) eqn:E; cbn [pick2].
  - cbn [map app]. f_equal. exact IH.
  - f_equal; [destruct (axis_in x B) eqn:E'; auto; apply H in E'; congruence|exact IH].
Qed.
Lemma filter_filter_in A B (l : list axis) : (forall x, axis_in x B = true -> axis_in x A = true) ->
  filter (fun x => axis_in x B) (filter (fun x => axis_in x A) l) = filter (fun x => axis_in x B) l.
Proof.
  intros H. induction l as [|x l IH]; auto. cbn [filter]. destruct (axis_in x A) eqn:E; cbn [filter]; [destruct (axis_in x B); congruence|].
  destruct (axis_in x B) eqn:E'; auto. apply H in E'. congruence.
Qed.
Lemma all_in_filtered h A B : all_in A (o_group h ++ o_fixed h) = true -> all_in B A = true ->
  all_in B (filter (fun x => axis_in x A) (o_group h) ++ filter (fun x => axis_in x A) (o_fixed h)) = true.
Proof.
  intros HA HB. unfold all_in in *. rewrite forallb_forall in *. intros b Hb. specialize (HB b Hb).
  unfold axis_in in HB. apply existsb_exists in HB. destruct HB as (a & Ha & E). pose proof (axis_eqb_eq _ _ E). subst a.
  specialize (HA b Ha). unfold axis_in in HA |- *. apply existsb_exists in HA. destruct HA as (x & Hx & E'). pose proof (axis_eqb_eq _ _ E'). subst x.
  apply existsb_exists. exists b. split; auto. rewrite <- filter_app. apply filter_In. split; auto. unfold axis_in. apply existsb_exists. eauto.
Qed.
Lemma all_in_trans A B C : all_in A B = true -> all_in B C = true -> all_in A C = true.
Proof. intros HA HB. unfold all_in in *. rewrite forallb_forall in *. intros a Ha. apply (all_in_incl B C); auto. unfold all_in. rewrite forallb_forall. auto. Qed.

Lemma proj_hist_compose h A B : hobj_ok h -> all_in B A = true -> proj_hist (proj_hist h A) B = proj_hist h B.
Proof.
  intros Hok HB. pose proof (all_in_incl B A HB) as HI. unfold proj_hist at 1. rewrite proj_hist_layout.
  unfold proj_hist, proj_head at 1 3; cbn [o_group o_fixed o_prof o_weight o_filter o_defs o_attach o_content proj_head].
  rewrite !filter_filter_in by auto. unfold proj_head. f_equal. rewrite cmap_cmap.
  destruct Hok as (_ & _ & _ & [->|Hc]); auto. eapply cmap_ext; [|eauto]. intros d Hd. unfold proj_data.
  rewrite <- select_shape by apply keep_length. rewrite asum_asum, pick2_keep by auto. reflexivity.
Qed.
Lemma project_compose h A B : hobj_ok h -> all_in A (o_group h ++ o_fixed h) = true -> all_in B A = true -> keeps_groups h B ->
  exists g g', project (view h) A = Ok (view g) /\ project (view g) B = Ok (view g') /\ project (view h) B = Ok (view g').
Proof.
  intros Hok HA HB Hg. pose proof (all_in_incl B A HB) as HI.
  assert (HgA : keeps_groups h A). { unfold keeps_groups in *. rewrite forallb_forall in *. auto. }
  exists (proj_hist h A), (proj_hist h B). split; [apply project_hist; auto|]. split; [|apply project_hist; auto; eapply all_in_trans; eauto].
  rewrite <- (proj_hist_compose h A B) by auto. apply project_hist.
  - apply proj_hist_ok; auto.
  - cbn [proj_hist proj_head o_group o_fixed]. apply all_in_filtered; auto.
  - unfold keeps_groups. cbn [proj_hist proj_head o_group]. rewrite keeps_groups_all; auto.
Qed.

(** ** Projecting on all axes changes nothing. *)
Lemma keep_all l axes : (forall x, In x l -> axis_in x axes = true) -> keep_of axes l = repeat true (length l).
Proof. induction l as [|x l IH]; intros H; auto. cbn [keep_of map length repeat]. fold (keep_of axes l). rewrite IH, H; auto; [left; auto|]. intros; apply H; right; auto. Qed.
Lemma project_all h : hobj_ok h -> Forall (fun a => axis_eqb a a = true) (o_axes h) ->
  project (view h) (o_group h ++ o_fixed h) = Ok (view h).
Proof.
  intros Hok Hr.
  assert (R : forall x, In x (o_group h ++ o_fixed h) -> axis_in x (o_group h ++ o_fixed h) = true).
  { intros x Hx. unfold axis_in. apply existsb_exists. exists x. split; auto. rewrite Forall_forall in Hr. apply Hr. unfold o_axes. rewrite app_assoc. apply in_or_app. auto. }
  rewrite project_hist; auto.
  - do 2 f_equal. unfold proj_hist, proj_head.
    rewrite !filter_all by (apply Forall_forall; intros x Hx; apply R; apply in_or_app; auto).
    replace (cmap _ (o_content h)) with (o_content h); [destruct h; reflexivity|].
    destruct Hok as (_ & _ & _ & [->|Hc]); auto. rewrite <- (cmap_id (o_content h)) at 1. eapply cmap_ext; [|eauto]. intros d Hd. unfold proj_data.
    symmetry. apply asum_all; auto.
    + unfold l_shape. rewrite !app_length, keep_length. reflexivity.
    + rewrite keep_all by (intros x Hx; apply R; apply in_or_app; auto). rewrite forallb_app. cbn. rewrite andb_true_r.
      apply forallb_forall. intros b Hb. apply repeat_spec in Hb. auto.
    + rewrite prod_shape. auto.
  - unfold all_in. apply forallb_forall. auto.
  - unfold keeps_groups. apply forallb_forall. intros x Hx. apply R. apply in_or_app. auto.
Qed.

(** ** Scaling *)
Lemma content_mul_cmap L v n : forall c, content_ok L n c -> content_mul v c = Ok (cmap (map (fun x => nmul x v)) c).
Proof.
  induction n as [|n IH]; intros [|d|l] Hc; try contradiction; auto.
  rewrite cmap_dict. cbn [content_mul]. destruct Hc as (Hc & _).
  assert (E : mul_items (content_mul v) l = Ok (map (fun kv => (fst kv, cmap (map (fun x => nmul x v)) (snd kv))) l)).
  { induction Hc as [|[k x] l Hx Hl IHl]; auto. cbn [mul_items map fst snd] in *. rewrite IH by auto. cbn [bind].
    fold (mul_items (content_mul v)). rewrite IHl. reflexivity. }
  rewrite E. reflexivity.
Qed.
Lemma project_mul h q axes s : hobj_ok h -> all_in axes (o_group h ++ o_fixed h) = true -> keeps_groups h axes ->
  hist_mul h (Fin q) = Ok s ->
  exists s' h', project (view s) axes = Ok (view s') /\ project (view h) axes = Ok (view h') /\ hist_mul h' (Fin q) = Ok s'.
Proof.
  intros Hok Ha Hg E. unfold hist_mul in E. destruct (Hok) as (HG & HF & HP & [Hc|Hc]); [rewrite Hc in E; discriminate|].
  rewrite (content_mul_cmap (o_layout h) _ (length (o_group h))) in E by auto. cbn [rmap bind] in E. inversion E; subst s. clear E.
  set (s := with_content h (cmap (map (fun x => nmul x (Fin q))) (o_content h))).
  assert (Hs : hobj_ok s).
  { split; [|split; [|split]]; auto. right. cbn. eapply cmap_ok; [|eauto]. intros d Hd. rewrite map_length. auto. }
  exists (proj_hist s axes), (proj_hist h axes). split; [apply project_hist; auto|]. split; [apply project_hist; auto|].
  unfold hist_mul. pose proof (proj_hist_ok h axes Hok Hg) as (_ & _ & _ & [Hp|Hp]).
  { cbn in Hp. destruct (o_content h); try discriminate. destruct (length (o_group h)); contradiction. }
  rewrite (content_mul_cmap (o_layout (proj_hist h axes)) _ (length (o_group (proj_hist h axes)))) by auto. cbn [rmap bind].
  unfold proj_hist, proj_head, with_content. cbn. do 2 f_equal. rewrite !cmap_cmap. eapply cmap_ext; [|eauto]. intros d _.
  change (o_layout s) with (o_layout h). unfold proj_data. rewrite asum_scale. reflexivity.
Qed.

(** ** Addition *)
Lemma content_add_cmap L L' k k' f n : (forall d, length d = l_size L -> length (f d) = l_size L') ->
  (forall d e, length d = l_size L -> length e = l_size L -> f (map2 nadd d e) = map2 nadd (f d) (f e)) ->
  forall a b c, content_ok L n a -> content_ok L n b -> content_add k k a b = Ok c ->
    content_add k' k' (cmap f a) (cmap f b) = Ok (cmap f c).
Proof.
  intros Hl Hf. induction n as [|n IH]; intros a b c Ha Hb E; destruct a as [|d|l], b as [|e|m]; try contradiction; cbn [content_ok] in *.
  - cbn [content_add cmap] in *. rewrite arr_add_same in E by congruence. cbn [rmap bind] in E. inversion E; subst.
    rewrite arr_add_same by (rewrite !Hl; auto). cbn [rmap bind cmap]. rewrite Hf; auto.
  - rewrite !cmap_dict. destruct Ha as (Fl & _), Hb as (Fm & _). cbn [content_add] in *.
    apply bind_ok' in E. destruct E as (l' & El & E). inversion E; subst c. clear E. rewrite cmap_dict.
    assert (G : add_items (content_add k' k') (map (fun kv => (fst kv, cmap f (snd kv))) m) (map (fun kv => (fst kv, cmap f (snd kv))) l) =
       Ok (map (fun kv => (fst kv, cmap f (snd kv))) l')).
    { clear - IH Fl Fm El. revert l' El. induction Fl as [|[k1 x] l Hx Hl IHl]; intros l' El; cbn [add_items] in El; [inversion El; auto|].
      fold (add_items (content_add k k) m) in El. apply bind_ok' in El. destruct El as (y & Ey & El).
      apply bind_ok' in El. destruct El as (t & Et & El). inversion El; subst. clear El.
      cbn [map fst snd add_items]. fold (add_items (content_add k' k') (map (fun kv => (fst kv, cmap f (snd kv))) m)).
      rewrite assoc_map. rewrite (IHl t Et). destruct (assoc k1 m) as [x'|] eqn:Ea; cbn [option_map].
      - rewrite (IH x x' y); auto. apply assoc_in in Ea. rewrite Forall_forall in Fm. apply (Fm _ Ea).
      - inversion Ey; subst. reflexivity. }
    rewrite G. cbn [bind]. rewrite map_app. do 3 f_equal. unfold new_items.
    clear. induction m as [|[k1 x] m IHm]; auto. cbn [map filter fst snd]. rewrite has_key_map.
    destruct (has_key k1 l); cbn [negb map]; rewrite IHm; reflexivity.
Qed.
Lemma add_none k x : content_add k k CNone x = Ok x /\ content_add k k x CNone = Ok x.
Proof. destruct x; cbn [content_add]; rewrite ?copycontent_id; auto. Qed.
Lemma content_add_cmap_h L L' k k' f n : (forall d, length d = l_size L -> length (f d) = l_size L') ->
  (forall d e, length d = l_size L -> length e = l_size L -> f (map2 nadd d e) = map2 nadd (f d) (f e)) ->
  forall a b c, hist_ok L n a -> hist_ok L n b -> content_add k k a b = Ok c ->
    content_add k' k' (cmap f a) (cmap f b) = Ok (cmap f c).
Proof.
  intros Hl Hf a b c [->|Ha] [->|Hb] E.
  - cbn in E. inversion E; auto.
  - cbn [cmap]. assert (E' : forall x, content_add k k CNone x = Ok x /\ content_add k' k' CNone x = Ok x) by (intros [|?|?]; cbn [content_add]; rewrite ?copycontent_id; auto).
    rewrite (proj1 (E' b)) in E. inversion E; subst. apply E'.
  - cbn [cmap]. assert (E' : forall x, content_add k k x CNone = Ok x /\ content_add k' k' x CNone = Ok x) by (intros [|?|?]; cbn [content_add]; rewrite ?copycontent_id; auto).
    rewrite (proj1 (E' a)) in E. inversion E; subst. apply E'.
  - eapply content_add_cmap; eauto.
Qed.
Lemma project_add h g axes s : hobj_ok h -> hobj_ok g -> addable h g -> all_in axes (o_group h ++ o_fixed h) = true -> keeps_groups h axes ->
  hist_add h g = Ok s ->
  exists s' h' g', project (view s) axes = Ok (view s') /\ project (view h) axes = Ok (view h') /\ project (view g) axes = Ok (view g') /\
    (Forall (fun a => axis_eqb a a = true) (o_axes h) -> hist_add h' g' = Ok s').
Proof.
  intros Hh Hg0 (Hax & Hw) Ha Hg E. unfold hist_add in E. rewrite Hax in E. apply bind_ok' in E. destruct E as (c & E & Es). inversion Es; subst s; clear Es.
  apply axes_eqb_eq in Hax.
  assert (S : o_group h = o_group g /\ o_fixed h = o_fixed g /\ o_prof h = o_prof g).
  { destruct Hh as (H1 & H2 & H3 & _), Hg0 as (H4 & H5 & H6 & _). unfold o_axes in Hax.
    destruct (sort_axes _ _ _ H1 H2 H3) as (A1 & A2 & A3), (sort_axes _ _ _ H4 H5 H6) as (B1 & B2 & B3).
    rewrite Hax in *. repeat split; congruence. }
  destruct S as (S1 & S2 & S3).
  assert (SL : o_layout h = o_layout g). { unfold o_layout. unfold weighted, o_layout in Hw. cbn in Hw. rewrite S2, S3, Hw. reflexivity. }
  assert (Hs : hobj_ok (with_content h c)).
  { destruct Hh as (H1 & H2 & H3 & H4), Hg0 as (_ & _ & _ & H5). split; [|split; [|split]]; auto. cbn. change (o_layout (with_content h c)) with (o_layout h).
    rewrite <- SL, <- S1 in H5. rewrite <- SL in E. destruct H4 as [H4|H4], H5 as [H5|H5].
    - rewrite H4, H5 in E. cbn in E. inversion E. left; auto.
    - rewrite H4, (proj1 (add_none _ _)) in E. right. congruence.
    - rewrite H5, (proj2 (add_none _ _)) in E. right. congruence.
    - destruct (content_add_ok _ (l_last (o_layout h)) _ _ _ H4 H5) as (c' & E' & Hc' & _). right. congruence. }
  exists (proj_hist (with_content h c) axes), (proj_hist h axes), (proj_hist g axes).
  split; [apply project_hist; auto|]. split; [apply project_hist; auto|]. split; [apply project_hist; auto; try (rewrite <- S1, <- S2; auto); unfold keeps_groups in *; rewrite <- S1; auto|].
  intros Hr. unfold hist_add. assert (Ae : axes_eqb (o_axes (proj_hist h axes)) (o_axes (proj_hist g axes)) = true).
  { unfold o_axes, proj_hist, proj_head; cbn. rewrite <- S1, <- S2, <- S3.
    assert (R : forall l, Forall (fun a => axis_eqb a a = true) l -> axes_eqb l l = true) by (induction 1 as [|x l Hx]; cbn; auto; rewrite Hx, IHForall; auto).
    apply R. unfold o_axes in Hr. apply Forall_app in Hr. destruct Hr as (R1 & R2). apply Forall_app in R2. destruct R2 as (R2 & R3).
    apply Forall_app. split; [|apply Forall_app; split]; auto using Forall_filter. }
  rewrite Ae. rewrite !proj_hist_layout, <- SL, <- S2 in *.
  cbn [o_content proj_hist proj_head]. rewrite <- SL, <- S2.
  rewrite (content_add_cmap_h (o_layout h) (layout_keep (keep_of axes (o_fixed h)) (o_layout h)) (l_last (o_layout h)) _
    (proj_data (keep_of axes (o_fixed h)) (o_layout h)) (length (o_group h)) ltac:(intros; apply proj_data_length, keep_length)
    ltac:(intros; apply asum_add; rewrite prod_shape; auto) _ _ c).
  - reflexivity.
  - apply Hh.
  - rewrite SL, S1. apply Hg0.
  - exact E.
Qed.
