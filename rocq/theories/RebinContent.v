(** The content of a histogram after rebinning. *)
From Coq Require Import String Permutation.
From Verif Require Import Base Num NumFacts Axis AxisSpec Calc Content Fill FillSpec FillProofs FillProofs2 FillProofs3 FillMain
  HistAlg AlgSpec HistAlgProofs HistAlgMain Nd NdProofs Proj ProjSpec ProjProofs ProjMain ProjMain2 ProjFill ProjLaws ProjDrop Remap Select SelSpec SelAxis SelContent SelMain SelFill
  Rebin RebinSpec RebinAxis.
Local Open Scope list_scope.

(** ** Summing over one axis *)
Lemma filter_flat_map {A B} (p : B -> bool) (f : A -> list B) l : filter p (flat_map f l) = flat_map (fun x => filter p (f x)) l.
Proof. induction l as [|x l IH]; auto. cbn [flat_map]. rewrite filter_app, IH. reflexivity. Qed.
Lemma filter_one o l : NoDup l -> In o l -> filter (fun i => idx_eqb i o) l = [o].
Proof.
  intros Nd Hi. induction Nd as [|x l Hx Nd IH]; [destruct Hi|]. cbn [filter]. destruct (idx_eqb x o) eqn:E.
  - apply idx_eqb_eq in E. subst x. f_equal. clear IH Hi Nd. induction l as [|y l IH]; auto. cbn [filter]. destruct (idx_eqb y o) eqn:E.
    + apply idx_eqb_eq in E. subst. exfalso. apply Hx. left; auto.
    + apply IH. intros H. apply Hx. right; auto.
  - apply IH. destruct Hi as [->|Hi]; auto. rewrite idx_eqb_refl in E. discriminate.
Qed.
Lemma flat_map_one {B} (F : nat -> list B) x n : x < n -> flat_map (fun y => if Nat.eqb y x then F y else []) (seq 0 n) = F x.
Proof.
  intros H. assert (G : forall n s, (s <= x < s + n -> flat_map (fun y => if Nat.eqb y x then F y else []) (seq s n) = F x) /\
    (x < s -> flat_map (fun y => if Nat.eqb y x then F y else []) (seq s n) = [])).
  { induction n0 as [|m IH]; intros s; split; intros Hs; cbn [seq flat_map]; auto; try lia.
    - destruct (Nat.eqb_spec s x) as [->|N]; [rewrite (proj2 (IH (S x))) by lia; apply app_nil_r|]. apply (proj1 (IH (S s))). lia.
    - destruct (Nat.eqb_spec s x) as [->|N]; [lia|]. apply (proj2 (IH (S s))). lia. }
  apply G. lia.
Qed.
Lemma filter_remove sh : forall q o, q < length sh -> Forall2 lt o (remove_at q sh) ->
  filter (fun i => idx_eqb (remove_at q i) o) (indices sh) = map (fun k => insert_at q k o) (seq 0 (nth q sh 0)).
Proof.
  induction sh as [|n sh IH]; intros q o Hq Ho; cbn [length] in Hq; [lia|]. cbn [indices]. rewrite filter_flat_map. destruct q as [|q]; cbn [remove_at nth] in *.
  - rewrite flat_map_concat_map. erewrite map_ext; [|intros x; rewrite filter_map_swap; cbn [remove_at]; rewrite (filter_one o); [reflexivity|apply indices_nodup|apply indices_in; auto]].
    cbn [map insert_at]. clear. induction (seq 0 n) as [|x l IHl]; auto. cbn. rewrite IHl. reflexivity.
  - inversion Ho as [|x ? o' ? Hx Ho']; subst. transitivity (flat_map (fun y => if Nat.eqb y x then map (cons y) (map (fun k => insert_at q k o') (seq 0 (nth q sh 0))) else []) (seq 0 n)).
    + rewrite !flat_map_concat_map. f_equal. apply map_ext. intros y. rewrite filter_map_swap. cbn [remove_at idx_eqb]. destruct (Nat.eqb_spec y x) as [->|N].
      * cbn [andb]. rewrite IH by (auto; lia). reflexivity.
      * cbn [andb]. clear. induction (indices sh); auto.
    + rewrite flat_map_one by auto. rewrite map_map. reflexivity.
Qed.
Lemma asum_axis sh d q o : q < length sh -> Forall2 lt o (remove_at q sh) ->
  let keep := map (fun j => negb (Nat.eqb j q)) (seq 0 (length sh)) in
  aget (remove_at q sh) (asum keep sh d) o = nsum (map (fun k => aget sh d (insert_at q k o)) (seq 0 (nth q sh 0))).
Proof.
  intros Hq Ho keep. unfold asum. pose proof (select_remove sh q 0) as E. cbn [plus] in E. unfold keep at 1. rewrite E.
  rewrite aget_anew by auto. f_equal. rewrite <- (map_map (fun k => insert_at q k o) (aget sh d)). rewrite <- filter_remove by auto. f_equal.
  apply filter_ext_in. intros i Hi. apply indices_in in Hi. apply Forall2_length in Hi. unfold keep. rewrite <- Hi.
  pose proof (select_remove i q 0) as E'. cbn [plus] in E'. rewrite E'. reflexivity.
Qed.
Lemma range_sums_get q sh d lo hi o : q < length sh -> Forall2 lt o (remove_at q sh) -> (lo < hi -> hi <= nth q sh 0) ->
  aget (remove_at q sh) (range_sums q sh d (lo, hi)) o = nsum (map (fun k => aget sh d (insert_at q k o)) (range_list (lo, hi))).
Proof.
  intros Hq Ho Hh. unfold range_sums. cbn [fst snd]. set (s := Slice (Some (Z.of_nat lo)) (Some (Z.of_nat hi))).
  set (ss := map (fun j => if Nat.eqb j q then s else full) (seq 0 (length sh))).
  assert (Es : aslice_shape ss sh = at_axis q (slice_len s) sh) by (unfold aslice_shape, ss; exact (slices_shape s sh q 0)). rewrite Es.
  assert (El : length sh = length (at_axis q (slice_len s) sh)) by (symmetry; apply at_axis_length).
  rewrite El. rewrite <- (remove_at_axis (slice_len s) sh q). rewrite asum_axis by (rewrite ?remove_at_axis, <- ?El; auto).
  rewrite at_axis_nth by auto. set (n := nth q sh 0) in *.
  assert (Hlo : lo < hi -> slice_lo s n = lo) by (intros H; cbn [s slice_lo]; unfold clip; destruct (Z.ltb_spec (Z.of_nat lo) 0); lia).
  assert (Hlen : slice_len s n = hi - lo).
  { unfold slice_len. cbn [s slice_lo slice_hi]. unfold clip. destruct (Z.ltb_spec (Z.of_nat lo) 0), (Z.ltb_spec (Z.of_nat hi) 0); lia. }
  rewrite Hlen. unfold range_list; cbn [fst snd]. f_equal.
  assert (Ef : forall k, k < hi - lo -> aget (at_axis q (slice_len s) sh) (aslice ss sh d) (insert_at q k o) = aget sh d (insert_at q (lo + k) o)).
  { intros k Hk. assert (Fs : Forall2 lt (insert_at q k o) (at_axis q (slice_len s) sh)).
    { apply insert_shape; [rewrite remove_at_axis; auto|lia|rewrite at_axis_nth by auto; fold n; lia]. }
    unfold aslice. rewrite Es. rewrite aget_anew by auto. f_equal. unfold ss. pose proof (slices_index s sh q 0 (insert_at q k o)) as E. cbn [plus] in E.
    assert (length o = length sh - 1) as Lo by (apply Forall2_length in Ho; rewrite Ho; pose proof (remove_at_length sh q Hq); lia).
    rewrite E by (rewrite insert_at_length; lia). rewrite at_insert by lia. fold n. rewrite Hlo by lia. reflexivity. }
  clear - Ef. remember (hi - lo) as m eqn:Em. clear Em. revert Ef. generalize (at_axis q (slice_len s) sh) (aslice ss sh d). intros sh' d' Ef.
  transitivity (map (fun k => aget sh d (insert_at q (lo + k) o)) (seq 0 m)).
  - apply map_ext_in. intros k Hk. apply in_seq in Hk. apply Ef. lia.
  - rewrite <- (map_map (fun k => lo + k) (fun k => aget sh d (insert_at q k o))). f_equal. clear. revert lo. induction m as [|m IH]; intros lo; auto. cbn [seq map]. rewrite Nat.add_0_r. f_equal.
    rewrite <- (IH (S lo)), <- seq_shift, map_map. apply map_ext. intros; lia.
Qed.
Lemma insert_remove {A} (k : A) i : forall q, q < length i -> insert_at q k (remove_at q i) = at_axis q (fun _ => k) i.
Proof. induction i as [|x i IH]; intros [|q] H; cbn in *; try lia; auto. rewrite IH by lia. reflexivity. Qed.

(** ** The cells *)
Definition merge_data (q : nat) (rs : list (nat * nat)) (n : nat) (L : layout) (d : list Num) : list Num := rebin_data q rs n (l_shape L) d.
Lemma merge_shape q n L : q < length (l_tots L) -> replace_nth q n (l_shape L) = l_shape (layout_with q n L).
Proof. intros H. rewrite replace_nth_at. unfold l_shape. rewrite at_axis_app by auto. reflexivity. Qed.
Lemma merge_length q rs n L d : q < length (l_tots L) -> length (merge_data q rs n L d) = l_size (layout_with q n L).
Proof. intros H. unfold merge_data, rebin_data. rewrite anew_length, merge_shape, prod_shape by auto. reflexivity. Qed.
Lemma merge_cell q rs n L d ss j i : q < length (l_tots L) -> in_shape (layout_with q n L) ss -> j < l_last L -> nth_error ss q = Some i ->
  (forall k, In k (part rs i) -> k < nth q (l_tots L) 0) ->
  nth (ravel (l_tots (layout_with q n L)) ss * l_last L + j) (merge_data q rs n L d) nzero =
  nsum (map (fun k => nth (ravel (l_tots L) (at_axis q (fun _ => k) ss) * l_last L + j) d nzero) (part rs i)).
Proof.
  intros Hq Hs Hj Hi Hr. assert (Hl : length ss = length (l_tots L)) by (erewrite Forall2_length by exact Hs; cbn; apply at_axis_length).
  assert (Fs : Forall2 lt (ss ++ [j]) (l_shape (layout_with q n L))) by (apply Forall2_app; [exact Hs|constructor; auto]).
  rewrite <- ravel_last by (cbn; rewrite at_axis_length; auto).
  change (aget (l_shape (layout_with q n L)) (merge_data q rs n L d) (ss ++ [j]) =
    nsum (map (fun k => nth (ravel (l_tots L) (at_axis q (fun _ => k) ss) * l_last L + j) d nzero) (part rs i))).
  unfold merge_data, rebin_data. rewrite merge_shape by auto. rewrite aget_anew by auto.
  assert (L1 : length (ss ++ [j]) = length (l_shape L)) by (unfold l_shape; rewrite !app_length; cbn; lia).
  assert (Hq' : q < length (l_shape L)) by (unfold l_shape; rewrite app_length; cbn; lia).
  pose proof (select_remove (l_shape L) q 0) as E1. pose proof (select_remove (ss ++ [j]) q 0) as E2. cbn [plus] in E1, E2. rewrite L1 in E2. rewrite E1, E2.
  rewrite app_nth1 by lia. rewrite (nth_error_nth _ _ 0 Hi). unfold part in *. destruct (nth i rs (0, 0)) as (lo, hi).
  assert (Fr : Forall2 lt (remove_at q (ss ++ [j])) (remove_at q (l_shape L))).
  { apply (Forall2_remove_at lt) with (q := q) in Fs. unfold l_shape in *. cbn [layout_with l_tots] in Fs. rewrite <- at_axis_app, remove_at_axis in Fs by auto. exact Fs. }
  rewrite range_sums_get; auto.
  - f_equal. apply map_ext. intros k. rewrite insert_remove by (rewrite L1; auto). rewrite at_axis_app by lia.
    rewrite <- (ravel_last (l_tots L)) by (rewrite at_axis_length; auto). reflexivity.
  - intros H. unfold l_shape. rewrite app_nth1 by auto. assert (hi - 1 < nth q (l_tots L) 0); [|lia]. apply Hr. apply in_range_list. lia.
Qed.

(** ** The whole content *)
Lemma rebin_content_embed q es news u o nf rs L ng c : q < length (l_tots L) -> rebin_ranges es u o nf news = Ok rs -> content_ok L ng c ->
  let n := length news - 1 + b2n u + b2n o + b2n nf in
  rebin_content (rebin_array q es news u o nf) (embed L c) = Ok (embed (layout_with q n L) (cmap (merge_data q rs n L) c)).
Proof.
  intros Hq Hr Hc n. revert c Hc. induction ng as [|ng IH]; intros [|d|l] Hc; try contradiction.
  - cbn [embed rebin_content cmap]. unfold rebin_array. destruct (Nat.leb_spec (length (l_shape L)) q) as [H|_]; [unfold l_shape in H; rewrite app_length in H; cbn in H; lia|].
    rewrite Hr. cbn [bind]. fold n. cbv zeta. fold (merge_data q rs n L d). rewrite merge_shape by auto. reflexivity.
  - rewrite embed_dict, cmap_dict, embed_dict. cbn [rebin_content]. destruct Hc as (Hc & _). rewrite map_map. cbn [fst snd].
    assert (E : proj_items (rebin_content (rebin_array q es news u o nf)) (map (fun kv => (fst kv, embed L (snd kv))) l) =
      Ok (map (fun kv => (fst kv, embed (layout_with q n L) (cmap (merge_data q rs n L) (snd kv)))) l)).
    { induction Hc as [|[k x] l Hx Hl IHl]; auto. cbn [map proj_items fst snd] in *. rewrite IH by auto. cbn [bind].
      fold (proj_items (rebin_content (rebin_array q es news u o nf))). rewrite IHl. reflexivity. }
    rewrite E. reflexivity.
Qed.
