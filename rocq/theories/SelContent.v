(** The content of a histogram after a selection. *)
From Coq Require Import String Permutation.
From Verif Require Import Base Num NumFacts Axis AxisSpec Calc Content Fill FillSpec FillProofs FillProofs2 FillProofs3 FillMain
  HistAlg AlgSpec HistAlgProofs HistAlgMain Nd NdProofs Proj ProjSpec ProjProofs ProjMain ProjMain2 ProjFill ProjLaws ProjDrop Remap Select SelSpec.
Local Open Scope list_scope.

(** ** Lists with one element changed *)
Lemma at_axis_length {A} (f : A -> A) l : forall q, length (at_axis q f l) = length l.
Proof. induction l as [|x l IH]; intros [|q]; cbn; auto. Qed.
Lemma at_axis_app {A} (f : A -> A) l m : forall q, q < length l -> at_axis q f (l ++ m) = at_axis q f l ++ m.
Proof. induction l as [|x l IH]; intros [|q] H; cbn in *; try lia; auto. rewrite IH by lia. reflexivity. Qed.
Lemma at_axis_map {A B} (g : A -> B) (f : A -> A) (f' : B -> B) l : (forall x, g (f x) = f' (g x)) -> forall q, map g (at_axis q f l) = at_axis q f' (map g l).
Proof. intros H. induction l as [|x l IH]; intros [|q]; cbn; auto; rewrite ?H, ?IH; reflexivity. Qed.
Lemma at_axis_ext {A} (f g : A -> A) d l : forall q, f (nth q l d) = g (nth q l d) -> at_axis q f l = at_axis q g l.
Proof. induction l as [|x l IH]; intros [|q] H; cbn in *; auto; [rewrite H; reflexivity|]. rewrite (IH q H). reflexivity. Qed.
Lemma at_axis_nth {A} (f : A -> A) d l : forall q, q < length l -> nth q (at_axis q f l) d = f (nth q l d).
Proof. induction l as [|x l IH]; intros [|q] H; cbn in *; try lia; auto. apply IH. lia. Qed.
Lemma at_axis_forall2 {A B} (R : A -> B -> Prop) f g l : forall m q, Forall2 R l m -> (forall x y, nth_error l q = Some x -> nth_error m q = Some y -> R x y -> R (f x) (g y)) ->
  Forall2 R (at_axis q f l) (at_axis q g m).
Proof. induction l as [|x l IH]; intros m q H Hq; inversion H; subst; destruct q; cbn; constructor; auto. Qed.
Lemma remove_at_length {A} (l : list A) : forall q, q < length l -> S (length (remove_at q l)) = length l.
Proof. induction l as [|x l IH]; intros [|q] H; cbn in *; try lia; auto. rewrite IH; lia. Qed.
Lemma insert_at_length {A} (y : A) l : forall q, q <= length l -> length (insert_at q y l) = S (length l).
Proof. induction l as [|x l IH]; intros [|q] H; cbn in *; try lia; auto. rewrite IH; lia. Qed.
Lemma remove_at_app {A} (l m : list A) : forall q, q < length l -> remove_at q (l ++ m) = remove_at q l ++ m.
Proof. induction l as [|x l IH]; intros [|q] H; cbn in *; try lia; auto. rewrite IH by lia. reflexivity. Qed.
Lemma insert_at_app {A} (y : A) l m : forall q, q <= length l -> insert_at q y (l ++ m) = insert_at q y l ++ m.
Proof. induction l as [|x l IH]; intros [|q] H; cbn in *; try lia; auto. rewrite IH by lia. reflexivity. Qed.
Lemma map_remove_at {A B} (f : A -> B) l : forall q, map f (remove_at q l) = remove_at q (map f l).
Proof. induction l as [|x l IH]; intros [|q]; cbn; auto. rewrite IH. reflexivity. Qed.
Lemma map_insert_at {A B} (f : A -> B) y l : forall q, map f (insert_at q y l) = insert_at q (f y) (map f l).
Proof. induction l as [|x l IH]; intros [|q]; cbn; auto. rewrite IH. reflexivity. Qed.

(** ** Slices of one axis *)
Lemma full_slices s p len : forall k, p < k -> map (fun j => if Nat.eqb j p then s else full) (seq k len) = repeat full len.
Proof.
  induction len as [|len IH]; intros k H; cbn [seq map repeat]; auto. destruct (Nat.eqb_spec k p); [lia|]. rewrite IH by lia. reflexivity.
Qed.
Lemma slices_shape s sh : forall q k, map2 slice_len (map (fun j => if Nat.eqb j (k + q) then s else full) (seq k (length sh))) sh = at_axis q (slice_len s) sh.
Proof.
  induction sh as [|n sh IH]; intros q k; [destruct q; reflexivity|]. cbn [length seq map map2]. destruct q as [|q].
  - rewrite Nat.add_0_r, Nat.eqb_refl, full_slices by lia. cbn [at_axis]. f_equal. clear. induction sh as [|n sh IH]; auto. cbn [length repeat map2]. rewrite IH. f_equal. unfold slice_len. cbn. lia.
  - replace (Nat.eqb k (k + S q)) with false by (symmetry; apply Nat.eqb_neq; lia). cbn [at_axis]. f_equal; [unfold slice_len; cbn; lia|].
    replace (k + S q) with (S k + q) by lia. apply IH.
Qed.
Lemma slices_index s sh : forall q k i, length i = length sh ->
  map2 (fun p j => slice_lo (fst p) (snd p) + j) (combine (map (fun j => if Nat.eqb j (k + q) then s else full) (seq k (length sh))) sh) i =
  at_axis q (fun j => slice_lo s (nth q sh 0) + j) i.
Proof.
  induction sh as [|n sh IH]; intros q k [|j i] H; cbn [length] in H; try lia; [destruct q; reflexivity|]. cbn [length seq map combine map2 fst snd]. destruct q as [|q].
  - rewrite Nat.add_0_r, Nat.eqb_refl, full_slices by lia. cbn [at_axis nth]. f_equal. assert (H' : length i = length sh) by lia. clear - H'. revert i H'.
    induction sh as [|n sh IH]; intros [|j i] H; cbn [length] in H; try lia; auto. cbn [length repeat combine map2 fst snd]. rewrite IH by lia. reflexivity.
  - replace (Nat.eqb k (k + S q)) with false by (symmetry; apply Nat.eqb_neq; lia). cbn [at_axis nth]. f_equal.
    replace (k + S q) with (S k + q) by lia. apply IH. lia.
Qed.

Definition layout_with (q : nat) (n : nat) (L : layout) : layout := {|
  l_tots := at_axis q (fun _ => n) (l_tots L); l_nprof := l_nprof L; l_weighted := l_weighted L |}.
Definition cut_data (q : nat) (s : slc) (L : layout) (d : list Num) : list Num :=
  aslice (map (fun j => if Nat.eqb j q then s else full) (seq 0 (length (l_shape L)))) (l_shape L) d.
Definition cut_len (q : nat) (s : slc) (L : layout) : nat := slice_len s (nth q (l_tots L) 0).
Lemma shape_cut q s L : q < length (l_tots L) -> at_axis q (slice_len s) (l_shape L) = l_shape (layout_with q (cut_len q s L) L).
Proof.
  intros H. unfold l_shape. rewrite at_axis_app by auto. f_equal. cbn [layout_with l_tots]. apply (at_axis_ext _ _ 0). reflexivity.
Qed.
Lemma cut_data_shape q s L : q < length (l_tots L) ->
  aslice_shape (map (fun j => if Nat.eqb j q then s else full) (seq 0 (length (l_shape L)))) (l_shape L) = l_shape (layout_with q (cut_len q s L) L).
Proof. intros H. unfold aslice_shape. pose proof (slices_shape s (l_shape L) q 0) as E. cbn [plus] in E. rewrite E. apply shape_cut; auto. Qed.
Lemma cut_data_length q s L d : q < length (l_tots L) -> length (cut_data q s L d) = prod (l_shape (layout_with q (cut_len q s L) L)).
Proof. intros H. unfold cut_data, aslice. rewrite anew_length, cut_data_shape; auto. Qed.
Lemma cut_data_cell q s L d ss j : q < length (l_tots L) -> in_shape (layout_with q (cut_len q s L) L) ss -> j < l_last L ->
  nth (ravel (l_tots (layout_with q (cut_len q s L) L)) ss * l_last L + j) (cut_data q s L d) nzero =
  nth (ravel (l_tots L) (at_axis q (fun i => slice_lo s (nth q (l_tots L) 0) + i) ss) * l_last L + j) d nzero.
Proof.
  intros Hq Hs Hj. assert (Hl : length ss = length (l_tots L)) by (erewrite Forall2_length by exact Hs; cbn; apply at_axis_length).
  rewrite <- ravel_last by (cbn; rewrite at_axis_length; auto). rewrite <- (ravel_last (l_tots L) (l_last L)) by (rewrite at_axis_length; auto).
  change (aget (l_shape (layout_with q (cut_len q s L) L)) (cut_data q s L d) (ss ++ [j]) = aget (l_shape L) d (at_axis q (fun i => slice_lo s (nth q (l_tots L) 0) + i) ss ++ [j])).
  unfold cut_data, aslice. rewrite cut_data_shape by auto. rewrite aget_anew; [|apply Forall2_app; [exact Hs|constructor; auto]].
  pose proof (slices_index s (l_shape L) q 0 (ss ++ [j])) as E. cbn [plus] in E. rewrite E by (unfold l_shape; rewrite !app_length; cbn; lia). f_equal.
  unfold l_shape. rewrite app_nth1 by auto. apply at_axis_app. lia.
Qed.

(** ** The whole content *)
Lemma cut_array_embed q s L d : q < length (l_tots L) ->
  cut_array (length (l_tots L)) q s false (PArr (l_shape L) d) = Ok (embed (layout_with q (cut_len q s L) L) (CArr (cut_data q s L d))).
Proof.
  intros Hq. unfold cut_array. replace (Nat.ltb (length (l_shape L)) (length (l_tots L) + 1)) with false
    by (symmetry; apply Nat.ltb_ge; unfold l_shape; rewrite app_length; cbn; lia).
  cbn [andb]. rewrite cut_data_shape by auto. reflexivity.
Qed.
Lemma cutcontent_slice q s L n c : q < length (l_tots L) -> content_ok L n c ->
  cutcontent n (length (l_tots L)) (n + q) (CutSlice s) false (embed L c) = Ok (embed (layout_with q (cut_len q s L) L) (cmap (cut_data q s L) c)).
Proof.
  intros Hq. revert c. induction n as [|n IH]; intros [|d|l] Hc; try contradiction.
  - cbn [embed cutcontent cmap plus]. apply cut_array_embed; auto.
  - rewrite embed_dict, cmap_dict, embed_dict. cbn [cutcontent plus]. destruct Hc as (Hc & _). rewrite map_map. cbn [fst snd].
    assert (E : proj_items (cutcontent n (length (l_tots L)) (n + q) (CutSlice s) false) (map (fun kv => (fst kv, embed L (snd kv))) l) =
      Ok (map (fun kv => (fst kv, embed (layout_with q (cut_len q s L) L) (cmap (cut_data q s L) (snd kv)))) l)).
    { induction Hc as [|[k x] l Hx Hl IHl]; auto. cbn [map proj_items fst snd] in *. rewrite IH by auto. cbn [bind].
      fold (proj_items (cutcontent n (length (l_tots L)) (n + q) (CutSlice s) false)). rewrite IHl. reflexivity. }
    rewrite E. reflexivity.
Qed.

(** A cut axis loses its dimension. *)
Definition layout_without (q : nat) (L : layout) : layout := {|
  l_tots := remove_at q (l_tots L); l_nprof := l_nprof L; l_weighted := l_weighted L |}.
Lemma select_all_true {A} (l : list A) p : forall k, p < k -> select (map (fun j => negb (Nat.eqb j p)) (seq k (length l))) l = l.
Proof.
  induction l as [|x l IH]; intros k H; auto. cbn [length seq map select]. replace (Nat.eqb k p) with false by (symmetry; apply Nat.eqb_neq; lia). cbn [negb]. rewrite IH by lia. reflexivity.
Qed.
Lemma select_remove {A} (l : list A) : forall q k, select (map (fun j => negb (Nat.eqb j (k + q))) (seq k (length l))) l = remove_at q l.
Proof.
  induction l as [|x l IH]; intros q k; [destruct q; reflexivity|]. cbn [length seq map select]. destruct q as [|q].
  - rewrite Nat.add_0_r, Nat.eqb_refl. cbn [negb remove_at]. apply select_all_true. lia.
  - replace (Nat.eqb k (k + S q)) with false by (symmetry; apply Nat.eqb_neq; lia). cbn [negb remove_at]. f_equal. replace (k + S q) with (S k + q) by lia. apply IH.
Qed.
Lemma remove_at_axis {A} (f : A -> A) l : forall q, remove_at q (at_axis q f l) = remove_at q l.
Proof. induction l as [|x l IH]; intros [|q]; cbn; auto. rewrite IH. reflexivity. Qed.
Lemma at_insert {A} (f : A -> A) y l : forall q, q <= length l -> at_axis q f (insert_at q y l) = insert_at q (f y) l.
Proof. induction l as [|x l IH]; intros [|q] H; cbn in *; auto; try lia. rewrite IH by lia. reflexivity. Qed.
Lemma prod_remove sh : forall q, nth q sh 0 = 1 -> prod (remove_at q sh) = prod sh.
Proof.
  induction sh as [|n sh IH]; intros [|q] H; cbn [nth remove_at] in *; try discriminate.
  - subst. unfold prod. cbn [fold_right]. lia.
  - cbn [prod fold_right]. fold (prod (remove_at q sh)). fold (prod sh). rewrite IH; auto.
Qed.
Lemma ravel_remove sh : forall q ss, nth q sh 0 = 1 -> ravel (remove_at q sh) ss = ravel sh (insert_at q 0 ss).
Proof.
  induction sh as [|n sh IH]; intros [|q] ss H; cbn [nth remove_at insert_at] in *; try discriminate.
  - reflexivity.
  - destruct ss as [|j ss]; [reflexivity|]. cbn [ravel]. fold (prod (remove_at q sh)). fold (prod sh). rewrite prod_remove, IH; auto.
Qed.
Lemma insert_shape q y ss sh : Forall2 lt ss (remove_at q sh) -> q < length sh -> y < nth q sh 0 -> Forall2 lt (insert_at q y ss) sh.
Proof.
  revert q ss. induction sh as [|n sh IH]; intros [|q] ss H Hq Hy; cbn [length nth remove_at insert_at] in *; try lia.
  - constructor; auto.
  - inversion H; subst. cbn [insert_at]. constructor; auto. apply IH; auto. lia.
Qed.
Lemma without_with q n L : layout_without q (layout_with q n L) = layout_without q L.
Proof. unfold layout_without, layout_with; cbn. rewrite remove_at_axis. reflexivity. Qed.
Lemma cut_array_dropped q s L d : q < length (l_tots L) -> cut_len q s L = 1 ->
  cut_array (length (l_tots L)) q s true (PArr (l_shape L) d) = Ok (embed (layout_without q L) (CArr (cut_data q s L d))).
Proof.
  intros Hq H1. unfold cut_array. replace (Nat.ltb (length (l_shape L)) (length (l_tots L) + 1)) with false
    by (symmetry; apply Nat.ltb_ge; unfold l_shape; rewrite app_length; cbn; lia).
  rewrite cut_data_shape by auto. cbn [andb]. rewrite H1. unfold l_shape at 1. cbn [layout_with l_tots]. rewrite app_nth1 by (rewrite at_axis_length; auto).
  rewrite at_axis_nth by auto. cbn [Nat.eqb negb embed]. cbn zeta. apply (f_equal (fun sh => Ok (PArr sh (cut_data q s L d)))).
  replace (length (l_shape L)) with (length (l_shape (layout_with q 1 L))) by (unfold l_shape; rewrite !app_length; cbn; rewrite at_axis_length; auto).
  pose proof (select_remove (l_shape (layout_with q 1 L)) q 0) as E. cbn [plus] in E. rewrite E. unfold l_shape. cbn [layout_with l_tots]. rewrite remove_at_app by (rewrite at_axis_length; auto).
  rewrite remove_at_axis. reflexivity.
Qed.
Lemma cut_dropped_length q s L d : q < length (l_tots L) -> cut_len q s L = 1 -> length (cut_data q s L d) = l_size (layout_without q L).
Proof.
  intros Hq H1. rewrite cut_data_length, prod_shape by auto. rewrite H1. unfold l_size, l_rows. f_equal. cbn [layout_without layout_with l_tots].
  rewrite <- (remove_at_axis (fun _ => 1)). symmetry. apply prod_remove. rewrite at_axis_nth by auto. reflexivity.
Qed.
Lemma cut_dropped_cell q s L d ss j : q < length (l_tots L) -> cut_len q s L = 1 -> in_shape (layout_without q L) ss -> j < l_last L ->
  nth (ravel (l_tots (layout_without q L)) ss * l_last L + j) (cut_data q s L d) nzero =
  nth (ravel (l_tots L) (insert_at q (slice_lo s (nth q (l_tots L) 0)) ss) * l_last L + j) d nzero.
Proof.
  intros Hq H1 Hs Hj. assert (Hl : S (length ss) = length (l_tots L)) by (erewrite Forall2_length by exact Hs; apply remove_at_length; auto).
  cbn [layout_without l_tots]. rewrite <- (remove_at_axis (fun _ => cut_len q s L) (l_tots L)). rewrite ravel_remove by (rewrite at_axis_nth; auto).
  change (at_axis q (fun _ => cut_len q s L) (l_tots L)) with (l_tots (layout_with q (cut_len q s L) L)).
  rewrite cut_data_cell; auto; [rewrite at_insert, Nat.add_0_r by lia; reflexivity|].
  apply insert_shape; cbn [layout_with l_tots]; rewrite ?at_axis_length, ?at_axis_nth, ?remove_at_axis; auto. lia.
Qed.
Lemma cutcontent_dropped q s L n c : q < length (l_tots L) -> cut_len q s L = 1 -> content_ok L n c ->
  cutcontent n (length (l_tots L)) (n + q) (CutSlice s) true (embed L c) = Ok (embed (layout_without q L) (cmap (cut_data q s L) c)).
Proof.
  intros Hq H1. revert c. induction n as [|n IH]; intros [|d|l] Hc; try contradiction.
  - cbn [embed cutcontent cmap plus]. apply cut_array_dropped; auto.
  - rewrite embed_dict, cmap_dict, embed_dict. cbn [cutcontent plus]. destruct Hc as (Hc & _). rewrite map_map. cbn [fst snd].
    assert (E : proj_items (cutcontent n (length (l_tots L)) (n + q) (CutSlice s) true) (map (fun kv => (fst kv, embed L (snd kv))) l) =
      Ok (map (fun kv => (fst kv, embed (layout_without q L) (cmap (cut_data q s L) (snd kv)))) l)).
    { induction Hc as [|[k x] l Hx Hl IHl]; auto. cbn [map proj_items fst snd] in *. rewrite IH by auto. cbn [bind].
      fold (proj_items (cutcontent n (length (l_tots L)) (n + q) (CutSlice s) true)). rewrite IHl. reflexivity. }
    rewrite E. reflexivity.
Qed.

(** ** Groups *)
Lemma filter_keys_ok (p : gkey -> res bool) (b : gkey -> bool) L l :
  Forall (fun kv => p (fst kv) = Ok (b (fst kv))) l ->
  filter_keys p (map (fun kv => (fst kv, embed L (snd kv))) l) = Ok (map (fun kv => (fst kv, embed L (snd kv))) (filter (fun kv => b (fst kv)) l)).
Proof.
  induction 1 as [|[k x] l Hx Hl IH]; auto. cbn [map filter fst snd] in *. cbn [filter_keys]. fold filter_keys. rewrite Hx. cbn [bind]. rewrite IH. cbn [bind].
  destruct (b k); reflexivity.
Qed.
