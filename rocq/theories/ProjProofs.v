(** Lemmas about projections. *)
From Coq Require Import String.
From Verif Require Import Base Num NumFacts Axis Calc Content Fill FillSpec FillProofs FillProofs2 FillProofs3 FillMain
  HistAlg AlgSpec HistAlgProofs HistAlgMain Nd NdProofs Proj ProjSpec.
Local Open Scope list_scope.

(** ** Cells as array elements *)
Lemma ravel_last ts k : forall ss j, length ss = length ts -> ravel (ts ++ [k]) (ss ++ [j]) = ravel ts ss * k + j.
Proof.
  induction ts as [|t ts IH]; intros [|s ss] j H; cbn [length] in H; try lia; cbn [app ravel fold_right].
  - lia.
  - rewrite IH by lia. fold (prod (ts ++ [k])). fold (prod ts).
    assert (E : prod (ts ++ [k]) = prod ts * k).
    { clear. induction ts as [|t ts IH]; cbn [app prod fold_right]; [lia|]. fold (prod (ts ++ [k])). fold (prod ts). rewrite IH. lia. }
    rewrite E. lia.
Qed.
Lemma prod_shape L : prod (l_shape L) = l_size L.
Proof.
  unfold l_shape, l_size, l_rows. induction (l_tots L) as [|t ts IH]; cbn [app prod fold_right]; [lia|].
  fold (prod (ts ++ [l_last L])). rewrite IH. lia.
Qed.
Lemma in_shape_index L ss j : in_shape L ss -> j < l_last L -> Forall2 lt (ss ++ [j]) (l_shape L).
Proof. intros H Hj. unfold l_shape. apply Forall2_app; auto. Qed.
Lemma shape_index L i : Forall2 lt i (l_shape L) -> exists ss j, i = ss ++ [j] /\ in_shape L ss /\ j < l_last L.
Proof.
  unfold l_shape. intros H. apply Forall2_app_inv_r in H. destruct H as (ss & js & Hs & Hj & E).
  inversion Hj as [|j ? t ? Hj1 Hj2]; subst. inversion Hj2; subst. exists ss, j. auto.
Qed.
Lemma aget_cell L d ss j : length ss = length (l_tots L) ->
  aget (l_shape L) d (ss ++ [j]) = nth (ravel (l_tots L) ss * l_last L + j) d nzero.
Proof. intros H. unfold aget, l_shape. rewrite ravel_last by auto. reflexivity. Qed.

(** ** projarray *)
Lemma pad_keep_last k : pad_keep k (S (length k)) = k ++ [true].
Proof.
  unfold pad_keep. rewrite seq_S, map_app. cbn [map Nat.add]. rewrite nth_overflow by lia. f_equal.
  apply nth_ext with (d := true) (d' := true); [rewrite map_length, seq_length; auto|].
  intros i Hi. rewrite map_length, seq_length in Hi.
  rewrite nth_indep with (d' := nth 0 k true) by (rewrite map_length, seq_length; auto).
  rewrite (map_nth (fun j => nth j k true)). rewrite seq_nth by auto. reflexivity.
Qed.
Lemma select_app {A} k : forall (l : list A) k' l', length k = length l -> select (k ++ k') (l ++ l') = select k l ++ select k' l'.
Proof.
  induction k as [|b k IH]; intros [|x l] k' l' H; cbn [length] in H; try lia; auto.
  cbn [app select]. rewrite IH by lia. destruct b; reflexivity.
Qed.
Lemma select_shape k L : length k = length (l_tots L) ->
  select (k ++ [true]) (l_shape L) = l_shape (layout_keep k L).
Proof. intros H. unfold l_shape. rewrite select_app by auto. reflexivity. Qed.
Definition proj_data (k : list bool) (L : layout) (d : list Num) : list Num := asum (k ++ [true]) (l_shape L) d.
Lemma projarray_embed k L d : length k = length (l_tots L) ->
  projarray k (PArr (l_shape L) d) = Ok (PArr (l_shape (layout_keep k L)) (proj_data k L d)).
Proof.
  intros H. unfold projarray. cbn [as_array bind fst snd].
  assert (E : length (l_shape L) = S (length k)) by (unfold l_shape; rewrite app_length; cbn [length]; lia).
  rewrite E. replace (Nat.ltb (S (length k)) (length k)) with false by (symmetry; apply Nat.ltb_ge; lia).
  rewrite pad_keep_last, select_shape by auto. reflexivity.
Qed.
Lemma proj_data_length k L d : length k = length (l_tots L) -> length (proj_data k L d) = l_size (layout_keep k L).
Proof. intros H. unfold proj_data. rewrite asum_length, select_shape by auto. apply prod_shape. Qed.

Lemma indices_app sh k : indices (sh ++ [k]) = flat_map (fun i => map (fun j => i ++ [j]) (seq 0 k)) (indices sh).
Proof.
  induction sh as [|n sh IH]; cbn [app indices].
  - cbn [flat_map app]. rewrite app_nil_r. induction (seq 0 k) as [|x l IHl]; cbn [flat_map map app]; [reflexivity|f_equal; exact IHl].
  - rewrite IH. clear IH. induction (seq 0 n) as [|x l IHl]; auto. cbn [flat_map]. rewrite IHl. rewrite flat_map_app. f_equal.
    clear. induction (indices sh) as [|i l IH]; auto. cbn [flat_map map]. rewrite map_app, IH, map_map. reflexivity.
Qed.
Lemma nsum_filter {A} (g : A -> Num) p l : nsum (map g (filter p l)) = nsum (map (fun x => if p x then g x else nzero) l).
Proof. induction l as [|x l IH]; auto. cbn [filter map]. destruct (p x); cbn [map]; rewrite ?nsum_cons, IH; auto. rewrite nadd_0_l. reflexivity. Qed.
Lemma nsum_single (f : nat -> Num) j n : j < n -> nsum (map (fun x => if Nat.eqb x j then f x else nzero) (seq 0 n)) = f j.
Proof.
  intros H. assert (G : forall a, a <= j < a + n -> nsum (map (fun x => if Nat.eqb x j then f x else nzero) (seq a n)) = f j).
  { clear H. induction n as [|n IH]; intros a Ha; [lia|]. cbn [seq map]. rewrite nsum_cons. destruct (Nat.eqb a j) eqn:E.
    - apply Nat.eqb_eq in E. subst a. rewrite nsum_zero; [apply nadd_0_r|]. intros x Hx. apply in_map_iff in Hx.
      destruct Hx as (y & <- & Hy). apply in_seq in Hy. replace (Nat.eqb y j) with false; auto. symmetry. apply Nat.eqb_neq. lia.
    - apply Nat.eqb_neq in E. rewrite nadd_0_l. apply IH. lia. }
  apply G. lia.
Qed.
Lemma idx_eqb_snoc a b j j' : idx_eqb (a ++ [j]) (b ++ [j']) = idx_eqb a b && Nat.eqb j j'.
Proof.
  destruct (idx_eqb (a ++ [j]) (b ++ [j'])) eqn:E.
  - apply idx_eqb_eq in E. apply app_inj_tail in E. destruct E as (-> & ->). rewrite idx_eqb_refl, Nat.eqb_refl. reflexivity.
  - symmetry. apply not_true_is_false. intros H. apply andb_true_iff in H. destruct H as (H1 & H2).
    apply idx_eqb_eq in H1. apply Nat.eqb_eq in H2. subst. rewrite idx_eqb_refl in E. discriminate.
Qed.

(** The elements of the projected array are sums over the removed axes. *)
Lemma proj_data_cell k L d ss j : length k = length (l_tots L) -> in_shape (layout_keep k L) ss -> j < l_last L ->
  nth (ravel (l_tots (layout_keep k L)) ss * l_last (layout_keep k L) + j) (proj_data k L d) nzero
  = nsum (map (fun ss' => nth (ravel (l_tots L) ss' * l_last L + j) d nzero) (slots_over k (l_tots L) ss)).
Proof.
  intros H Hs Hj. assert (Ls : length ss = length (l_tots (layout_keep k L))) by (eapply Forall2_length; eauto).
  rewrite <- aget_cell by auto. unfold proj_data. rewrite <- select_shape by auto.
  assert (Hi : Forall2 lt (ss ++ [j]) (select (k ++ [true]) (l_shape L))).
  { rewrite select_shape by auto. apply in_shape_index; auto. }
  rewrite aget_asum by auto. unfold l_shape at 2. rewrite indices_app.
  rewrite nsum_filter, map_flat_map, nsum_flat_map. unfold slots_over. rewrite nsum_filter. f_equal. apply map_ext_in.
  intros i Hin. apply indices_in in Hin. assert (Li : length i = length (l_tots L)) by (eapply Forall2_length; eauto).
  rewrite map_map.
  transitivity (nsum (map (fun x => if Nat.eqb x j then (fun x => if idx_eqb (select k i) ss then aget (l_shape L) d (i ++ [x]) else nzero) x else nzero) (seq 0 (l_last L)))).
  - f_equal. apply map_ext. intros x. rewrite select_app by congruence. cbn [select]. rewrite idx_eqb_snoc.
    destruct (Nat.eqb x j); [rewrite andb_true_r|rewrite andb_false_r]; reflexivity.
  - rewrite nsum_single by auto. destruct (idx_eqb (select k i) ss); auto. apply aget_cell; auto.
Qed.

(** ** embed *)
Lemma embed_items_map L l : embed_items (embed L) l = map (fun kv => (fst kv, embed L (snd kv))) l.
Proof. induction l as [|[k x] l IH]; auto. cbn [embed_items map fst snd]. fold (embed_items (embed L) l). rewrite IH. reflexivity. Qed.
Lemma embed_dict L l : embed L (CDict l) = PDict (map (fun kv => (fst kv, embed L (snd kv))) l).
Proof. cbn [embed]. rewrite embed_items_map. reflexivity. Qed.
Lemma assoc_map {A B} (f : A -> B) k l : assoc k (map (fun kv => (fst kv, f (snd kv))) l) = option_map f (assoc k l).
Proof. induction l as [|[k' v] l IH]; auto. cbn [map assoc fst snd]. destruct (gkey_eqb k k'); auto. Qed.
Lemma has_key_map {A B} (f : A -> B) k l : has_key k (map (fun kv => (fst kv, f (snd kv))) l) = has_key k l.
Proof. unfold has_key. rewrite assoc_map. destruct (assoc k l); reflexivity. Qed.

Lemma any_items_embed L n m l l' : Forall (fun kv => content_ok L n (snd kv)) l -> Forall (fun kv => content_ok L n (snd kv)) m ->
  (forall a b c, content_ok L n a -> content_ok L n b -> content_add 0 0 a b = Ok c -> addany (embed L a) (embed L b) = Ok (embed L c)) ->
  add_items (content_add 0 0) m l = Ok l' ->
  any_items addany (map (fun kv => (fst kv, embed L (snd kv))) m) (map (fun kv => (fst kv, embed L (snd kv))) l)
  = Ok (map (fun kv => (fst kv, embed L (snd kv))) l').
Proof.
  intros Hl Hm IH. revert l'. induction Hl as [|[k x] l Hx Hl IHl]; intros l' E; cbn [add_items map any_items fst snd] in *.
  - inversion E; subst. reflexivity.
  - fold (add_items (content_add 0 0) m l) in E.
    fold (any_items addany (map (fun kv => (fst kv, embed L (snd kv))) m) (map (fun kv => (fst kv, embed L (snd kv))) l)).
    rewrite assoc_map. destruct (assoc k m) as [x'|] eqn:A; cbn [option_map].
    + destruct (content_add 0 0 x x') as [y|e] eqn:Ey; cbn [bind] in E; [|discriminate].
      rewrite Forall_forall in Hm. rewrite (IH x x' y); auto; [|apply (Hm (k, x')); apply assoc_in; auto]. cbn [bind].
      destruct (add_items (content_add 0 0) m l) as [t|e]; cbn [bind] in E; [|discriminate]. inversion E; subst.
      rewrite (IHl t) by auto. reflexivity.
    + cbn [bind] in *. destruct (add_items (content_add 0 0) m l) as [t|e]; cbn [bind] in E; [|discriminate]. inversion E; subst.
      rewrite (IHl t) by auto. reflexivity.
Qed.
Lemma filter_map_keys {A B} (f : A -> B) (p : gkey -> bool) l :
  filter (fun kv => p (fst kv)) (map (fun kv => (fst kv, f (snd kv))) l) = map (fun kv => (fst kv, f (snd kv))) (filter (fun kv => p (fst kv)) l).
Proof. induction l as [|[k v] l IH]; auto. cbn [map filter fst snd]. rewrite IH. destruct (p k); reflexivity. Qed.
Lemma addany_embed L n : forall a b c, content_ok L n a -> content_ok L n b -> content_add 0 0 a b = Ok c ->
  addany (embed L a) (embed L b) = Ok (embed L c).
Proof.
  induction n as [|n IH]; intros a b c Ha Hb E; destruct a as [|d|l], b as [|e|m]; try contradiction; cbn [content_ok] in *.
  - cbn [content_add] in E. rewrite arr_add_same in E by congruence. cbn [rmap] in E. inversion E; subst.
    cbn [embed addany py_add as_array bind fst snd]. rewrite badd_same by (rewrite prod_shape; auto). reflexivity.
  - destruct Ha as (Fl & _), Hb as (Fm & _). rewrite !embed_dict. cbn [content_add] in E. cbn [addany].
    destruct (add_items (content_add 0 0) m l) as [l'|e] eqn:Ei; cbn [bind] in E; [|discriminate]. inversion E; subst.
    rewrite (any_items_embed L n m l l') by auto. cbn [bind]. rewrite embed_dict, map_app. do 3 f_equal.
    unfold new_items. rewrite <- (filter_map_keys (embed L) (fun k => negb (has_key k l))).
    apply filter_ext. intros [k x]. cbn [fst]. rewrite has_key_map. reflexivity.
Qed.
