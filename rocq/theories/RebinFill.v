(** Rebinning preserves totals and commutes with filling. *)
From Coq Require Import String Permutation.
From Verif Require Import Base Num NumFacts Axis AxisSpec AxisProofs AxisProofs2 Calc Content Fill FillSpec FillProofs FillProofs2 FillProofs3 FillMain
  HistAlg AlgSpec HistAlgProofs HistAlgMain Nd NdProofs Proj ProjSpec ProjProofs ProjMain ProjMain2 ProjFill ProjLaws ProjDrop Remap Select SelSpec SelContent SelMain SelFill
  Rebin RebinSpec RebinAxis RebinContent.
Local Open Scope list_scope.

(** ** Totals *)
Lemma nsum_merged (parts : nat -> list nat) n n' : flat_map parts (seq 0 n') = seq 0 n -> forall (sh : list nat) q (F : list nat -> Num), q < length sh -> nth q sh 0 = n ->
  nsum (map (fun ss => nsum (map (fun j => F (at_axis q (fun _ => j) ss)) (parts (nth q ss 0)))) (indices (at_axis q (fun _ => n') sh))) = nsum (map F (indices sh)).
Proof.
  intros Hp. induction sh as [|m sh IH]; intros [|q] F Hq Hn; cbn [length nth at_axis] in *; try lia.
  - subst m. cbn [indices]. rewrite !map_flat_map, !nsum_flat_map, <- Hp, map_flat_map, nsum_flat_map. f_equal. apply map_ext. intros i. rewrite map_map. cbn [nth at_axis].
    rewrite nsum_swap. f_equal. apply map_ext. intros j. rewrite map_map. reflexivity.
  - cbn [indices]. rewrite !map_flat_map, !nsum_flat_map. f_equal. apply map_ext. intros i. rewrite !map_map. cbn [nth at_axis]. apply (IH q (fun s => F (i :: s))); auto. lia.
Qed.
Lemma total_cmap f L L' n j : (forall d, length d = l_size L -> total L' 0 j (CArr (f d)) = total L 0 j (CArr d)) ->
  forall c, content_ok L n c -> total L' n j (cmap f c) = total L n j c.
Proof.
  intros Hf. induction n as [|n IH]; intros [|d|l] Hc; try contradiction.
  - apply Hf. exact Hc.
  - rewrite cmap_dict. cbn [total]. rewrite map_map. f_equal. apply map_ext_in. intros [k x] Hx. destruct Hc as (Hc & _). rewrite Forall_forall in Hc. cbn [snd]. apply IH. exact (Hc _ Hx).
Qed.
Lemma merge_total q rs n' L ng c j : q < length (l_tots L) -> flat_map (part rs) (seq 0 n') = seq 0 (nth q (l_tots L) 0) -> j < l_last L -> hist_ok L ng c ->
  total (layout_with q n' L) ng j (cmap (merge_data q rs n' L) c) = total L ng j c.
Proof.
  intros Hq Hp Hj [->|Hc]; [destruct ng; reflexivity|]. apply total_cmap; auto. intros d Hd.
  pose proof (total_cells L 0 j (CArr d) Hd) as E1. rewrite E1.
  pose proof (total_cells (layout_with q n' L) 0 j (CArr (merge_data q rs n' L d)) (merge_length q rs n' L d Hq)) as E2. rewrite E2.
  cbn [paths map]. f_equal. f_equal. rewrite <- (nsum_merged (part rs) _ n' Hp (l_tots L) q) by auto. cbn [layout_with l_tots]. f_equal. apply map_ext_in. intros ss Hs. apply indices_in in Hs.
  assert (Hl : q < length ss) by (erewrite Forall2_length by exact Hs; rewrite at_axis_length; auto).
  assert (exists i, nth_error ss q = Some i) as (i & Hi) by (apply nth_error_Some in Hl; destruct (nth_error ss q); [eauto|congruence]).
  rewrite (nth_error_nth _ _ 0 Hi). apply (merge_cell q rs n' L d ss j i); auto. intros k Hk.
  assert (Hi' : i < n') by (apply (in_shape_nth (layout_with q n' L)) in Hi; auto; cbn [layout_with l_tots] in Hi; rewrite at_axis_nth in Hi by auto; auto).
  assert (In k (seq 0 (nth q (l_tots L) 0))) as H by (rewrite <- Hp; apply in_flat_map; exists i; split; [apply in_seq; lia|auto]). apply in_seq in H. lia.
Qed.

(** ** Slots before and after *)
Lemma slot_union P ks ks' parts slot slot' x i : disjoint_keys ks -> disjoint_keys ks' -> unions_of P ks ks' parts -> P x ->
  slot_matches_key ks slot x -> slot_matches_key ks' slot' x -> i < length ks' ->
  slot' = Some (Z.of_nat i) <-> exists j, In j (parts i) /\ slot = Some (Z.of_nat j).
Proof.
  intros Hd Hd' U Px M M' Hi. destruct (nth_error ks' i) as [k'|] eqn:Ek'; [|apply nth_error_None in Ek'; lia].
  destruct (U i k' Ek') as (_ & Ul & Ux). specialize (Ux x Px). split.
  - intros ->. destruct M' as (i' & k'' & Ei & Nk & C). assert (i' = i) by lia. subst i'. rewrite Ek' in Nk. inversion Nk; subst k''.
    apply Ux in C. destruct C as (j & k & Hj & Nj & C). exists j. split; auto.
    destruct slot as [z|]; [|exfalso; exact (M k (nth_error_In _ _ Nj) C)]. destruct M as (j' & k1 & -> & Nk1 & C1). do 2 f_equal. eapply Hd; eauto.
  - intros (j & Hj & ->). destruct M as (j' & k & Ej & Nk & C). assert (j' = j) by lia. subst j'.
    assert (C' : contains k' x) by (apply Ux; eauto). destruct slot' as [z|]; [|exfalso; exact (M' k' (nth_error_In _ _ Ek') C')].
    destruct M' as (i' & k1 & -> & Nk1 & C1). do 2 f_equal. eapply Hd'; eauto.
Qed.
Lemma slots_union q parts slot slot' ss rs : nth_error rs q = Some slot -> q < length ss ->
  (forall i, nth_error ss q = Some i -> (slot' = Some (Z.of_nat i) <-> exists j, In j (parts i) /\ slot = Some (Z.of_nat j))) ->
  slots_match ss (at_axis q (fun _ => slot') rs) = existsb (fun s => slots_match s rs) (map (fun j => at_axis q (fun _ => j) ss) (parts (nth q ss 0))).
Proof.
  intros N Hq H. assert (exists i, nth_error ss q = Some i) as (i & Hi) by (apply nth_error_Some in Hq; destruct (nth_error ss q); [eauto|congruence]).
  specialize (H i Hi). rewrite (nth_error_nth _ _ 0 Hi). destruct (slots_match ss (at_axis q (fun _ => slot') rs)) eqn:E; symmetry.
  - pose proof (slots_match_nth q _ _ _ E Hi) as Es. rewrite nth_error_at_axis, N in Es. cbn in Es. inversion Es as [Es']. apply H in Es'. destruct Es' as (j & Hj & Ej).
    apply existsb_exists. exists (at_axis q (fun _ => j) ss). split; [apply (in_map (fun j0 => at_axis q (fun _ => j0) ss)); auto|]. rewrite <- E. symmetry. apply slots_match_at with (slot := slot); auto.
    intros i' Hi'. assert (i' = i) by congruence. subst i'. rewrite H, Ej. split; auto. intros _. exists j. auto.
  - destruct (existsb _ _) eqn:X; auto. apply existsb_exists in X. destruct X as (s & Hs & M). apply in_map_iff in Hs. destruct Hs as (j & <- & Hj).
    pose proof (slots_match_nth q _ _ j M) as Z. rewrite nth_error_at_axis, Hi in Z. specialize (Z eq_refl). rewrite N in Z. inversion Z as [Z'].
    rewrite <- E, <- M. symmetry. apply slots_match_at with (slot := slot); auto. intros i' Hi'. assert (i' = i) by congruence. subst i'. rewrite H, Z'. split; auto. intros _. exists j. auto.
Qed.
Lemma at_axis_in_shape q n' L ss j : in_shape (layout_with q n' L) ss -> j < nth q (l_tots L) 0 -> in_shape L (at_axis q (fun _ => j) ss).
Proof.
  unfold in_shape. cbn [layout_with l_tots]. generalize (l_tots L). intros l. revert q ss. induction l as [|t l IH]; intros [|q] ss Hs Hj; cbn [nth at_axis] in *; inversion Hs; subst; cbn; constructor; auto.
Qed.
Lemma at_axis_inj q (ss : list nat) i j : q < length ss -> at_axis q (fun _ => i) ss = at_axis q (fun _ => j) ss -> i = j.
Proof. intros Hq E. apply (f_equal (fun l => nth_error l q)) in E. rewrite !nth_error_at_axis in E. apply nth_error_Some in Hq. destruct (nth_error ss q); [cbn in E; congruence|congruence]. Qed.

Lemma merge_fill q L rs ng P ks ks' m data c0 c :
  q < length (l_tots L) -> length ks = nth q (l_tots L) 0 -> length ks' <= length ks -> disjoint_keys ks -> disjoint_keys ks' -> unions_of P ks ks' (part rs) ->
  Forall (fun d => P (d_x d) /\ same_row_but q ks ks' (d_x d) (d_old d) (d_new d)) data ->
  no_masked_profile L (map d_new data) ->
  fill_pre L ng m (map d_old data) c0 -> fill_rows L ng m (map d_old data) c0 = (c, None) ->
  exists y, fill_rows (layout_with q (length ks') L) ng m (map d_new data) (cmap (merge_data q rs (length ks') L) c0) = (y, None) /\
    same_content (cmap (merge_data q rs (length ks') L) c) y.
Proof.
  intros Hq Hn Hle Hd Hd' U Hg Hmp HP Ec. set (L' := layout_with q (length ks') L).
  pose (pre := fun ss : list nat => map (fun j => at_axis q (fun _ => j) ss) (part rs (nth q ss 0))).
  pose (good := fun d => row_ok L ng (d_old d) /\ row_ok L' ng (d_new d) /\ P (d_x d) /\ same_row_but q ks ks' (d_x d) (d_old d) (d_new d)).
  assert (Hg' : Forall good data).
  { destruct HP as (_ & _ & Hr & _). apply Forall_forall. intros d Hin. rewrite Forall_forall in Hg, Hr. destruct (Hg d Hin) as (G1 & G2).
    assert (R : row_ok L ng (d_old d)) by (apply Hr, in_map; auto). split; [auto|split; [eapply same_row_ok; eauto|auto]]. }
  assert (Hss : forall ss, in_shape L' ss -> q < length ss) by (intros ss Hs; erewrite Forall2_length by exact Hs; cbn; rewrite at_axis_length; auto).
  assert (Hin : forall ss i, in_shape L' ss -> nth_error ss q = Some i -> i < length ks').
  { intros ss i Hs Hi. apply (in_shape_nth _ _ _ _ Hs) in Hi. unfold L' in Hi. cbn [layout_with l_tots] in Hi. rewrite at_axis_nth in Hi by auto. auto. }
  assert (Hpart : forall i, i < length ks' -> NoDup (part rs i) /\ forall k, In k (part rs i) -> k < nth q (l_tots L) 0).
  { intros i Hi. destruct (nth_error ks' i) as [k'|] eqn:E; [|apply nth_error_None in E; lia]. destruct (U i k' E) as (U1 & U2 & _). split; auto. intros k Hk. rewrite <- Hn. auto. }
  assert (Hex : forall ss, in_shape L' ss -> exists i, nth_error ss q = Some i /\ nth q ss 0 = i /\ i < length ks').
  { intros ss Hs. pose proof (Hss ss Hs) as X. apply nth_error_Some in X. destruct (nth_error ss q) as [i|] eqn:E; [|congruence]. exists i. split; [auto|split; [apply nth_error_nth; auto|eauto]]. }
  assert (Hr : forall r, good r -> row_ok L ng (d_old r) /\ row_ok L' ng (d_new r) /\ r_keys (d_new r) = r_keys (d_old r) /\
    r_prof (d_new r) = r_prof (d_old r) /\ r_w (d_new r) = r_w (d_old r) /\ r_w2 (d_new r) = r_w2 (d_old r)).
  { intros r (R1 & R2 & _ & E1 & E2 & E3 & E4 & _). auto 10. }
  assert (Hfl : forall d, length d = l_size L -> length (merge_data q rs (length ks') L d) = l_size L') by (intros d _; apply merge_length; auto).
  assert (Ff : filter (fun _ : datum => true) data = data) by (clear; induction data; cbn; congruence).
  destruct (remap_fill_pre L L' ng (merge_data q rs (length ks') L) pre datum d_old d_new (fun _ => true) good) with (m := m) (rows := data) (c0 := c0) (c := c) as (y & Y1 & _ & Y3); auto.
  - intros d ss j _ Hs Hj. destruct (Hex ss Hs) as (i & Ei & En & Hi). unfold pre. rewrite En, map_map. apply merge_cell; auto. apply Hpart; auto.
  - intros ss Hs. destruct (Hex ss Hs) as (i & Ei & En & Hi). unfold pre. rewrite En. destruct (Hpart i Hi) as (P1 & P2). split.
    + apply FinFun.Injective_map_NoDup; auto. intros a b. apply at_axis_inj; auto.
    + apply Forall_map, Forall_forall. intros j Hj. eapply at_axis_in_shape; eauto.
  - intros d ss (_ & _ & Px & _ & _ & _ & _ & slot & slot' & N & E & M & M') Hs. cbn [andb]. rewrite E. apply slots_union with (slot := slot); auto.
    intros i Hi. apply (slot_union P ks ks' (part rs) slot slot' (d_x d) i); eauto.
  - rewrite Ff. destruct HP as (HL & Hm & _ & Hc & _). split; [apply layout_with_ok; auto; lia|]. split; [exact Hm|]. split; [|split].
    + apply Forall_map. eapply Forall_impl; [|exact Hg']. intros r R. apply R.
    + destruct Hc as [->|Hc]; [left; auto|right; eapply cmap_ok; eauto].
    + exact Hmp.
  - exists y. rewrite Ff in Y1. split; auto. apply Y3. apply forallb_forall. auto.
Qed.
