(** Selecting and filling. *)
From Coq Require Import String Permutation.
From Verif Require Import Base Num NumFacts Axis AxisSpec AxisProofs AxisProofs2 Calc Content Fill FillSpec FillProofs FillProofs2 FillProofs3 FillMain
  HistAlg AlgSpec HistAlgProofs HistAlgMain Nd NdProofs Proj ProjSpec ProjProofs ProjMain ProjMain2 ProjFill ProjLaws ProjDrop Remap Select SelSpec SelContent SelMain.
Local Open Scope list_scope.

Lemma nth_error_firstn_lt {A} n (l : list A) : forall i, i < n -> nth_error (firstn n l) i = nth_error l i.
Proof. revert l. induction n as [|n IH]; intros [|x l] [|i] H; cbn; auto; try lia. apply IH. lia. Qed.
Lemma nth_error_skipn_add {A} n (l : list A) : forall i, nth_error (skipn n l) i = nth_error l (n + i).
Proof. revert l. induction n as [|n IH]; intros [|x l] i; cbn; auto. destruct i; auto. Qed.
Lemma slice_list_nth {A} s (l : list A) i : i < slice_len s (length l) -> nth_error (slice_list s l) i = nth_error l (slice_lo s (length l) + i).
Proof. intros H. unfold slice_list. rewrite nth_error_firstn_lt by auto. apply nth_error_skipn_add. Qed.
Lemma slice_hi_le s n : slice_hi s n <= n.
Proof. unfold slice_hi, clip. destruct s as [lo hi]. destruct hi; repeat destruct (_ <? _)%Z; lia. Qed.
Lemma slice_list_length {A} s (l : list A) : length (slice_list s l) = slice_len s (length l).
Proof. unfold slice_list. rewrite firstn_length, skipn_length. pose proof (slice_hi_le s (length l)). unfold slice_len. lia. Qed.

(** Slots before and after. *)
Section Slots.
  Variables (ks ks' : list key) (s : slc) (wanted : Num -> Prop).
  Hypothesis Hd : disjoint_keys ks.
  Hypothesis Hk : keeps_inside wanted ks s ks'.
  Let lo := slice_lo s (length ks).
  Lemma new_key i k : nth_error ks' i = Some k <-> i < length ks' /\ nth_error ks (lo + i) = Some k.
  Proof.
    clear Hd. destruct Hk as (-> & _). rewrite slice_list_length. split.
    - intros H. assert (i < length (slice_list s ks)) as Hi by (apply nth_error_Some; congruence). rewrite slice_list_length in Hi. split; auto. rewrite slice_list_nth in H; auto.
    - intros (Hi & H). rewrite slice_list_nth; auto.
  Qed.
  Lemma slot_cut slot slot' x i : slot_matches_key ks slot x -> slot_matches_key ks' slot' x -> i < length ks' ->
    (slot' = Some (Z.of_nat i) <-> slot = Some (Z.of_nat (lo + i))) /\ (slot = Some (Z.of_nat (lo + i)) -> wanted x).
  Proof.
    intros M M' Hi. split; [split|].
    - intros ->. destruct M' as (j & k & Ej & Nk & C). assert (j = i) by lia. subst j. apply new_key in Nk. destruct Nk as (_ & Nk).
      destruct slot as [z|]; [|exfalso; exact (M k (nth_error_In _ _ Nk) C)]. destruct M as (j & k' & -> & Nk' & C'). f_equal. f_equal. eapply Hd; eauto.
    - intros ->. destruct M as (j & k & Ej & Nk & C). assert (j = lo + i) by lia. subst j.
      assert (Nk' : nth_error ks' i = Some k) by (apply new_key; auto).
      destruct slot' as [z|]; [|exfalso; exact (M' k (nth_error_In _ _ Nk') C)]. destruct M' as (j & k' & -> & Nk2 & C'). apply new_key in Nk2. destruct Nk2 as (_ & Nk2).
      f_equal. f_equal. assert (lo + j = lo + i) by (eapply Hd; eauto). lia.
    - intros ->. destruct M as (j & k & Ej & Nk & C). assert (j = lo + i) by lia. subst j. destruct Hk as (E & H). apply (H (lo + i) k x); auto.
      unfold in_slice. rewrite E, slice_list_length in Hi. unfold slice_len, lo in *. lia.
  Qed.
  Lemma slot_stays slot slot' x : slot_matches_key ks slot x -> slot_matches_key ks' slot' x -> wanted x -> slot <> None -> slot' <> None.
  Proof.
    intros M M' W Hs ->. destruct slot as [z|]; [|congruence]. destruct M as (j & k & -> & Nk & C). destruct Hk as (E & H).
    apply (H j k x) in W; auto. destruct W as (W1 & W2). apply (M' k); auto. rewrite E. apply nth_error_In with (n := j - lo).
    rewrite slice_list_nth by (unfold slice_len, lo in *; lia). fold lo. replace (lo + (j - lo)) with j by (unfold lo in *; lia). auto.
  Qed.
End Slots.

Lemma slots_match_at q (f : nat -> nat) slot slot' : forall ss rs, nth_error rs q = Some slot ->
  (forall i, nth_error ss q = Some i -> (slot' = Some (Z.of_nat i) <-> slot = Some (Z.of_nat (f i)))) ->
  slots_match ss (at_axis q (fun _ => slot') rs) = slots_match (at_axis q f ss) rs.
Proof.
  induction q as [|q IH]; intros [|i ss] [|z rs] E H; cbn [nth_error] in *; try discriminate; cbn [at_axis slots_match]; auto.
  - inversion E; subst z. specialize (H i eq_refl). destruct slot' as [z'|], slot as [z|]; auto.
    + f_equal. destruct H as (H1 & H2). destruct (Z.eqb_spec (Z.of_nat i) z') as [E1|N1], (Z.eqb_spec (Z.of_nat (f i)) z) as [E2|N2]; auto; exfalso.
      * apply N2. assert (Some z = Some (Z.of_nat (f i))) by (apply H1; congruence). congruence.
      * apply N1. assert (Some z' = Some (Z.of_nat i)) by (apply H2; congruence). congruence.
    + destruct (Z.eqb_spec (Z.of_nat i) z') as [E1|N]; auto. exfalso. destruct H as (H & _). rewrite E1 in H. specialize (H eq_refl). discriminate.
    + destruct (Z.eqb_spec (Z.of_nat (f i)) z) as [E1|N]; auto. exfalso. destruct H as (_ & H). rewrite E1 in H. specialize (H eq_refl). discriminate.
  - destruct z; auto. f_equal. apply IH; auto.
Qed.
Lemma slots_match_nth q : forall ss rs i, slots_match ss rs = true -> nth_error ss q = Some i -> nth_error rs q = Some (Some (Z.of_nat i)).
Proof.
  induction q as [|q IH]; intros [|j ss] [|[z|] rs] i M E; cbn [nth_error slots_match] in *; try discriminate; apply andb_prop in M; destruct M as (M1 & M2).
  - inversion E; subst. apply Z.eqb_eq in M1. congruence.
  - eauto.
Qed.
Lemma nth_error_at_axis {A} (f : A -> A) l : forall q, nth_error (at_axis q f l) q = option_map f (nth_error l q).
Proof. induction l as [|x l IH]; intros [|q]; cbn; auto. Qed.
Lemma in_at_axis {A} (y : A) x l : forall q, In y (at_axis q (fun _ => x) l) -> y = x \/ In y l.
Proof. induction l as [|z l IH]; intros [|q] H; cbn in *; auto; destruct H; auto. apply IH in H. tauto. Qed.
Lemma in_shape_nth L ss q i : in_shape L ss -> nth_error ss q = Some i -> i < nth q (l_tots L) 0.
Proof.
  unfold in_shape. intros H. revert q. induction H as [|a b l m Hab H IH]; intros [|q] E; cbn in *; try discriminate; auto. inversion E; subst; auto.
Qed.

(** [data] lists the value of the axis and the row that each of the two histograms sees. *)
Definition datum : Type := Num * row * row.
Definition d_x (d : datum) : Num := fst (fst d).
Definition d_old (d : datum) : row := snd (fst d).
Definition d_new (d : datum) : row := snd d.

Lemma select_fill q L n' s ng ks ks' (wanted : Num -> bool) m data c0 c :
  q < length (l_tots L) -> length ks = nth q (l_tots L) 0 -> length ks' = n' -> disjoint_keys ks -> keeps_inside (fun x => wanted x = true) ks s ks' ->
  Forall (fun d => row_ok (layout_with q n' L) ng (d_new d) /\ same_row_but q ks ks' (d_x d) (d_old d) (d_new d)) data ->
  layout_ok (layout_with q n' L) ->
  fill_pre L ng m (map d_old data) c0 -> fill_rows L ng m (map d_old data) c0 = (c, None) ->
  exists y, fill_rows (layout_with q n' L) ng m (map d_new (filter (fun d => wanted (d_x d)) data)) (cmap (cut_data q s L) c0) = (y, None) /\
    same_cells (layout_with q n' L) (cmap (cut_data q s L) c) y /\
    (forallb (fun d => wanted (d_x d)) data = true -> same_content (cmap (cut_data q s L) c) y).
Proof.
  intros Hq Hn Hn' Hd Hk Hg HL' HP Ec.
  assert (EL : cut_len q s L = n') by (unfold cut_len; rewrite <- Hn, <- Hn'; destruct Hk as (-> & _); rewrite slice_list_length; reflexivity).
  pose (pre := fun ss : list nat => [at_axis q (fun i => slice_lo s (nth q (l_tots L) 0) + i) ss]).
  pose (good := fun d => row_ok L ng (d_old d) /\ row_ok (layout_with q n' L) ng (d_new d) /\ same_row_but q ks ks' (d_x d) (d_old d) (d_new d)).
  apply (remap_fill L (layout_with q n' L) ng (cut_data q s L) pre datum d_old d_new (fun d => wanted (d_x d)) good) with (c0 := c0); auto.
  - intros d _. rewrite <- EL, cut_data_length, prod_shape by auto. reflexivity.
  - intros d ss j _ Hs Hj. unfold pre. cbn [map]. rewrite <- EL in *. rewrite cut_data_cell by auto. rewrite nsum_cons. symmetry. apply nadd_0_r.
  - intros ss Hs. unfold pre. split; [constructor; [intros []|constructor]|]. constructor; auto. unfold in_shape in *. cbn [layout_with l_tots] in Hs.
    clear - Hs Hq EL. revert q ss Hs Hq EL. unfold cut_len. generalize (l_tots L). intros l q ss. revert l ss. induction q as [|q IH]; intros [|t l] ss Hs Hq EL; cbn [length nth at_axis] in *; try lia.
    + inversion Hs; subst. cbn. constructor; auto. pose proof (slice_hi_le s t). unfold slice_len in *. lia.
    + inversion Hs; subst. cbn. constructor; auto. apply IH; auto. lia.
  - intros d (H1 & H2 & E1 & E2 & E3 & E4 & _). auto 10.
  - intros d ss (H1 & H2 & _ & _ & _ & _ & slot & slot' & N & E & M & M') Hs. unfold pre. cbn [existsb]. rewrite orb_false_r.
    assert (Hi : forall i, nth_error ss q = Some i -> i < length ks').
    { intros i Hi. apply (in_shape_nth _ _ _ _ Hs) in Hi. cbn [layout_with l_tots] in Hi. rewrite at_axis_nth in Hi by auto. lia. }
    rewrite E, (slots_match_at q (fun i => slice_lo s (nth q (l_tots L) 0) + i) slot slot'); auto.
    + rewrite <- Hn. destruct (slots_match (at_axis q _ ss) (r_slots (d_old d))) eqn:X; [|apply andb_false_r].
      rewrite andb_true_r. assert (exists i, nth_error ss q = Some i) as (i & Ei).
      { assert (q < length ss) as Y by (erewrite Forall2_length by exact Hs; cbn; rewrite at_axis_length; auto). apply nth_error_Some in Y. destruct (nth_error ss q); [eauto|congruence]. }
      pose proof (slots_match_nth q _ _ (slice_lo s (length ks) + i) X) as Z. rewrite nth_error_at_axis, Ei in Z. specialize (Z eq_refl). rewrite N in Z. inversion Z; subst slot.
      exact (proj2 (slot_cut ks ks' s (fun x => wanted x = true) Hd Hk _ _ _ i M M' (Hi i Ei)) eq_refl).
    + intros i Ei. rewrite <- Hn. exact (proj1 (slot_cut ks ks' s (fun x => wanted x = true) Hd Hk _ _ _ i M M' (Hi i Ei))).
  - intros d (H1 & H2 & _ & _ & _ & _ & slot & slot' & N & E & M & M') W U In. rewrite E in In. apply in_at_axis in In. destruct In as [In|In]; [|auto].
    symmetry in In. revert In. eapply slot_stays; eauto. intros ->. apply U. eapply nth_error_In; eauto.
  - destruct HP as (_ & _ & Hr & _). apply Forall_forall. intros d Hin. rewrite Forall_forall in Hg, Hr. destruct (Hg d Hin) as (G1 & G2). split; [apply Hr, in_map; auto|auto].
Qed.

(** ** A cut *)
(** The row as a histogram without fixed axis [q] sees it. *)
Definition row_without (q : nat) (r : row) : row := {|
  r_keys := r_keys r; r_slots := remove_at q (r_slots r); r_prof := r_prof r; r_w := r_w r; r_w2 := r_w2 r |}.
Definition slot_is (q : nat) (z : Z) (r : row) : bool :=
  match nth_error (r_slots r) q with Some (Some y) => (y =? z)%Z | _ => false end.
Lemma Forall2_remove_at {A B} (R : A -> B -> Prop) l m : Forall2 R l m -> forall q, Forall2 R (remove_at q l) (remove_at q m).
Proof. induction 1; intros [|q]; cbn; auto. Qed.
Lemma slots_match_insert q z : forall ss rs, q <= length ss ->
  match nth_error rs q with Some (Some y) => (y =? Z.of_nat z)%Z | _ => false end && slots_match ss (remove_at q rs) = slots_match (insert_at q z ss) rs.
Proof.
  induction q as [|q IH]; intros [|i ss] [|y rs] H; cbn [length] in H; try lia; cbn [nth_error remove_at insert_at slots_match]; auto.
  - destruct y as [y|]; auto. rewrite Z.eqb_sym. reflexivity.
  - destruct y as [y|]; auto. rewrite Z.eqb_sym. reflexivity.
  - destruct y as [y|]; [|rewrite andb_false_r; auto]. rewrite <- IH by lia. destruct (nth_error rs q) as [[x|]|]; auto; rewrite ?andb_false_r; auto.
    destruct (x =? Z.of_nat z)%Z, (Z.of_nat i =? y)%Z; auto.
Qed.
Lemma in_remove_at {A} (y : A) l : forall q, In y (remove_at q l) -> In y l.
Proof. induction l as [|z l IH]; intros [|q] H; cbn in *; auto. destruct H; eauto. Qed.
Lemma cut_fill q L s ng m rows c0 c :
  q < length (l_tots L) -> cut_len q s L = 1 -> layout_ok (layout_without q L) ->
  fill_pre L ng m rows c0 -> fill_rows L ng m rows c0 = (c, None) ->
  exists y, fill_rows (layout_without q L) ng m (map (row_without q) (filter (slot_is q (Z.of_nat (slice_lo s (nth q (l_tots L) 0)))) rows)) (cmap (cut_data q s L) c0) = (y, None) /\
    same_cells (layout_without q L) (cmap (cut_data q s L) c) y /\
    (forallb (slot_is q (Z.of_nat (slice_lo s (nth q (l_tots L) 0)))) rows = true -> same_content (cmap (cut_data q s L) c) y).
Proof.
  intros Hq H1 HL' HP Ec. set (lo := slice_lo s (nth q (l_tots L) 0)).
  pose (pre := fun ss : list nat => [insert_at q lo ss]).
  assert (Hlo : lo < nth q (l_tots L) 0) by (pose proof (slice_hi_le s (nth q (l_tots L) 0)); unfold cut_len, slice_len in H1; fold lo in H1; lia).
  assert (Hl : forall ss, in_shape (layout_without q L) ss -> S (length ss) = length (l_tots L)).
  { intros ss Hs. erewrite Forall2_length by exact Hs. apply remove_at_length; auto. }
  rewrite <- (map_id rows) in HP, Ec.
  apply (remap_fill L (layout_without q L) ng (cut_data q s L) pre row (fun r => r) (row_without q) (slot_is q (Z.of_nat lo)) (row_ok L ng)) with (c0 := c0); auto.
  - intros d _. apply cut_dropped_length; auto.
  - intros d ss j _ Hs Hj. unfold pre. cbn [map]. rewrite cut_dropped_cell by auto. rewrite nsum_cons. symmetry. apply nadd_0_r.
  - intros ss Hs. unfold pre. split; [constructor; [intros []|constructor]|]. constructor; auto. apply insert_shape; auto.
  - intros r Hr. split; auto. destruct Hr as (R1 & R2 & R3 & R4). split; [|auto]. split; [auto|split; [auto|split; [|auto]]]. cbn. apply Forall2_remove_at; auto.
  - intros r ss Hr Hs. unfold pre. cbn [existsb]. rewrite orb_false_r. apply slots_match_insert. specialize (Hl ss Hs). lia.
  - intros r Hr _ U In. apply U. exact (in_remove_at _ _ q In).
  - destruct HP as (_ & _ & Hr & _). rewrite map_id in Hr. auto.
Qed.

(** ** A group axis *)
Definition key_kept (p : nat) (b : gkey -> bool) (r : row) : bool :=
  match nth_error (r_keys r) p with Some (Some k) => b k | _ => false end.
Lemma groups_fill p b L ng m rows c0 c : p < ng -> fill_pre L ng m rows c0 -> fill_rows L ng m rows c0 = (c, None) ->
  exists y, fill_rows L ng m (filter (key_kept p b) rows) (cfilter p b c0) = (y, None) /\ same_cells L (cfilter p b c) y /\
    (ng = 1 -> same_content (cfilter p b c) y).
Proof.
  intros Hp HP Ec.
  assert (HP' : fill_pre L ng m (filter (key_kept p b) rows) (cfilter p b c0)).
  { destruct HP as (H1 & H2 & H3 & H4 & H5). split; [auto|split; [auto|split; [apply Forall_filter; auto|split]]].
    - destruct H4 as [->|H4]; [left; destruct p; auto|right; apply cfilter_ok; auto].
    - destruct H5 as [H5|H5]; [left; auto|right; apply Forall_filter; auto]. }
  destruct (fill_ok _ _ _ _ _ HP) as (c1 & E1 & Oc & Vc & Bc). rewrite Ec in E1. inversion E1; subst c1. clear E1.
  destruct (fill_ok _ _ _ _ _ HP') as (y & Ey & Oy & Vy & By). exists y. split; auto.
  assert (Oc' : content_ok L ng (cfilter p b c)) by (apply cfilter_ok; auto).
  assert (Lk : forall ks, length ks <> ng -> forall x, content_ok L ng x -> block x ks = None).
  { clear. intros ks. revert ng. induction ks as [|k ks IH]; intros [|n] H [|d|l] Hx; cbn in *; try contradiction; try congruence; auto.
    destruct (assoc k l) as [x|] eqn:E; auto. apply (IH n); [lia|]. apply assoc_in in E. destruct Hx as (Hx & _). rewrite Forall_forall in Hx. apply (Hx _ E). }
  assert (KB : forall ks r, keys_match ks (r_keys r) = true -> key_kept p b r = match nth_error ks p with Some k => b k | None => false end).
  { intros ks r M. apply keys_match_eq in M. destruct M as (M & _). unfold key_kept. rewrite M, nth_error_map. destruct (nth_error ks p); reflexivity. }
  assert (CF : forall x ks ss j, length ks = ng -> cell L (cfilter p b x) ks ss j = if match nth_error ks p with Some k => b k | None => false end then cell L x ks ss j else nzero).
  { intros x ks ss j Hk. unfold cell. rewrite block_cfilter by lia. destruct (match nth_error ks p with Some k => b k | None => false end); auto. }
  assert (SC : same_cells L (cfilter p b c) y).
  { apply (same_cells_intro L ng); auto. intros ks ss kd Hs Hk. destruct (Nat.eq_dec (length ks) ng) as [El|El].
    + rewrite Vy by auto. rewrite !CF by auto. rewrite (Vc ks ss kd Hs Hk).
      destruct (match nth_error ks p with Some k => b k | None => false end) eqn:B.
      * f_equal. f_equal. f_equal. clear - KB B. revert KB. generalize rows. intros rws KB. induction rws as [|r rws IH]; auto. cbn [filter]. destruct (in_cell ks ss r) eqn:I.
        -- assert (key_kept p b r = true) as -> by (apply andb_prop in I; destruct I as (I & _); rewrite (KB _ _ I); auto). cbn [filter]. rewrite I, IH. reflexivity.
        -- destruct (key_kept p b r); cbn [filter]; rewrite ?I; auto.
      * assert (filter (in_cell ks ss) (filter (key_kept p b) rows) = []) as ->; [|symmetry; apply nadd_0_l].
        clear - KB B. revert KB. generalize rows. intros rws KB. induction rws as [|r rws IH]; auto. cbn [filter]. destruct (key_kept p b r) eqn:K; auto. cbn [filter]. destruct (in_cell ks ss r) eqn:I; auto.
        apply andb_prop in I. destruct I as (I & _). rewrite (KB _ _ I) in K. congruence.
    + unfold cell. rewrite !(Lk ks El) by auto. reflexivity. }
  split; auto. intros ->. assert (p = 0) by lia. subst p. apply (same_content_intro L 1); auto. intros ks.
  destruct ks as [|k [|k2 ks]]; try (rewrite !(Lk _) by (cbn; auto; lia); split; congruence).
  rewrite block_cfilter by (cbn; lia). cbn [nth_error]. rewrite By. destruct (b k) eqn:B; [rewrite Bc|].
  - apply or_iff_compat2.
    + destruct HP as (_ & _ & _ & [->|Hc0] & _); [reflexivity|]. destruct c0 as [|d|l]; try contradiction. cbn [prefill cfilter block]. rewrite assoc_filter, B. reflexivity.
    + cbn [seq]. split; intros F; inversion F as [|? ? ? ? (r & Hr & Kr) F']; subst; (constructor; [|inversion F'; constructor]); exists r; (split; [|auto]).
      * apply filter_In. split; auto. unfold key_kept. rewrite nth_error_nth' with (d := None); [rewrite Kr; auto|]. destruct (r_keys r); [discriminate Kr|cbn; lia].
      * apply filter_In in Hr. tauto.
  - split; [congruence|]. intros [X|X]; exfalso.
    + destruct HP as (_ & _ & _ & [->|Hc0] & _); [apply X; reflexivity|]. destruct c0 as [|d|l]; try contradiction. cbn [prefill cfilter block] in X. rewrite assoc_filter, B in X. apply X; auto.
    + cbn [seq] in X. inversion X as [|? ? ? ? (r & Hr & Kr) F']; subst. apply filter_In in Hr. destruct Hr as (_ & Hr). unfold key_kept in Hr.
      destruct (r_keys r) as [|o l]; [discriminate Hr|]. cbn in Hr, Kr. subst o. congruence.
Qed.

(** ** Hypotheses that follow from the others *)
Lemma prod_at_axis n' l : forall q, n' <= nth q l 0 -> fold_right Nat.mul 1 (at_axis q (fun _ => n') l) <= fold_right Nat.mul 1 l.
Proof.
  induction l as [|t l IH]; intros [|q] H; cbn [nth at_axis fold_right] in *; auto.
  - apply Nat.mul_le_mono_r. auto.
  - apply Nat.mul_le_mono_l. auto.
Qed.
Lemma layout_with_ok q n' L : n' <= nth q (l_tots L) 0 -> layout_ok L -> layout_ok (layout_with q n' L).
Proof. intros H. unfold layout_ok, l_rows. cbn [layout_with l_tots]. pose proof (prod_at_axis n' (l_tots L) q H). lia. Qed.
Lemma prod_remove_at l : forall q, 0 < nth q l 0 -> fold_right Nat.mul 1 (remove_at q l) <= fold_right Nat.mul 1 l.
Proof.
  induction l as [|t l IH]; intros [|q] H; cbn [nth remove_at fold_right] in *; auto; [nia|]. apply Nat.mul_le_mono_l. auto.
Qed.
Lemma layout_without_ok q L : 0 < nth q (l_tots L) 0 -> layout_ok L -> layout_ok (layout_without q L).
Proof. intros H. unfold layout_ok, l_rows. cbn [layout_without l_tots]. pose proof (prod_remove_at (l_tots L) q H). lia. Qed.
Lemma same_row_ok q L ng ks ks' x r r' : row_ok L ng r -> same_row_but q ks ks' x r r' -> row_ok (layout_with q (length ks') L) ng r'.
Proof.
  intros (R1 & R2 & R3 & R4) (E1 & E2 & _ & _ & slot & slot' & N & E & _ & M'). unfold row_ok. rewrite E1, E2. split; [auto|split; [auto|split; [|auto]]].
  rewrite E. cbn [layout_with l_tots]. apply at_axis_forall2; auto. intros _ _ _ _ _. destruct slot' as [z|]; cbn; auto.
  destruct M' as (j & k & -> & Nk & _). assert (j < length ks') by (apply nth_error_Some; congruence). lia.
Qed.
Lemma slice_list_le {A} s (l : list A) : length (slice_list s l) <= length l.
Proof. rewrite slice_list_length. pose proof (slice_hi_le s (length l)). unfold slice_len. lia. Qed.
Lemma select_fill' q L s ng ks ks' (wanted : Num -> bool) m data c0 c :
  q < length (l_tots L) -> length ks = nth q (l_tots L) 0 -> disjoint_keys ks -> keeps_inside (fun x => wanted x = true) ks s ks' ->
  Forall (fun d => same_row_but q ks ks' (d_x d) (d_old d) (d_new d)) data ->
  fill_pre L ng m (map d_old data) c0 -> fill_rows L ng m (map d_old data) c0 = (c, None) ->
  exists y, fill_rows (layout_with q (length ks') L) ng m (map d_new (filter (fun d => wanted (d_x d)) data)) (cmap (cut_data q s L) c0) = (y, None) /\
    same_cells (layout_with q (length ks') L) (cmap (cut_data q s L) c) y /\
    (forallb (fun d => wanted (d_x d)) data = true -> same_content (cmap (cut_data q s L) c) y).
Proof.
  intros Hq Hn Hd Hk Hg HP Ec. apply (select_fill q L (length ks') s ng ks ks' wanted m data c0 c); auto.
  - destruct HP as (_ & _ & Hr & _). apply Forall_forall. intros d Hin. rewrite Forall_forall in Hg, Hr. split; [|auto]. eapply same_row_ok; eauto. apply Hr, in_map; auto.
  - apply layout_with_ok; [|apply HP]. rewrite <- Hn. destruct Hk as (-> & _). apply slice_list_le.
Qed.
