(** Selections on histograms. *)
From Coq Require Import String Permutation.
From Verif Require Import Base Num NumFacts Axis AxisSpec AxisProofs AxisProofs2 Calc Content Fill FillSpec FillProofs FillProofs2 FillProofs3 FillMain
  HistAlg AlgSpec HistAlgProofs HistAlgMain Nd NdProofs Proj ProjSpec ProjProofs ProjMain ProjMain2 ProjFill ProjLaws ProjDrop Remap Select SelSpec SelContent.
Local Open Scope list_scope.

(** The histogram with another axis, or no axis, in place of its fixed axis [q]. *)
Definition with_axis (q : nat) (a' : axis) (h : hobj) (c : content) : hobj := {|
  o_group := o_group h; o_fixed := at_axis q (fun _ => a') (o_fixed h); o_prof := o_prof h; o_weight := o_weight h; o_filter := o_filter h;
  o_defs := o_defs h; o_attach := o_attach h; o_content := c |}.
Definition without_axis (q : nat) (h : hobj) (c : content) : hobj := {|
  o_group := o_group h; o_fixed := remove_at q (o_fixed h); o_prof := o_prof h; o_weight := o_weight h; o_filter := o_filter h;
  o_defs := o_defs h; o_attach := o_attach h; o_content := c |}.

Lemma with_axis_layout q a' h c : o_layout (with_axis q a' h c) = layout_with q (totbins a') (o_layout h).
Proof. unfold o_layout, layout_with, with_axis; cbn. rewrite (at_axis_map totbins _ (fun _ => totbins a')); auto. Qed.
Lemma without_axis_layout q h c : o_layout (without_axis q h c) = layout_without q (o_layout h).
Proof. unfold o_layout, layout_without, without_axis; cbn. rewrite map_remove_at. reflexivity. Qed.

Lemma replace_past {A} (x : A) p l : forall k, p < k -> map (fun iy => if Nat.eqb (fst iy) p then x else snd iy) (combine (seq k (length l)) l) = l.
Proof.
  induction l as [|z l IH]; intros k H; auto. cbn [length seq combine map fst snd]. destruct (Nat.eqb_spec k p); [lia|]. rewrite IH by lia. reflexivity.
Qed.
Lemma replace_nth_spec {A} (x : A) l : forall q k, map (fun iy => if Nat.eqb (fst iy) (k + q) then x else snd iy) (combine (seq k (length l)) l) = at_axis q (fun _ => x) l.
Proof.
  induction l as [|y l IH]; intros q k; [destruct q; reflexivity|]. cbn [length seq combine map fst snd]. destruct q as [|q].
  - rewrite Nat.add_0_r, Nat.eqb_refl. cbn [at_axis]. f_equal. apply replace_past. lia.
  - replace (Nat.eqb k (k + S q)) with false by (symmetry; apply Nat.eqb_neq; lia). cbn [at_axis]. f_equal. replace (k + S q) with (S k + q) by lia. apply IH.
Qed.
Lemma replace_nth_at {A} p (x : A) l : replace_nth p x l = at_axis p (fun _ => x) l.
Proof. exact (replace_nth_spec x l p 0). Qed.
Lemma at_axis_app2 {A} (f : A -> A) l m q : at_axis (length l + q) f (l ++ m) = l ++ at_axis q f m.
Proof. induction l as [|x l IH]; cbn; auto. rewrite IH. reflexivity. Qed.
Lemma Forall_at_axis {A} (P : A -> Prop) f l : forall q, Forall P l -> (forall x, P x -> P (f x)) -> Forall P (at_axis q f l).
Proof. induction l as [|x l IH]; intros [|q] H Hf; inversion H; subst; cbn; auto. Qed.
Lemma Forall_remove_at {A} (P : A -> Prop) l : forall q, Forall P l -> Forall P (remove_at q l).
Proof. induction l as [|x l IH]; intros [|q] H; inversion H; subst; cbn; auto. Qed.

(** No null axis is among the others. *)
Definition no_null (h : hobj) : Prop := ~ In ANull (o_fixed h).
Lemma not_null l : ~ In ANull l -> Forall (fun a => negb (is_null a) = true) l.
Proof. intros H. apply Forall_forall. intros a Ha. destruct a; auto. Qed.
Lemma group_not_null l : Forall (fun a => is_group a = true) l -> Forall (fun a => negb (is_null a) = true) l.
Proof. apply Forall_impl. intros []; auto. Qed.
Lemma prof_not_null l : Forall (fun a => is_profile a = true) l -> Forall (fun a => negb (is_null a) = true) l.
Proof. apply Forall_impl. intros []; auto. Qed.
Lemma rebuild_with q a' h : hobj_ok h -> no_null h -> is_fixed a' = true -> a' <> ANull ->
  rebuild h (filter (fun a => negb (is_null a)) (replace_nth (length (o_group h) + q) a' (o_group h ++ o_fixed h) ++ o_prof h)) = with_axis q a' h CNone.
Proof.
  intros (HG & HF & HP & _) HN Ha Hn. rewrite replace_nth_at, at_axis_app2. rewrite !filter_app.
  assert (N : Forall (fun a => negb (is_null a) = true) (at_axis q (fun _ => a') (o_fixed h))) by (apply Forall_at_axis; [apply not_null; auto|intros; destruct a'; auto; congruence]).
  rewrite !filter_all by auto using group_not_null, prof_not_null.
  rewrite <- app_assoc. unfold rebuild, with_axis.
  destruct (sort_axes (o_group h) (at_axis q (fun _ => a') (o_fixed h)) (o_prof h)) as (-> & -> & ->); auto. apply Forall_at_axis; auto.
Qed.
Lemma filter_null q l : q < length l -> ~ In ANull l -> filter (fun a => negb (is_null a)) (at_axis q (fun _ => ANull) l) = remove_at q l.
Proof.
  revert q. induction l as [|a l IH]; intros [|q] H HN; cbn [length at_axis filter remove_at is_null negb] in *; try lia.
  - apply filter_all, not_null. intros X. apply HN. right; auto.
  - assert (negb (is_null a) = true) as -> by (destruct a; auto; exfalso; apply HN; left; auto). f_equal. apply IH; [lia|]. intros X. apply HN. right; auto.
Qed.
Lemma rebuild_without q h : hobj_ok h -> no_null h -> q < length (o_fixed h) ->
  rebuild h (filter (fun a => negb (is_null a)) (replace_nth (length (o_group h) + q) ANull (o_group h ++ o_fixed h) ++ o_prof h)) = without_axis q h CNone.
Proof.
  intros (HG & HF & HP & _) HN Hq. rewrite replace_nth_at, at_axis_app2. rewrite !filter_app. rewrite filter_null by auto.
  rewrite !filter_all by auto using group_not_null, prof_not_null.
  rewrite <- app_assoc. unfold rebuild, without_axis.
  destruct (sort_axes (o_group h) (remove_at q (o_fixed h)) (o_prof h)) as (-> & -> & ->); auto. apply Forall_remove_at; auto.
Qed.

(** ** A slice of a fixed axis *)
Lemma nth_tots h q a : nth_error (o_fixed h) q = Some a -> nth q (l_tots (o_layout h)) 0 = totbins a /\ q < length (l_tots (o_layout h)).
Proof.
  intros H. unfold o_layout; cbn [l_tots]. rewrite map_length. split; [|apply nth_error_Some; congruence].
  apply nth_error_nth. rewrite nth_error_map, H. reflexivity.
Qed.
Definition sliced (q : nat) (a' : axis) (s : slc) (h : hobj) : hobj := with_axis q a' h (cmap (cut_data q s (o_layout h)) (o_content h)).
Lemma sliced_cells q a a' s h : hobj_ok h -> nth_error (o_fixed h) q = Some a -> is_fixed a' = true -> totbins a' = slice_len s (totbins a) ->
  hobj_ok (sliced q a' s h) /\ (forall ks, has_block (sliced q a' s h) ks <-> has_block h ks) /\
  forall ks ss kd, in_shape (o_layout (sliced q a' s h)) ss -> has_column (o_layout h) kd ->
    hcell (sliced q a' s h) ks ss kd = hcell h ks (at_axis q (fun i => slice_lo s (totbins a) + i) ss) kd.
Proof.
  intros Hok Ha Hf Ht. destruct (nth_tots _ _ _ Ha) as (Hn & Hq). destruct (Hok) as (HG & HF & HP & HC).
  assert (LE : o_layout (sliced q a' s h) = layout_with q (cut_len q s (o_layout h)) (o_layout h)) by (unfold sliced; rewrite with_axis_layout, Ht; unfold cut_len; rewrite Hn; reflexivity).
  split; [|split].
  - split; [exact HG|split; [|split]]; [apply Forall_at_axis; auto|exact HP|]. rewrite LE. cbn [sliced with_axis o_group o_content].
    destruct HC as [->|HC]; [left; reflexivity|right]. eapply cmap_ok; [|exact HC]. intros d _. rewrite cut_data_length, prod_shape by auto. reflexivity.
  - intros ks. unfold has_block. cbn [sliced with_axis o_content]. rewrite block_cmap. destruct (block (o_content h) ks); cbn; split; congruence.
  - intros ks ss kd Hs Hk. unfold hcell, cell. rewrite LE in *. cbn [sliced with_axis o_content]. rewrite block_cmap.
    destruct (block (o_content h) ks) as [d|]; cbn [option_map]; auto.
    replace (column_of (layout_with q (cut_len q s (o_layout h)) (o_layout h)) kd) with (column_of (o_layout h) kd) by (destruct kd; reflexivity).
    change (l_last (layout_with q (cut_len q s (o_layout h)) (o_layout h))) with (l_last (o_layout h)).
    rewrite cut_data_cell; auto; [rewrite Hn; reflexivity|]. apply column_lt; auto.
Qed.
Lemma select_sliced q a a' s h : hobj_ok h -> no_null h -> nth_error (o_fixed h) q = Some a -> is_fixed a' = true -> a' <> ANull -> totbins a' = slice_len s (totbins a) ->
  select_axis (view h) (length (o_group h) + q) a' (CutSlice s) true = Ok (view (sliced q a' s h)).
Proof.
  intros Hok HN Ha Hf Hnn Ht. destruct (nth_tots _ _ _ Ha) as (Hn & Hq).
  assert (LE : o_layout (sliced q a' s h) = layout_with q (cut_len q s (o_layout h)) (o_layout h)) by (unfold sliced; rewrite with_axis_layout, Ht; unfold cut_len; rewrite Hn; reflexivity).
  unfold select_axis, view; cbn [p_head p_content o_group o_fixed o_prof with_content]. change (rebuild (with_content h CNone)) with (rebuild h).
  rewrite rebuild_with by auto. rewrite LE. cbn [sliced with_axis with_content o_content].
  assert (is_null a' = false) as -> by (destruct a'; auto; congruence). cbn [andb].
  destruct (Hok) as (_ & _ & _ & [Hc|Hc]); [rewrite Hc; reflexivity|].
  pose proof (embed_content_not_none _ _ _ Hc). pose proof (cutcontent_slice q s _ _ _ Hq Hc) as E.
  assert (Lf : length (o_fixed h) = length (l_tots (o_layout h))) by (unfold o_layout; cbn; rewrite map_length; auto). rewrite Lf.
  destruct (embed (o_layout h) (o_content h)); try congruence; rewrite E; reflexivity.
Qed.

(** ** The cut axis *)
Definition cut_out (q : nat) (s : slc) (h : hobj) : hobj := without_axis q h (cmap (cut_data q s (o_layout h)) (o_content h)).
Lemma cut_out_cells q a s h : hobj_ok h -> nth_error (o_fixed h) q = Some a -> slice_len s (totbins a) = 1 ->
  hobj_ok (cut_out q s h) /\ (forall ks, has_block (cut_out q s h) ks <-> has_block h ks) /\
  forall ks ss kd, in_shape (o_layout (cut_out q s h)) ss -> has_column (o_layout h) kd ->
    hcell (cut_out q s h) ks ss kd = hcell h ks (insert_at q (slice_lo s (totbins a)) ss) kd.
Proof.
  intros Hok Ha Ht. destruct (nth_tots _ _ _ Ha) as (Hn & Hq). destruct (Hok) as (HG & HF & HP & HC).
  assert (LE : o_layout (cut_out q s h) = layout_without q (o_layout h)) by apply without_axis_layout.
  assert (H1 : cut_len q s (o_layout h) = 1) by (unfold cut_len; rewrite Hn; auto).
  split; [|split].
  - split; [exact HG|split; [|split]]; [apply Forall_remove_at; auto|exact HP|]. rewrite LE. cbn [cut_out without_axis o_group o_content].
    destruct HC as [->|HC]; [left; reflexivity|right]. eapply cmap_ok; [|exact HC]. intros d _. apply cut_dropped_length; auto.
  - intros ks. unfold has_block. cbn [cut_out without_axis o_content]. rewrite block_cmap. destruct (block (o_content h) ks); cbn; split; congruence.
  - intros ks ss kd Hs Hk. unfold hcell, cell. rewrite LE in *. cbn [cut_out without_axis o_content]. rewrite block_cmap.
    destruct (block (o_content h) ks) as [d|]; cbn [option_map]; auto.
    replace (column_of (layout_without q (o_layout h)) kd) with (column_of (o_layout h) kd) by (destruct kd; reflexivity).
    change (l_last (layout_without q (o_layout h))) with (l_last (o_layout h)).
    rewrite cut_dropped_cell; auto; [rewrite Hn; reflexivity|]. apply column_lt; auto.
Qed.
Lemma select_cut_out q a s h : hobj_ok h -> no_null h -> nth_error (o_fixed h) q = Some a -> slice_len s (totbins a) = 1 ->
  select_axis (view h) (length (o_group h) + q) ANull (CutSlice s) true = Ok (view (cut_out q s h)).
Proof.
  intros Hok HN Ha Ht. destruct (nth_tots _ _ _ Ha) as (Hn & Hq).
  assert (LE : o_layout (cut_out q s h) = layout_without q (o_layout h)) by apply without_axis_layout.
  assert (H1 : cut_len q s (o_layout h) = 1) by (unfold cut_len; rewrite Hn; auto).
  assert (Lf : length (o_fixed h) = length (l_tots (o_layout h))) by (unfold o_layout; cbn; rewrite map_length; auto).
  unfold select_axis, view; cbn [p_head p_content o_group o_fixed o_prof with_content]. change (rebuild (with_content h CNone)) with (rebuild h).
  rewrite rebuild_without by (auto; lia). rewrite LE. cbn [cut_out without_axis with_content o_content is_null andb].
  destruct (Hok) as (_ & _ & _ & [Hc|Hc]); [rewrite Hc; reflexivity|].
  pose proof (embed_content_not_none _ _ _ Hc). pose proof (cutcontent_dropped q s _ _ _ Hq H1 Hc) as E.
  rewrite Lf. destruct (embed (o_layout h) (o_content h)); try congruence; rewrite E; reflexivity.
Qed.

(** ** A group axis *)
Fixpoint cfilter (p : nat) (b : gkey -> bool) (c : content) : content :=
  match c with
  | CDict l => match p with
               | 0 => CDict (filter (fun kv => b (fst kv)) l)
               | S p' => CDict (map (fun kv => (fst kv, cfilter p' b (snd kv))) l)
               end
  | _ => c
  end.
Definition says (p : gkey -> res bool) (k : gkey) : bool := match p k with Ok b => b | Err _ => false end.
Lemma filter_keys_says (p : gkey -> res bool) L l : forall l',
  filter_keys p (map (fun kv => (fst kv, embed L (snd kv))) l) = Ok l' -> l' = map (fun kv => (fst kv, embed L (snd kv))) (filter (fun kv => says p (fst kv)) l).
Proof.
  induction l as [|[k x] l IH]; intros l' E; [inversion E; auto|]. cbn [map fst snd] in E. cbn [filter_keys] in E. fold filter_keys in E.
  apply bind_ok' in E. destruct E as (b & Eb & E). apply bind_ok' in E. destruct E as (t & Et & E). apply IH in Et. inversion E; subst. cbn [filter fst]. assert (says p k = b) as -> by (unfold says; rewrite Eb; reflexivity).
  destruct b; reflexivity.
Qed.
Lemma cutcontent_keys q L n : forall p c c', p < n -> content_ok L n c -> forall nf, 
  cutcontent n nf p (CutKeys q) false (embed L c) = Ok c' -> c' = embed L (cfilter p (says q) c).
Proof.
  induction n as [|n IH]; intros p [|d|l] c' Hp Hc nf E; try contradiction; try lia. rewrite embed_dict in E. cbn [cutcontent] in E. destruct p as [|p].
  - destruct (filter_keys _ _) as [l'|] eqn:El; [|discriminate]. apply filter_keys_says in El. cbn [rmap bind] in E. inversion E; subst. cbn [cfilter]. rewrite embed_dict. reflexivity.
  - destruct (proj_items _ _) as [l'|] eqn:El; [|discriminate]. cbn [rmap bind] in E. inversion E; subst. cbn [cfilter]. rewrite embed_dict, map_map. cbn [fst snd]. f_equal.
    destruct Hc as (Hc & _). clear E. revert l' El. induction Hc as [|[k x] l Hx Hl IHl]; intros l' El; [inversion El; auto|]. cbn [map fst snd] in *. cbn [proj_items] in El.
    fold (proj_items (cutcontent n nf p (CutKeys q) false)) in El. apply bind_ok' in El. destruct El as (y & Ey & El). apply bind_ok' in El. destruct El as (t & Et & El). inversion El; subst.
    f_equal; [|apply IHl; auto]. f_equal. eapply IH; eauto. lia.
Qed.
Lemma assoc_filter {A} b k (l : list (gkey * A)) :
  assoc k (filter (fun kv => b (fst kv)) l) = if b k then assoc k l else None.
Proof.
  induction l as [|[k' x] l IH]; [destruct (b k); auto|]. cbn [filter assoc fst]. destruct (gkey_eqb k k') eqn:E.
  - pose proof (gkey_eqb_eq _ _ E). subst k'. destruct (b k); auto. cbn [assoc]. rewrite E. reflexivity.
  - destruct (b k'); cbn [assoc]; rewrite ?E; apply IH.
Qed.
Lemma block_cfilter b : forall p c ks, p < length ks ->
  block (cfilter p b c) ks = if match nth_error ks p with Some k => b k | None => false end then block c ks else None.
Proof.
  induction p as [|p IH]; intros [|d|l] [|k ks] Hp; cbn [length] in Hp; try lia; cbn [nth_error cfilter block].
  - destruct (b k); auto.
  - destruct (b k); auto.
  - rewrite assoc_filter. destruct (b k); auto.
  - destruct (match nth_error ks p with Some k0 => b k0 | None => false end); auto.
  - destruct (match nth_error ks p with Some k0 => b k0 | None => false end); auto.
  - rewrite assoc_map. destruct (assoc k l) as [x|]; cbn [option_map]; [apply IH; lia|]. destruct (match nth_error ks p with Some k0 => b k0 | None => false end); auto.
Qed.
Lemma Forall_map_filter {A B} (P : B -> Prop) (f : A -> B) q l : Forall P (map f l) -> Forall P (map f (filter q l)).
Proof. intros H. apply Forall_map. apply Forall_filter. apply Forall_map. auto. Qed.
Lemma NoDup_map_filter {A B} (f : A -> B) q l : NoDup (map f l) -> NoDup (map f (filter q l)).
Proof.
  induction l as [|x l IH]; cbn; auto. intros H. inversion H; subst. destruct (q x); auto. cbn. constructor; auto.
  intros X. apply H2. apply in_map_iff in X. destruct X as (y & E & X). apply filter_In in X. apply in_map_iff. exists y. tauto.
Qed.
Lemma cfilter_ok L b n : forall p c, p < n -> content_ok L n c -> content_ok L n (cfilter p b c).
Proof.
  induction n as [|n IH]; intros p [|d|l] Hp Hc; try lia; try contradiction. destruct Hc as (H1 & H2 & H3). destruct p as [|p]; cbn [cfilter content_ok].
  - split; [|split]; [apply Forall_filter; auto|apply NoDup_map_filter; auto|apply Forall_map_filter; auto].
  - split; [|rewrite map_map; auto]. apply Forall_map. eapply Forall_impl; [|exact H1]. cbn [snd]. intros kv H. apply IH; auto. lia.
Qed.
Lemma at_axis_id {A} (x : A) l : forall q, nth_error l q = Some x -> at_axis q (fun _ => x) l = l.
Proof. induction l as [|y l IH]; intros [|q] H; cbn in *; try congruence. rewrite IH; auto. Qed.
Lemma with_content_eta h : with_content (with_content h CNone) CNone = with_content h CNone. Proof. reflexivity. Qed.
Definition groups_kept (p : nat) (b : gkey -> bool) (h : hobj) : hobj := with_content h (cfilter p b (o_content h)).
Lemma select_groups p a b h g : hobj_ok h -> no_null h -> nth_error (o_group h) p = Some a ->
  select_axis (view h) p a (CutKeys b) true = Ok g -> g = view (groups_kept p (says b) h).
Proof.
  intros (HG & HF & HP & HC) HN Ha E. assert (Hp : p < length (o_group h)) by (apply nth_error_Some; congruence).
  unfold select_axis, view in E; cbn [p_head p_content o_group o_fixed o_prof with_content] in E. change (rebuild (with_content h CNone)) with (rebuild h) in E.
  rewrite replace_nth_at, at_axis_app, at_axis_id in E by auto.
  rewrite !filter_app, !filter_all in E by auto using group_not_null, prof_not_null, not_null. rewrite <- app_assoc in E.
  assert (R : rebuild h (o_group h ++ o_fixed h ++ o_prof h) = with_content h CNone).
  { unfold rebuild, with_content. destruct (sort_axes (o_group h) (o_fixed h) (o_prof h)) as (-> & -> & ->); auto. }
  rewrite R in E. assert (is_null a = false) as X by (rewrite Forall_forall in HG; apply nth_error_In in Ha; apply HG in Ha; destruct a; auto). rewrite X in E. cbn [andb] in E.
  unfold view, groups_kept. change (o_layout (with_content h (cfilter p (says b) (o_content h)))) with (o_layout h). cbn [with_content o_content].
  change (with_content (with_content h (cfilter p (says b) (o_content h))) CNone) with (with_content h CNone).
  destruct HC as [Hc|Hc]; [rewrite Hc in *; cbn [embed] in E; inversion E; subst; destruct p; reflexivity|].
  pose proof (embed_content_not_none _ _ _ Hc) as Hn.
  destruct (cutcontent (length (o_group h)) (length (o_fixed h)) p (CutKeys b) false (embed (o_layout h) (o_content h))) as [c'|] eqn:Ec.
  - pose proof (cutcontent_keys b (o_layout h) _ p _ c' Hp Hc _ Ec) as ->.
    destruct (embed (o_layout h) (o_content h)); try congruence; rewrite Ec in E; cbn [bind] in E; inversion E; reflexivity.
  - destruct (embed (o_layout h) (o_content h)); try congruence; rewrite Ec in E; discriminate.
Qed.
Lemma groups_kept_cells p b h : hobj_ok h -> p < length (o_group h) ->
  hobj_ok (groups_kept p b h) /\
  forall ks, length ks = length (o_group h) ->
    (has_block (groups_kept p b h) ks <-> has_block h ks /\ exists k, nth_error ks p = Some k /\ b k = true) /\
    forall ss kd, hcell (groups_kept p b h) ks ss kd = if match nth_error ks p with Some k => b k | None => false end then hcell h ks ss kd else nzero.
Proof.
  intros (HG & HF & HP & HC) Hp. split.
  - split; [exact HG|split; [exact HF|split; [exact HP|]]]. unfold groups_kept; cbn [o_group with_content o_content]. change (o_layout (with_content h (cfilter p b (o_content h)))) with (o_layout h).
    destruct HC as [->|HC]; [left; destruct p; reflexivity|right]. apply cfilter_ok; auto.
  - intros ks Hl. unfold has_block, hcell, cell, groups_kept; cbn [o_content with_content]. rewrite block_cfilter by lia.
    change (o_layout (with_content h (cfilter p b (o_content h)))) with (o_layout h).
    destruct (nth_error ks p) as [k|] eqn:E; [|exfalso; apply nth_error_None in E; lia]. split; [|intros; destruct (b k); auto].
    destruct (b k) eqn:B; split; try tauto; try congruence.
    + intros H. split; auto. exists k. auto.
    + intros (H & k' & E' & B'). inversion E'; subst. congruence.
Qed.
