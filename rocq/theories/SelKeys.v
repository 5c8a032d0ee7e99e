(** Group keys and comparisons: when a selection on a group axis succeeds and what it keeps. *)
From Coq Require Import String.
From Verif Require Import Base Num NumFacts Axis Calc Content Fill FillSpec FillProofs FillProofs2 FillProofs3 Tree Order Expr HistAlg AlgSpec HistAlgProofs Nd NdProofs Proj ProjSpec ProjProofs ProjMain ProjLaws ProjGroup ProjDrop ProjMain2 ProjFill Select SelSpec SelContent SelMain.
Local Open Scope list_scope.

Lemma gkey_is_same k s : gkey_is k s = true <-> same_value k s.
Proof.
  destruct k as [x|a], s as [y|b|b|]; cbn; try (split; [discriminate|tauto]); try tauto.
  - destruct b; tauto.
  - apply String.eqb_eq.
Qed.
Lemma key_cmp_ok c v k b : key_cmp c v k = Ok b -> (b = true <-> key_satisfies c v k).
Proof.
  assert (EQ : (match v with KS s => gkey_is k s | _ => false end) = true <-> exists s, v = KS s /\ same_value k s).
  { destruct v as [s|l|l]; [rewrite gkey_is_same; split; [intros H; exists s; auto|intros (s' & E & H); inversion E; subst; auto]|split; [discriminate|intros (s & E & _); discriminate]..]. }
  assert (IN : forall b, key_in k v = Ok b -> (b = true <-> (exists l s, v = KSet l /\ In s l /\ same_value k s) \/ (exists a s n, k = GStr a /\ v = KS (SStr s) /\ String.index 0 a s = Some n)) /\
      (b = false <-> (exists l, v = KSet l /\ ~ exists s, In s l /\ same_value k s) \/ (exists a s, k = GStr a /\ v = KS (SStr s) /\ String.index 0 a s = None))).
  { intros b' H. destruct v as [[y|y|y|]|l|l]; cbn in H; try discriminate; destruct k as [x|a]; try discriminate.
    - injection H as <-. destruct (String.index 0 a y) as [n|] eqn:En; split; split; intros X; try discriminate.
      + right. exists a, y, n. auto.
      + reflexivity.
      + destruct X as [(l & E & _)|(a' & s' & E1 & E2 & E3)]; [discriminate|]. injection E1 as <-. injection E2 as <-. congruence.
      + destruct X as [(l & s & E & _)|(a' & s' & n & E1 & E2 & E3)]; [discriminate|]. injection E1 as <-. injection E2 as <-. congruence.
      + right. exists a, y. auto.
      + reflexivity.
    - injection H as <-. assert (X : existsb (gkey_is (GNum x)) l = true <-> exists s, In s l /\ same_value (GNum x) s).
      { rewrite existsb_exists. split; intros (s & H1 & H2); exists s; split; auto; apply gkey_is_same; auto. }
      split.
      + rewrite X. split; [intros (s & H1 & H2); left; exists l, s; auto|]. intros [(l' & s & E & H1 & H2)|(a & s & n & E & _)]; [injection E as <-; exists s; auto|discriminate].
      + split; [intros F; left; exists l; split; auto; intros Y; apply X in Y; congruence|]. intros [(l' & E & H1)|(a & s & E & _)]; [injection E as <-|discriminate]. apply not_true_is_false. intros Y. apply H1, X; auto.
    - injection H as <-. assert (X : existsb (gkey_is (GStr a)) l = true <-> exists s, In s l /\ same_value (GStr a) s).
      { rewrite existsb_exists. split; intros (s & H1 & H2); exists s; split; auto; apply gkey_is_same; auto. }
      split.
      + rewrite X. split; [intros (s & H1 & H2); left; exists l, s; auto|]. intros [(l' & s & E & H1 & H2)|(a' & s & n & _ & E & _)]; [injection E as <-; exists s; auto|discriminate].
      + split; [intros F; left; exists l; split; auto; intros Y; apply X in Y; congruence|]. intros [(l' & E & H1)|(a' & s & _ & E & _)]; [injection E as <-|discriminate]. apply not_true_is_false. intros Y. apply H1, X; auto. }
  assert (ORD : forall nums strs, key_order nums strs k v = Ok b -> (b = true <-> (exists x y, k = GNum x /\ as_real v = Some y /\ nums x y = true) \/ (exists s t, k = GStr s /\ v = KS (SStr t) /\ strs s t = true))).
  { intros nums strs H. destruct k as [x|s], v as [[y|y|y|]|l|l]; cbn in H; try discriminate; injection H as <-; split; intros X.
    - left. exists x, y. auto.
    - destruct X as [(x' & y' & E1 & E2 & H)|(s & t & E & _)]; [injection E1 as <-; injection E2 as <-; auto|discriminate].
    - left. exists x. eexists. split; [auto|split; [reflexivity|auto]].
    - destruct X as [(x' & y' & E1 & E2 & H)|(s & t & E & _)]; [injection E1 as <-; injection E2 as <-; auto|discriminate].
    - right. exists s, y. auto.
    - destruct X as [(x' & y' & E1 & E2 & H)|(s' & t & E1 & E2 & H)]; [discriminate|injection E1 as <-; injection E2 as <-; auto]. }
  intros H. destruct c; cbn [key_cmp] in H.
  - injection H as <-. exact EQ.
  - injection H as <-. cbn [key_satisfies]. rewrite negb_true_iff. rewrite <- EQ. destruct (match v with KS s => gkey_is k s | _ => false end); split; intros X; congruence.
  - apply ORD in H. exact H.
  - apply ORD in H. exact H.
  - apply ORD in H. exact H.
  - apply ORD in H. exact H.
  - apply IN in H. apply H.
  - destruct (key_in k v) as [b'|] eqn:E; [|discriminate]. injection H as <-. specialize (IN b' eq_refl). cbn [key_satisfies]. rewrite negb_true_iff. apply IN.
Qed.

(** Every key that is there was compared without an error. *)
Lemma filter_keys_all (q : gkey -> res bool) l : forall l', filter_keys q l = Ok l' -> forall k x, In (k, x) l -> exists b, q k = Ok b.
Proof.
  induction l as [|[k0 x0] l IH]; intros l' E k x [].
  - inversion H; subst. cbn [filter_keys] in E. apply bind_ok' in E. destruct E as (b & Eb & _). eauto.
  - cbn [filter_keys] in E. fold filter_keys in E. apply bind_ok' in E. destruct E as (b & Eb & E). apply bind_ok' in E. destruct E as (t & Et & E). eauto.
Qed.
Lemma assoc_in {A} k (l : list (gkey * A)) x : assoc k l = Some x -> In (k, x) l.
Proof.
  induction l as [|[k' y] l IH]; [discriminate|]. cbn [assoc]. destruct (gkey_eqb k k') eqn:E; intros H; [inversion H; subst; rewrite (gkey_eqb_eq _ _ E); left; auto|right; auto].
Qed.
Lemma cutcontent_keys_all q L n : forall p c c', p < n -> content_ok L n c -> forall nf,
  cutcontent n nf p (CutKeys q) false (embed L c) = Ok c' -> forall ks, block c ks <> None -> exists k b, nth_error ks p = Some k /\ q k = Ok b.
Proof.
  induction n as [|n IH]; intros p [|d|l] c' Hp Hc nf E ks Hb; try contradiction; try lia. rewrite embed_dict in E. cbn [cutcontent] in E.
  destruct ks as [|k ks]; [cbn in Hb; congruence|]. cbn [block] in Hb. destruct (assoc k l) as [x|] eqn:Ea; [|congruence]. pose proof (assoc_in _ _ _ Ea) as Hin. destruct p as [|p].
  - destruct (filter_keys _ _) as [l'|] eqn:El; [|discriminate]. exists k.
    destruct (filter_keys_all _ _ _ El k (embed L x)) as (b & Eb); [|exists b; auto]. apply in_map_iff. exists (k, x). auto.
  - destruct (proj_items _ _) as [l'|] eqn:El; [|discriminate]. clear E. destruct Hc as (Hc & _).
    assert (G : exists y, cutcontent n nf p (CutKeys q) false (embed L x) = Ok y).
    { clear Ea Hb. revert l' El. induction Hc as [|[k' x'] l Hx Hl IHl]; intros l' El; [destruct Hin|]. cbn [map fst snd] in El. cbn [proj_items] in El.
      fold (proj_items (cutcontent n nf p (CutKeys q) false)) in El. apply bind_ok' in El. destruct El as (y & Ey & El). apply bind_ok' in El. destruct El as (t & Et & El).
      destruct Hin as [H|Hin]; [inversion H; subst; eauto|]. eapply IHl; eauto. }
    destruct G as (y & Ey). rewrite Forall_forall in Hc. specialize (Hc _ Hin). cbn [snd] in Hc. cbn [nth_error]. eapply IH; eauto. lia.
Qed.
Lemma select_groups_all p a b h g : hobj_ok h -> no_null h -> nth_error (o_group h) p = Some a ->
  select_axis (view h) p a (CutKeys b) true = Ok g -> forall ks, has_block h ks -> exists k t, nth_error ks p = Some k /\ b k = Ok t.
Proof.
  intros (HG & HF & HP & HC) HN Ha E. assert (Hp : p < length (o_group h)) by (apply nth_error_Some; congruence).
  unfold has_block. intros ks Hb. destruct HC as [Hc|Hc]; [rewrite Hc in Hb; destruct ks; cbn in Hb; congruence|].
  unfold select_axis, view in E; cbn [p_head p_content o_group o_fixed o_prof with_content] in E.
  assert (is_null a = false) as X by (rewrite Forall_forall in HG; apply nth_error_In in Ha; apply HG in Ha; destruct a; auto). rewrite X in E. cbn [andb] in E.
  pose proof (embed_content_not_none _ _ _ Hc) as Hn.
  destruct (cutcontent (length (o_group h)) (length (o_fixed h)) p (CutKeys b) false (embed (o_layout h) (o_content h))) as [c'|] eqn:Ec.
  - eapply cutcontent_keys_all; eauto.
  - destruct (embed (o_layout h) (o_content h)); try congruence; rewrite Ec in E; discriminate.
Qed.

(** The other way round: if no comparison fails, neither does the selection. *)
Lemma filter_keys_can (q : gkey -> res bool) l : (forall k x, In (k, x) l -> exists b, q k = Ok b) -> exists l', filter_keys q l = Ok l'.
Proof.
  induction l as [|[k x] l IH]; intros H; [eexists; reflexivity|]. cbn [filter_keys]. fold filter_keys. destruct (H k x (or_introl eq_refl)) as (b & ->). cbn [bind].
  destruct IH as (l' & ->); [intros; eapply H; right; eauto|]. eexists. reflexivity.
Qed.
Fixpoint keys_at (p : nat) (c : content) : list gkey :=
  match c with
  | CDict l => match p with 0 => map fst l | S p' => flat_map (fun kv => keys_at p' (snd kv)) l end
  | _ => []
  end.
Lemma cutcontent_keys_can q L n : forall p c, p < n -> content_ok L n c -> (forall k, In k (keys_at p c) -> exists b, q k = Ok b) ->
  forall nf, exists c', cutcontent n nf p (CutKeys q) false (embed L c) = Ok c'.
Proof.
  induction n as [|n IH]; intros p [|d|l] Hp Hc Hk nf; try contradiction; try lia. rewrite embed_dict. cbn [cutcontent]. destruct p as [|p].
  - destruct (filter_keys_can q (map (fun kv => (fst kv, embed L (snd kv))) l)) as (l' & E).
    + intros k x Hin. apply Hk. cbn [keys_at]. apply in_map_iff in Hin. destruct Hin as ([k' y] & E & Hin). inversion E; subst. apply in_map_iff. exists (k, y). auto.
    + cbn [fst snd] in *. rewrite E. eexists. reflexivity.
  - destruct Hc as (Hc & _). cbn [keys_at] in Hk.
    assert (G : exists l', proj_items (cutcontent n nf p (CutKeys q) false) (map (fun kv => (fst kv, embed L (snd kv))) l) = Ok l').
    { induction Hc as [|[k x] l Hx Hl IHl]; [eexists; reflexivity|]. cbn [map fst snd]. cbn [proj_items]. fold (proj_items (cutcontent n nf p (CutKeys q) false)).
      destruct (IH p x ltac:(lia) Hx) with (nf := nf) as (y & ->); [intros k0 H0; apply Hk; cbn [flat_map snd]; apply in_or_app; auto|]. cbn [bind].
      destruct IHl as (t & ->); [intros k0 H0; apply Hk; cbn [flat_map]; apply in_or_app; auto|]. eexists. reflexivity. }
    destruct G as (l' & E). cbn [fst snd] in *. rewrite E. eexists. reflexivity.
Qed.
Lemma select_groups_can p a b h : hobj_ok h -> no_null h -> nth_error (o_group h) p = Some a -> (forall k, In k (keys_at p (o_content h)) -> exists t, b k = Ok t) ->
  exists g, select_axis (view h) p a (CutKeys b) true = Ok g.
Proof.
  intros (HG & HF & HP & HC) HN Ha Hk. assert (Hp : p < length (o_group h)) by (apply nth_error_Some; congruence).
  unfold select_axis, view; cbn [p_head p_content o_group o_fixed o_prof with_content].
  assert (is_null a = false) as -> by (rewrite Forall_forall in HG; apply nth_error_In in Ha; apply HG in Ha; destruct a; auto). cbn [andb].
  destruct HC as [Hc|Hc]; [rewrite Hc; eexists; reflexivity|].
  destruct (cutcontent_keys_can b (o_layout h) _ _ _ Hp Hc Hk (length (o_fixed h))) as (c' & E). destruct (embed (o_layout h) (o_content h)); try rewrite E; eexists; reflexivity.
Qed.

(** The content kept is that of the wanted groups. *)
Lemma groups_kept_selected p a b h g (wanted : gkey -> Prop) : hobj_ok h -> no_null h -> nth_error (o_group h) p = Some a ->
  select_axis (view h) p a (CutKeys b) true = Ok g -> (forall k t, b k = Ok t -> (t = true <-> wanted k)) ->
  exists g0, g = view g0 /\ hobj_ok g0 /\ groups_selected p wanted h g0.
Proof.
  intros Hok HN Ha E Hw. assert (Hp : p < length (o_group h)) by (apply nth_error_Some; congruence).
  exists (groups_kept p (says b) h). split; [eapply select_groups; eauto|]. split; [apply groups_kept_cells; auto|].
  do 7 (split; [reflexivity|]). intros ks k Hl Hn. cbn [groups_kept with_content o_content]. rewrite block_cfilter by lia. rewrite Hn.
  destruct (block (o_content h) ks) as [d|] eqn:Eb; [|destruct (says b k); auto].
  destruct (select_groups_all p a b h g Hok HN Ha E ks) as (k' & t & Hn' & Ht); [unfold has_block; congruence|]. rewrite Hn in Hn'. inversion Hn'; subst k'.
  unfold says. rewrite Ht. specialize (Hw k t Ht). destruct t; split; intros X; auto; exfalso; [apply X, Hw; auto|apply Hw in X; discriminate].
Qed.
