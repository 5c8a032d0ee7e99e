(** Proofs for C70. *)
From Coq Require Import String List Arith Lia Bool.
From Verif Require Import Base Meta MetaSpec.
Import ListNotations.
Local Open Scope list_scope.

(** ** Dicts *)
Lemma dset_find k v d k' : dfind k' (dset k v d) = if String.eqb k k' then Some v else dfind k' d.
Proof.
  induction d as [|[n w] d IH]; cbn [dset dfind]; auto. destruct (String.eqb_spec n k) as [->|N]; cbn [dfind].
  - destruct (String.eqb_spec k k'); auto.
  - rewrite IH. destruct (String.eqb_spec n k') as [->|]; auto. destruct (String.eqb_spec k k') as [->|]; auto. congruence.
Qed.
Definition proper (d : dict) : Prop := NoDup (map fst d).
Lemma dset_keys k v d n : In n (map fst (dset k v d)) <-> n = k \/ In n (map fst d).
Proof.
  induction d as [|[m w] d IH]; cbn [dset map fst In]; [intuition congruence|]. destruct (String.eqb_spec m k) as [->|N]; cbn [map fst In]; [intuition congruence|].
  rewrite IH. tauto.
Qed.
Lemma dset_proper k v d : proper d -> proper (dset k v d).
Proof.
  unfold proper. induction d as [|[n w] d IH]; intros P; cbn [dset map fst] in *; [repeat constructor; auto|]. inversion P; subst.
  destruct (String.eqb_spec n k) as [->|N]; cbn [map fst]; [constructor; auto|]. constructor; auto. rewrite dset_keys. intros [E|I]; [congruence|contradiction].
Qed.
Lemma dfind_none k d : dfind k d = None <-> ~ In k (map fst d).
Proof.
  induction d as [|[n w] d IH]; cbn [dfind map fst In]; [tauto|]. destruct (String.eqb_spec n k) as [->|N]; [split; [discriminate|tauto]|]. rewrite IH. tauto.
Qed.
Lemma ddel_find k d k' : proper d -> dfind k' (ddel k d) = if String.eqb k k' then None else dfind k' d.
Proof.
  unfold proper. induction d as [|[n w] d IH]; intros P; cbn [ddel dfind map fst] in *; [destruct (String.eqb k k'); auto|]. inversion P; subst.
  destruct (String.eqb_spec n k) as [->|N]; cbn [dfind].
  - destruct (String.eqb_spec k k'); [subst k'|]; auto. apply dfind_none; auto.
  - rewrite IH by auto. destruct (String.eqb_spec n k') as [->|]; auto. destruct (String.eqb_spec k k') as [->|]; auto. congruence.
Qed.
Lemma ddel_keys k d n : In n (map fst (ddel k d)) -> In n (map fst d).
Proof. induction d as [|[m w] d IH]; cbn [ddel map fst In]; auto. destruct (String.eqb m k); cbn [map fst In]; tauto. Qed.
Lemma ddel_proper k d : proper d -> proper (ddel k d).
Proof.
  unfold proper. induction d as [|[n w] d IH]; intros P; cbn [ddel map fst] in *; auto. inversion P; subst. destruct (String.eqb n k); auto. cbn [map fst]. constructor; auto.
  intros I. apply ddel_keys in I. contradiction.
Qed.
Lemma dupdate_proper e : forall d, proper d -> proper (dupdate d e).
Proof. unfold dupdate. induction e as [|[k v] e IH]; intros d P; cbn [fold_left]; auto. apply IH. apply dset_proper; auto. Qed.
Lemma dupdate_find e : forall d k, proper e -> dfind k (dupdate d e) = match dfind k e with Some v => Some v | None => dfind k d end.
Proof.
  unfold dupdate. induction e as [|[n v] e IH]; intros d k P; cbn [fold_left dfind fst snd]; auto. inversion P; subst. rewrite IH by auto. rewrite dset_find.
  destruct (String.eqb_spec n k) as [->|]; auto. assert (E : dfind k e = None) by (apply dfind_none; auto). rewrite E. reflexivity.
Qed.

(** ** Writing into a dict *)
Lemma upd_length f a l : length (upd_dict f a l) = length l.
Proof. unfold upd_dict. rewrite app_length. rewrite <- (firstn_skipn a l) at 3. rewrite app_length. destruct (skipn a l); reflexivity. Qed.
Lemma upd_nth f a l b : nth b (upd_dict f a l) [] = if (a =? b) && (a <? length l) then f (nth b l []) else nth b l [].
Proof.
  unfold upd_dict. revert b l. induction a as [|a IH]; intros b [|d l]; cbn [firstn skipn app length].
  - rewrite andb_false_r. reflexivity.
  - destruct b; reflexivity.
  - rewrite andb_false_r. reflexivity.
  - destruct b; cbn [nth]; auto. rewrite IH. reflexivity.
Qed.

(** ** The invariant *)
Definition inv (s : mstate) (g : origins) : Prop :=
  length (g_tags g) = length (holders s) /\ length (g_dests g) = length (holders s) /\
  (forall r a, deref s r = Some a -> a < length (dicts s)) /\
  (forall i t, nth_error (g_tags g) i = Some t -> match t with Own j => j < length (holders s) | Caller n => n < length (vars s) end) /\
  (forall r1 r2 a1 a2, deref s r1 = Some a1 -> deref s r2 = Some a2 -> (a1 = a2 <-> tag_of g r1 = tag_of g r2)) /\
  (forall i h, nth_error (holders s) i = Some h -> m_dest h < dests s) /\
  (forall i d, nth_error (g_dests g) i = Some d -> d < length (holders s)) /\
  (forall i j h k, nth_error (holders s) i = Some h -> nth_error (holders s) j = Some k -> (m_dest h = m_dest k <-> nth_error (g_dests g) i = nth_error (g_dests g) j)) /\
  Forall proper (dicts s).

Lemma deref_tag s g r a : length (g_tags g) = length (holders s) -> deref s r = Some a -> exists t, tag_of g r = Some t.
Proof.
  intros L H. destruct r as [n|i]; cbn [tag_of]; eauto. cbn [deref] in H. destruct (nth_error (holders s) i) eqn:E; [|discriminate].
  destruct (nth_error (g_tags g) i) eqn:E'; eauto. apply nth_error_None in E'. assert (i < length (holders s)) by (apply nth_error_Some; congruence). lia.
Qed.
Lemma snoc_nth {A} (l : list A) x i : nth_error (l ++ [x]) i = if i =? length l then Some x else nth_error l i.
Proof.
  destruct (Nat.eqb_spec i (length l)) as [->|N]; [rewrite nth_error_app2, Nat.sub_diag; auto|].
  destruct (Nat.lt_ge_cases i (length l)); [apply nth_error_app1; auto|]. rewrite (proj2 (nth_error_None l i)); auto. apply nth_error_None. rewrite app_length. simpl. lia.
Qed.

(** Adding a holder whose attachment is new or that of [r]. *)
Lemma inv_add s g a d t e : inv s g -> a < length (dicts s) ->
  (forall r b, deref s r = Some b -> (b = a <-> tag_of g r = Some t)) ->
  match t with Own j => j <= length (holders s) | Caller n => n < length (vars s) end ->
  d <= dests s -> e <= length (holders s) ->
  (forall i h, nth_error (holders s) i = Some h -> (m_dest h = d <-> nth_error (g_dests g) i = Some e)) ->
  (t = Own (length (holders s)) -> forall r b, deref s r = Some b -> b <> a) ->
  inv (add_holder s a d) {| g_tags := g_tags g ++ [t]; g_dests := g_dests g ++ [e] |}.
Proof.
  intros (L1 & L2 & I2 & I3 & I1 & D1 & D2 & D3 & P) Ha Hr Ht Hd He Hi _. unfold inv, add_holder. cbn [holders dicts vars dests g_tags g_dests].
  rewrite !app_length, L1, L2. cbn [length]. split; auto. split; auto.
  assert (DR : forall r b, deref {| dicts := dicts s; vars := vars s; dests := Nat.max (dests s) (S d); holders := holders s ++ [{| m_attach := a; m_dest := d |}] |} r = Some b ->
    (deref s r = Some b /\ tag_of {| g_tags := g_tags g ++ [t]; g_dests := g_dests g ++ [e] |} r = tag_of g r) \/ (b = a /\ tag_of {| g_tags := g_tags g ++ [t]; g_dests := g_dests g ++ [e] |} r = Some t)).
  { intros [n|i] b H; cbn [deref vars holders tag_of g_tags] in *; [left; auto|]. rewrite snoc_nth in H. rewrite snoc_nth, L1. destruct (i =? length (holders s)); [right|left; auto].
    injection H as <-. auto. }
  split. { intros r b H. destruct (DR r b H) as [(H' & _)|(-> & _)]; eauto. }
  split. { intros i t' H. rewrite snoc_nth, L1 in H. destruct (i =? length (holders s)).
    - injection H as <-. destruct t; lia.
    - specialize (I3 i t' H). destruct t'; lia. }
  split. { intros r1 r2 a1 a2 H1 H2. destruct (DR _ _ H1) as [(H1' & T1)|(-> & T1)], (DR _ _ H2) as [(H2' & T2)|(-> & T2)]; rewrite T1, T2.
    - eauto.
    - apply Hr; auto.
    - split; intros E; symmetry; apply (Hr r2 a2 H2'); auto.
    - tauto. }
  split. { intros i h H. rewrite snoc_nth in H. destruct (i =? length (holders s)); [injection H as <-; cbn; lia|]. specialize (D1 i h H). lia. }
  split. { intros i x H. rewrite snoc_nth, L2 in H. destruct (i =? length (holders s)); [injection H as <-; lia|]. specialize (D2 i x H). lia. }
  split; auto. intros i j h k H K. rewrite snoc_nth in H, K. rewrite !snoc_nth, L2. destruct (i =? length (holders s)) eqn:Ei, (j =? length (holders s)) eqn:Ej.
  - injection H as <-. injection K as <-. tauto.
  - injection H as <-. cbn [m_dest]. split; intros E; symmetry; apply (Hi j k K); auto.
  - injection K as <-. cbn [m_dest]. apply Hi; auto.
  - eauto.
Qed.
(** Changing the dicts in place. *)
Lemma inv_dicts s g l : inv s g -> length l = length (dicts s) -> Forall proper l -> inv (with_dicts s l) g.
Proof.
  intros (L1 & L2 & I2 & I3 & I1 & D1 & D2 & D3 & P) L Pl. unfold inv, with_dicts. cbn [holders dicts vars dests]. rewrite L.
  repeat (split; [assumption|]). exact Pl.
Qed.
Lemma inv_more s g d : inv s g -> proper d -> inv (with_dicts s (dicts s ++ [d])) g.
Proof.
  intros (L1 & L2 & I2 & I3 & I1 & D1 & D2 & D3 & P) Pd. unfold inv, with_dicts. cbn [holders dicts vars dests]. rewrite app_length. cbn [length].
  split; [assumption|]. split; [assumption|]. split. { intros r a H. change (deref {| dicts := dicts s ++ [d]; vars := vars s; dests := dests s; holders := holders s |} r) with (deref s r) in H. specialize (I2 r a H). lia. }
  repeat (split; [assumption|]). apply Forall_app. split; auto.
Qed.
Lemma inv_fresh s g d : inv s g -> proper d ->
  inv (add_fresh s d) {| g_tags := g_tags g ++ [Own (length (holders s))]; g_dests := g_dests g ++ [length (holders s)] |}.
Proof.
  intros H P. pose proof (inv_more s g d H P) as M. unfold add_fresh. destruct H as (L1 & L2 & I2 & I3 & I1 & D1 & D2 & D3 & P').
  assert (N : forall r b, deref s r = Some b -> b <> length (dicts s)) by (intros r b H; specialize (I2 r b H); lia).
  apply (inv_add (with_dicts s (dicts s ++ [d])) g (length (dicts s)) (dests s) (Own (length (holders s))) (length (holders s)) M); cbn [with_dicts dicts holders vars dests]; auto.
  - rewrite app_length. simpl. lia.
  - intros r b Hr. change (deref s r = Some b) in Hr. split; intros E; [specialize (N r b Hr); contradiction|]. exfalso.
    destruct r as [n|i]; cbn [tag_of] in E; [discriminate|]. specialize (I3 i _ E). cbn in I3. lia.
  - intros i h Hi. split; intros E; exfalso; [specialize (D1 i h Hi); lia|specialize (D2 i _ E); lia].
Qed.

Lemma proper_at s a : Forall proper (dicts s) -> proper (dict_at s a).
Proof. intros F. unfold dict_at. destruct (nth_in_or_default a (dicts s) []) as [I|E]; [rewrite Forall_forall in F; auto|]. rewrite E. constructor. Qed.
Lemma proper_upd f a l : (forall d, proper d -> proper (f d)) -> Forall proper l -> Forall proper (upd_dict f a l).
Proof.
  intros Hf H. unfold upd_dict. rewrite <- (firstn_skipn a l) in H. apply Forall_app in H as (H1 & H2). apply Forall_app. split; auto.
  destruct (skipn a l); auto. inversion H2; subst. constructor; auto.
Qed.
Lemma merge_proper s l : Forall proper (dicts s) -> forall d e, proper d -> merge s l d = Some e -> proper e.
Proof.
  intros F. induction l as [|i l IH]; intros d e P M; cbn [merge] in M; [congruence|]. destruct (attachment s i) as [x|]; [|discriminate]. eapply IH; [|eauto]. apply dupdate_proper; auto.
Qed.
Lemma attachment_proper s i d : Forall proper (dicts s) -> attachment s i = Some d -> proper d.
Proof. intros F. unfold attachment. destruct (nth_error (holders s) i); [|discriminate]. intros H. injection H as <-. apply proper_at; auto. Qed.

Lemma track_same s s' o g : length (holders s') = length (holders s) -> track s s' o g = g.
Proof. intros E. unfold track. rewrite E, Nat.eqb_refl. reflexivity. Qed.
Lemma track_add s s' o g : length (holders s') = S (length (holders s)) ->
  track s s' o g = {| g_tags := g_tags g ++ [new_tag g (length (holders s)) o]; g_dests := g_dests g ++ [new_dest g (length (holders s)) o] |}.
Proof. intros E. unfold track. rewrite E. replace (S (length (holders s)) =? length (holders s)) with false; auto. symmetry. apply Nat.eqb_neq. lia. Qed.
Lemma add_length s a d : length (holders (add_holder s a d)) = S (length (holders s)).
Proof. unfold add_holder. cbn [holders]. rewrite app_length. simpl. lia. Qed.

Lemma nth_some {A} (l : list A) i x d : nth_error l i = Some x -> nth i l d = x.
Proof. revert l. induction i as [|i IH]; intros [|y l] H; simpl in *; try discriminate; [congruence|auto]. Qed.

Theorem inv_step s g o : inv s g -> inv (fst (mstep s o)) (track s (fst (mstep s o)) o g).
Proof.
  intros H. assert (H' := H). destruct H' as (L1 & L2 & I2 & I3 & I1 & D1 & D2 & D3 & P).
  assert (SAME : forall e, inv (fst (s, e : option err)) (track s (fst (s, e)) o g)) by (intros e; cbn [fst]; rewrite track_same; auto).
  assert (FRESH : forall d e, proper d -> new_tag g (length (holders s)) o = Own (length (holders s)) -> new_dest g (length (holders s)) o = length (holders s) ->
    inv (fst (add_fresh s d, e : option err)) (track s (fst (add_fresh s d, e)) o g)).
  { intros d e Pd E1 E2. cbn [fst]. rewrite track_add, E1, E2 by (unfold add_fresh; rewrite add_length; reflexivity). apply inv_fresh; auto. }
  assert (UPD : forall f a e, (forall d, proper d -> proper (f d)) -> inv (fst (with_dicts s (upd_dict f a (dicts s)), e : option err)) (track s (fst (with_dicts s (upd_dict f a (dicts s)), e)) o g)).
  { intros f a e Hf. cbn [fst]. rewrite track_same by reflexivity. apply inv_dicts; auto; [apply upd_length|]. apply proper_upd; auto. }
  assert (ON : forall s0 r a, inv s0 g -> holders s0 = holders s -> vars s0 = vars s -> dests s0 = dests s -> deref s0 r = Some a -> forall t, tag_of g r = Some t -> new_tag g (length (holders s)) o = t -> new_dest g (length (holders s)) o = length (holders s) ->
    inv (add_holder s0 a (dests s0)) (track s (add_holder s0 a (dests s0)) o g)).
  { intros s0 r a H0 Eh Ev Ed Hr t Ht Et Edst. rewrite track_add, Et, Edst by (rewrite add_length, Eh; reflexivity). rewrite <- Eh.
    destruct H0 as (K1 & K2 & K3 & K4 & K5 & K6 & K7 & K8 & K9). apply inv_add; auto; try (repeat split; assumption).
    - repeat (split; [assumption|]). assumption.
    - eauto.
    - intros r' b Hb. rewrite <- Ht. apply K5; auto.
    - destruct r as [n|i]; cbn [tag_of] in Ht.
      + injection Ht as <-. cbn [deref] in Hr. apply nth_error_Some. congruence.
      + specialize (K4 i t Ht). destruct t; lia.
    - intros i h Hh. split; intros E; exfalso; [specialize (K6 i h Hh); lia|specialize (K7 i _ E); lia].
    - intros -> r' b Hb Eb. subst b. apply (K5 r' r a a Hb Hr) in Eb || idtac. assert (T := proj1 (K5 r' r a a Hb Hr) eq_refl). rewrite Ht in T.
      destruct r as [n|i]; cbn [tag_of] in Ht; [discriminate|]. specialize (K4 i _ Ht). cbn in K4. lia. }
  destruct o as [d|r k v|[r|] [v|]|i|i v|i|l|i k v|i k]; cbn [mstep]; auto.
  - cbn [fst]. rewrite track_same by reflexivity.
    assert (Pd : proper (dupdate [] d)) by (apply dupdate_proper; constructor).
    unfold inv. cbn [holders dicts vars dests]. rewrite !app_length. cbn [length].
    assert (DR : forall r b, deref {| dicts := dicts s ++ [dupdate [] d]; vars := vars s ++ [length (dicts s)]; dests := dests s; holders := holders s |} r = Some b ->
      deref s r = Some b \/ (b = length (dicts s) /\ r = RDict (length (vars s)))).
    { intros [n|i] b Hb; cbn [deref vars holders] in *; auto. rewrite snoc_nth in Hb. destruct (Nat.eqb_spec n (length (vars s))) as [->|]; auto. injection Hb as <-. auto. }
    split; auto. split; auto. split. { intros r a Hr. destruct (DR r a Hr) as [Hr'|(-> & _)]; [specialize (I2 r a Hr')|]; lia. }
    split. { intros i t Ht. specialize (I3 i t Ht). destruct t; lia. }
    assert (NC : forall r a, deref s r = Some a -> tag_of g r <> Some (Caller (length (vars s)))).
    { intros [n|i] a Ha E; cbn [tag_of deref] in *.
      - injection E as ->. assert (length (vars s) < length (vars s)) by (apply nth_error_Some; congruence). lia.
      - specialize (I3 i _ E). cbn in I3. lia. }
    split; [|repeat (split; [assumption|]); apply Forall_app; split; auto].
    intros r1 r2 a1 a2 H1 H2. destruct (DR _ _ H1) as [H1'|(-> & ->)], (DR _ _ H2) as [H2'|(-> & ->)].
    + eauto.
    + split; intros E; exfalso; [specialize (I2 _ _ H1'); lia|]. apply (NC _ _ H1'). exact E.
    + split; intros E; exfalso; [specialize (I2 _ _ H2'); lia|]. apply (NC _ _ H2'). symmetry. exact E.
    + tauto.
  - destruct (deref s r); auto. apply UPD. intros x. apply dset_proper.
  - destruct (deref s r) as [a|] eqn:Er; auto. unfold construct. destruct (dfind "systematic"%string (dict_at s a)); auto. cbn [fst].
    destruct (deref_tag s g r a L1 Er) as (t & Ht).
    apply (ON (with_dicts s (upd_dict (dset "systematic"%string v) a (dicts s))) r a) with (t := t); auto.
    + apply inv_dicts; auto; [apply upd_length|]. apply proper_upd; auto. intros x. apply dset_proper.
    + cbn [new_tag]. destruct r; cbn [tag_of] in Ht; [congruence|]. apply nth_some; auto.
  - destruct (deref s r) as [a|] eqn:Er; auto. unfold construct. cbn [fst]. destruct (deref_tag s g r a L1 Er) as (t & Ht).
    apply (ON s r a) with (t := t); auto. cbn [new_tag]. destruct r; cbn [tag_of] in Ht; [congruence|]. apply nth_some; auto.
  - apply FRESH; auto. repeat constructor. auto.
  - apply FRESH; auto. constructor.
  - destruct (attachment s i) eqn:E; auto. apply FRESH; auto. eapply attachment_proper; eauto.
  - destruct (attachment s i) as [d|] eqn:E; auto. destruct (dfind _ d); auto. apply FRESH; auto. apply dset_proper. eapply attachment_proper; eauto.
  - destruct (nth_error (holders s) i) as [h|] eqn:Eh; auto. cbn [fst]. rewrite track_add by apply add_length. cbn [new_tag new_dest].
    assert (Er : deref s (ROf i) = Some (m_attach h)) by (cbn [deref]; rewrite Eh; reflexivity).
    destruct (deref_tag s g _ _ L1 Er) as (t & Ht). cbn [tag_of] in Ht. rewrite (nth_some _ _ _ _ Ht).
    assert (exists e, nth_error (g_dests g) i = Some e) as (e & Ee).
    { destruct (nth_error (g_dests g) i) eqn:E; eauto. apply nth_error_None in E. assert (i < length (holders s)) by (apply nth_error_Some; congruence). lia. }
    rewrite (nth_some _ _ _ _ Ee). apply inv_add; auto.
    + eauto.
    + intros r b Hb. rewrite <- Ht. apply (I1 r (ROf i)); auto.
    + specialize (I3 i t Ht). destruct t; lia.
    + specialize (D1 i h Eh). lia.
    + specialize (D2 i e Ee). lia.
    + intros j k Hk. rewrite <- Ee. apply D3; auto.
    + intros -> r b Hb Eb. specialize (I3 i _ Ht). cbn in I3. lia.
  - destruct (merge s l []) eqn:E; auto. apply FRESH; auto. eapply (merge_proper s l P []); eauto. constructor.
  - destruct (nth_error (holders s) i); auto. apply UPD. intros x. apply dset_proper.
  - destruct (nth_error (holders s) i); auto. destruct (dfind k _); auto. apply UPD. intros x. apply ddel_proper.
Qed.
Theorem inv_reached s g : reached s g -> inv s g.
Proof.
  induction 1 as [|s g o H IH]; [|apply inv_step; auto]. unfold inv, start. cbn.
  split; auto. split; auto. split; [intros [n|i] a H; [destruct n|destruct i]; discriminate|]. split; [intros [|i] t H; discriminate|].
  split; [intros [[|n]|[|i]] r2 a1 a2 H; discriminate|]. split; [intros [|i] h H; discriminate|]. split; [intros [|i] h H; discriminate|].
  split; [intros [|i] j h k H; discriminate|constructor].
Qed.

(** ** What a write changes *)
Lemma write_seen s g r a f k v : inv s g -> deref s r = Some a -> (forall k', dfind k' (f (dict_at s a)) = if String.eqb k k' then v else dfind k' (dict_at s a)) ->
  written_to s (with_dicts s (upd_dict f a (dicts s))) g r k v.
Proof.
  intros (L1 & L2 & I2 & I3 & I1 & _) Hr Hf r' k' Hx. unfold exists_ref in Hx. unfold value.
  change (deref (with_dicts s (upd_dict f a (dicts s))) r') with (deref s r'). destruct (deref s r') as [b|] eqn:Er'; [|congruence].
  unfold dict_at. cbn [with_dicts dicts]. rewrite upd_nth. specialize (I2 r a Hr). replace (a <? length (dicts s)) with true by (symmetry; apply Nat.ltb_lt; auto). rewrite andb_true_r.
  pose proof (I1 r' r b a Er' Hr) as T. destruct (Nat.eqb_spec a b) as [->|N].
  - unfold dict_at in Hf. rewrite Hf. split; [intros _ ->; rewrite String.eqb_refl; auto|]. intros [H|H]; [exfalso; apply H; apply T; auto|].
    destruct (String.eqb_spec k k'); [congruence|auto].
  - split; auto. intros E. exfalso. apply N. symmetry. apply T. auto.
Qed.
Lemma value_fresh s g d : inv s g -> undisturbed s (add_fresh s d) /\ makes s (add_fresh s d) (fun k => dfind k d).
Proof.
  intros (L1 & L2 & I2 & _). split.
  - intros r k Hx. unfold exists_ref, value in *. assert (E : deref (add_fresh s d) r = deref s r).
    { destruct r as [n|i]; cbn [deref add_fresh add_holder with_dicts vars holders] in *; auto. rewrite snoc_nth. destruct (Nat.eqb_spec i (length (holders s))) as [->|]; auto.
      exfalso. apply Hx. rewrite (proj2 (nth_error_None _ _)); auto. }
    rewrite E. split; auto. destruct (deref s r) as [a|] eqn:Er; auto. unfold dict_at, add_fresh, add_holder, with_dicts. cbn [dicts]. rewrite app_nth1; auto. eauto.
  - unfold makes. split; [unfold add_fresh; rewrite add_length; reflexivity|]. intros k. unfold value, add_fresh, add_holder, with_dicts, dict_at. cbn [deref holders dicts].
    rewrite snoc_nth, Nat.eqb_refl. cbn [option_map m_attach]. rewrite app_nth2, Nat.sub_diag; auto.
Qed.
Lemma value_add s a d r k : exists_ref s r -> exists_ref (add_holder s a d) r /\ value (add_holder s a d) r k = value s r k.
Proof.
  intros Hx. unfold exists_ref, value in *. assert (E : deref (add_holder s a d) r = deref s r).
  { destruct r as [n|i]; cbn [deref add_holder vars holders] in *; auto. rewrite snoc_nth. destruct (Nat.eqb_spec i (length (holders s))) as [->|]; auto.
    exfalso. apply Hx. rewrite (proj2 (nth_error_None _ _)); auto. }
  rewrite E. split; auto.
Qed.
Lemma value_new s a d k : value (add_holder s a d) (ROf (length (holders s))) k = dfind k (dict_at s a).
Proof. unfold value, add_holder. cbn [deref holders]. rewrite snoc_nth, Nat.eqb_refl. reflexivity. Qed.
Lemma attachment_value s i k : value s (ROf i) k = match attachment s i with Some d => dfind k d | None => None end.
Proof. unfold value, attachment. cbn [deref]. destruct (nth_error (holders s) i); reflexivity. Qed.
