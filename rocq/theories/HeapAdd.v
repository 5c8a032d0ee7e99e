(** Adding references, and the operations that write in place. *)
From Coq Require Import String.
From Verif Require Import Base Num NumFacts Axis Calc Content Fill FillSpec FillProofs FillMain HistFill HistFillProofs HistAlg HistAlgProofs Heap HeapSpec HeapProofs.
Local Open Scope list_scope.

Lemma assoc_view n H k (m : list (gkey * ref)) : assoc k (view_items n H m) = option_map (view n H) (assoc k m).
Proof. induction m as [|[k' x] m IH]; cbn [view_items map assoc fst snd]; auto. destruct (gkey_eqb k k'); auto. Qed.
Lemma has_key_view n H k (m : list (gkey * ref)) : has_key k (view_items n H m) = has_key k m.
Proof. unfold has_key. rewrite assoc_view. destruct (assoc k m); auto. Qed.
Lemma new_refs_view n H a b : view_items n H (new_refs a b) = new_items (view_items n H a) (view_items n H b).
Proof.
  unfold new_refs, new_items. induction b as [|[k x] b IH]; cbn [view_items map filter fst snd]; auto. rewrite has_key_view.
  destruct (has_key k a); cbn [negb]; auto. cbn [view_items map fst snd]. f_equal. apply IH.
Qed.
Lemma new_refs_incl a b : incl (new_refs a b) b.
Proof. intros x Hx. apply filter_In in Hx. tauto. Qed.
Lemma reach_items_incl n H a b : incl a b -> incl (reach_items n H a) (reach_items n H b).
Proof. intros I l Hl. apply in_flat_map in Hl. destruct Hl as (x & Hx & Hl). apply in_flat_map. eauto. Qed.
Lemma wt_items_incl n H a b : incl a b -> wt_items n H b -> wt_items n H a.
Proof. unfold wt_items. rewrite !Forall_forall. auto. Qed.
Lemma assoc_in_key {A} k (m : list (gkey * A)) x : assoc k m = Some x -> exists k', In (k', x) m.
Proof.
  induction m as [|[k' y] m IH]; cbn [assoc]; [discriminate|]. destruct (gkey_eqb k k'); intros E.
  - injection E as <-. exists k'. left. auto.
  - destruct (IH E) as (q & Hq). exists q. right. auto.
Qed.

(** The result [x] of an addition that should give [c]. *)
Definition added n (H H' : heap) (old : list loc) (same : bool) (x : res ref) (c : res content) : Prop :=
  (exists X, H' = H ++ X) /\
  match c with
  | Err e => x = Err e
  | Ok c => exists q, x = Ok q /\ view n H' q = c /\ wt n H' q /\
              (forall l, In l (reach n H' q) -> In l old \/ length H <= l < length H') /\
              (same = true -> fresh_tree n H H' q c)
  end.
Definition added_items n (H H' : heap) (old : list loc) (same : bool) (x : res (list (gkey * ref))) (c : res (list (gkey * content))) : Prop :=
  (exists X, H' = H ++ X) /\
  match c with
  | Err e => x = Err e
  | Ok c => exists q, x = Ok q /\ view_items n H' q = c /\ wt_items n H' q /\
              (forall l, In l (reach_items n H' q) -> In l old \/ length H <= l < length H') /\
              (same = true -> fresh_items n H H' q c)
  end.
Lemma fresh_added n H H' old same q c : fresh_tree n H H' q c -> added n H H' old same (Ok q) (Ok c).
Proof. intros F. destruct F as (X & V & W & N & B). split; auto. exists q. repeat split; auto; apply B; auto. Qed.

Lemma add_refs_ok k1 k2 n b :
  (forall H r s H' x, wt n H r -> wt n H s -> add_ref k1 k2 n H r s = (H', x) ->
     added n H H' (reach n H r ++ reach n H s) (same_groups (view n H r) (view n H s)) x (content_add k1 k2 (view n H r) (view n H s))) ->
  forall l H H' x, wt_items n H l -> wt_items n H b -> add_refs (add_ref k1 k2 n) b H l = (H', x) ->
    added_items n H H' (reach_items n H l ++ reach_items n H b) (eq_items same_groups (view_items n H b) (view_items n H l)) x
      (add_items (content_add k1 k2) (view_items n H b) (view_items n H l)).
Proof.
  intros IH. induction l as [|[k r] l IHl]; intros H H' x Wl Wb E; cbn [add_refs] in E.
  - injection E as <- <-. split; [exists []; symmetry; apply app_nil_r|]. cbn [view_items map add_items]. exists [].
    split; auto. split; auto. split; [constructor|]. split; [intros l []|]. intros _. apply fresh_nil.
  - fold (add_refs (add_ref k1 k2 n)) in E. cbn [view_items map add_items fst snd eq_items].
    fold (view_items n H l). fold (add_items (content_add k1 k2) (view_items n H b)). fold (eq_items same_groups (view_items n H b)).
    rewrite assoc_view. inversion Wl as [|? ? W1 W2]; subst. cbn [snd] in W1.
    assert (ST : added n H (fst (match assoc k b with Some x' => add_ref k1 k2 n H r x' | None => (H, Ok r) end))
                  (reach n H r ++ reach_items n H b)
                  (match assoc k b with Some s => same_groups (view n H r) (view n H s) | None => false end)
                  (snd (match assoc k b with Some x' => add_ref k1 k2 n H r x' | None => (H, Ok r) end))
                  (match assoc k b with Some s => content_add k1 k2 (view n H r) (view n H s) | None => Ok (view n H r) end)).
    { destruct (assoc k b) as [s|] eqn:As.
      - destruct (assoc_in_key _ _ _ As) as (k' & Hs). assert (Ws : wt n H s) by (unfold wt_items in Wb; rewrite Forall_forall in Wb; apply (Wb _ Hs)).
        destruct (add_ref k1 k2 n H r s) as [Ha y] eqn:Ea. cbn [fst snd]. destruct (IH H r s Ha y W1 Ws Ea) as (X & C). split; auto.
        destruct (content_add k1 k2 (view n H r) (view n H s)); auto. destruct C as (q & ? & ? & ? & B & ?). exists q. split; auto. split; auto. split; auto. split; auto.
        intros l' Hl'. apply B in Hl'. rewrite in_app_iff in *. destruct Hl' as [[Hl'|Hl']|Hl']; auto. left. right. apply in_flat_map. exists (k', s). auto.
      - cbn [fst snd]. split; [exists []; symmetry; apply app_nil_r|]. exists r. split; auto. split; auto. split; auto. split; [|discriminate].
        intros. left. apply in_or_app. auto. }
    destruct (match assoc k b with Some x' => add_ref k1 k2 n H r x' | None => (H, Ok r) end) as [Ha y] eqn:Ea. cbn [fst snd] in ST.
    replace (match option_map (view n H) (assoc k b) with Some x' => content_add k1 k2 (view n H r) x' | None => Ok (view n H r) end)
      with (match assoc k b with Some s => content_add k1 k2 (view n H r) (view n H s) | None => Ok (view n H r) end)
      by (destruct (assoc k b); auto).
    replace (match option_map (view n H) (assoc k b) with Some y0 => same_groups (view n H r) y0 | None => false end)
      with (match assoc k b with Some s => same_groups (view n H r) (view n H s) | None => false end)
      by (destruct (assoc k b); auto).
    destruct ST as ((X & ->) & C).
    destruct (match assoc k b with Some s => content_add k1 k2 (view n H r) (view n H s) | None => Ok (view n H r) end) as [c|e].
    2:{ subst y. injection E as <- <-. cbn [bind]. split; [exists X; auto|auto]. }
    destruct C as (q & -> & Vq & Wq & Bq & Fq). cbn [bind].
    destruct (frame_items_app n H X l W2) as (A1 & A2 & A3). destruct (frame_items_app n H X b Wb) as (B1 & B2 & B3).
    destruct (add_refs (add_ref k1 k2 n) b (H ++ X) l) as [Hb z] eqn:Eb.
    destruct (IHl (H ++ X) Hb z A3 B3 Eb) as ((Y & ->) & C). rewrite A1, A2, B1, B2 in C.
    destruct (add_items (content_add k1 k2) (view_items n H b) (view_items n H l)) as [cs|e].
    2:{ subst z. injection E as <- <-. cbn [bind]. split; [exists (X ++ Y); rewrite app_assoc; auto|auto]. }
    destruct C as (qs & -> & Vqs & Wqs & Bqs & Fqs). injection E as <- <-. cbn [bind].
    split; [exists (X ++ Y); rewrite app_assoc; auto|]. exists ((k, q) :: qs). split; auto.
    destruct (frame_app n (H ++ X) Y q Wq) as (D1 & D2 & D3).
    cbn [view_items map fst snd reach_items flat_map]. fold (view_items n ((H ++ X) ++ Y) qs). fold (reach_items n ((H ++ X) ++ Y) qs).
    fold (reach_items n H l). rewrite D1, D2, Vq, Vqs. split; auto. split; [constructor; auto|]. split.
    + intros l'. rewrite !in_app_iff. intros [Hl|Hl]; [apply Bq in Hl|apply Bqs in Hl]; rewrite in_app_iff in Hl; repeat rewrite app_length in *.
      * destruct Hl as [[Hl|Hl]|Hl]; auto. right. lia.
      * destruct Hl as [[Hl|Hl]|Hl]; auto. right. lia.
    + intros S. apply andb_prop in S. destruct S as (S1 & S2). eapply fresh_cons; eauto.
Qed.

Lemma new_items_none {A} (f : list (gkey * A)) (b : list (gkey * A)) :
  forallb (fun kv => has_key (fst kv) f) b = true -> filter (fun kv => negb (has_key (fst kv) f)) b = [].
Proof.
  induction b as [|x b IH]; cbn [forallb filter]; auto. intros E. apply andb_prop in E. destruct E as (-> & E). cbn [negb]. auto.
Qed.

Lemma add_ref_ok k1 k2 : forall n H r s H' x, wt n H r -> wt n H s -> add_ref k1 k2 n H r s = (H', x) ->
  added n H H' (reach n H r ++ reach n H s) (same_groups (view n H r) (view n H s)) x (content_add k1 k2 (view n H r) (view n H s)).
Proof.
  assert (VN : forall n H, view n H RNone = CNone) by (intros [|n] H; reflexivity).
  assert (NN : forall n H l, wt n H (RLoc l) -> view n H (RLoc l) <> CNone).
  { intros [|n] H l; cbn [wt view]; destruct (get H l) as [[d|items]|]; try contradiction; discriminate. }
  assert (CP : forall n H r H' q old same, wt n H r -> copy_ref n H r = (H', q) -> added n H H' old same (Ok q) (Ok (copycontent (view n H r)))).
  { intros n H r H' q old same W E. rewrite copycontent_id. apply fresh_added. eapply alloc_tree_ok; eauto. apply view_depth. }
  induction n as [|n IH]; intros H [|l] [|m] H' x Wr Ws E.
  1,5: cbn in E; injection E as <- <-; cbn [view content_add]; apply fresh_added; apply fresh_none.
  1,4: unfold add_ref in E; match type of E with (let '(_, _) := ?c in _) = _ => destruct c as [Ha y] eqn:C end;
       injection E as <- <-; rewrite VN; specialize (NN _ _ _ Ws); destruct (view _ H (RLoc m)) eqn:V; try contradiction;
       cbn [content_add]; rewrite <- V; eapply CP; eauto.
  1,3: unfold add_ref in E; match type of E with (let '(_, _) := ?c in _) = _ => destruct c as [Ha y] eqn:C end;
       injection E as <- <-; rewrite VN; specialize (NN _ _ _ Wr); destruct (view _ H (RLoc l)) eqn:V; try contradiction;
       cbn [content_add]; rewrite <- V; eapply CP; eauto.
  - cbn [wt view add_ref] in *. destruct (get H l) as [[d|a]|]; try contradiction. destruct (get H m) as [[e|b]|]; try contradiction.
    cbn [content_add]. destruct (arr_add k1 k2 d e) as [s|er]; cbn [rmap].
    + injection E as <- <-. apply fresh_added. apply fresh_arr.
    + injection E as <- <-. split; [exists []; symmetry; apply app_nil_r|auto].
  - cbn [wt] in Wr, Ws. destruct (get H l) as [[d|a]|] eqn:Gl; try contradiction; destruct (get H m) as [[e|b]|] eqn:Gm; try contradiction;
      cbn [add_ref] in E; rewrite Gl, Gm in E.
    + cbn [view]. rewrite Gl, Gm. cbn [content_add]. destruct (arr_add k1 k2 d e) as [s|er]; cbn [rmap].
      * injection E as <- <-. apply fresh_added. apply fresh_arr.
      * injection E as <- <-. split; [exists []; symmetry; apply app_nil_r|auto].
    + injection E as <- <-. cbn [view]. rewrite Gl, Gm. cbn [content_add]. split; [exists []; symmetry; apply app_nil_r|auto].
    + injection E as <- <-. cbn [view]. rewrite Gl, Gm. cbn [content_add]. split; [exists []; symmetry; apply app_nil_r|auto].
    + destruct (dict_unfold n H l a Gl) as (V1 & R1 & _). destruct (dict_unfold n H m b Gm) as (V2 & R2 & _). rewrite V1, V2, R1, R2.
      destruct (add_refs (add_ref k1 k2 n) b H a) as [Ha y] eqn:Ea.
      destruct (add_refs_ok k1 k2 n b IH a H Ha y Wr Ws Ea) as ((X & ->) & C).
      cbn [content_add same_groups]. fold (eq_items same_groups (view_items n H b)).
      destruct (add_items (content_add k1 k2) (view_items n H b) (view_items n H a)) as [cs|er]; cbn [bind].
      2:{ subst y. injection E as <- <-. split; [exists X; auto|auto]. }
      destruct C as (items & -> & Vi & Wi & Bi & Fi). injection E as <- <-.
      assert (Wn : wt_items n H (new_refs a b)) by (eapply wt_items_incl; [apply new_refs_incl|auto]).
      destruct (frame_items_app n H X _ Wn) as (N1 & N2 & N3).
      set (its := items ++ new_refs a b).
      assert (Wits : wt_items n (H ++ X) its) by (apply Forall_app; split; auto).
      assert (Vits : view_items n (H ++ X) its = cs ++ new_items (view_items n H a) (view_items n H b)).
      { unfold its, view_items. rewrite map_app. fold (view_items n (H ++ X) items). fold (view_items n (H ++ X) (new_refs a b)).
        rewrite Vi, N1, new_refs_view. reflexivity. }
      assert (Rits : reach_items n (H ++ X) its = reach_items n (H ++ X) items ++ reach_items n H (new_refs a b)).
      { unfold its, reach_items. rewrite flat_map_app. fold (reach_items n (H ++ X) (new_refs a b)). rewrite N2. reflexivity. }
      assert (E' := get_app_new (H ++ X) (ODict its)).
      destruct (frame_items_app n (H ++ X) [ODict its] its Wits) as (F1 & F2 & F3).
      destruct (dict_unfold n _ _ _ E') as (D1 & D2 & D3).
      split; [exists (X ++ [ODict its]); rewrite app_assoc; auto|]. exists (RLoc (length (H ++ X))). split; auto.
      rewrite D1, D2, D3, F1, F2, Vits, Rits. split; auto. split; auto. split.
      * intros l' [<-|Hl']; [right; repeat rewrite app_length; cbn [length]; lia|]. rewrite in_app_iff in Hl'. destruct Hl' as [Hl'|Hl'].
        -- apply Bi in Hl'. rewrite in_app_iff in *. cbn [In]. repeat rewrite app_length in *. cbn [length]. destruct Hl' as [[Hl'|Hl']|Hl']; auto. right. lia.
        -- left. apply in_or_app. right. right. eapply reach_items_incl; [apply new_refs_incl|eauto].
      * intros S. apply andb_prop in S. destruct S as (S1 & S2). specialize (Fi S2).
        assert (NI : new_items (view_items n H a) (view_items n H b) = []) by (apply new_items_none; auto).
        assert (NR : new_refs a b = []).
        { assert (Q := new_refs_view n H a b). rewrite NI in Q. destruct (new_refs a b); auto. discriminate Q. }
        unfold its. rewrite NI, NR, !app_nil_r. apply fresh_dict. auto.
Qed.

(** ** What is written in place keeps the existing entries *)
Definition ext_item (a b : gkey * content) : Prop := fst a = fst b /\ extends (snd a) (snd b).
Lemma extends_refl c : extends c c.
Proof.
  induction c as [|d|l IH] using content_ind'; try constructor. rewrite <- (app_nil_r l) at 2. constructor.
  induction IH; constructor; auto.
Qed.
Lemma ext_items_refl l : Forall2 ext_item l l.
Proof. induction l; constructor; auto. split; auto. apply extends_refl. Qed.
Lemma extends_trans a : forall b c, extends a b -> extends b c -> extends a c.
Proof.
  induction a as [|d|l IH] using content_ind'; intros b c E1 E2; [constructor| |].
  - inversion E1; subst. inversion E2; subst. constructor.
  - apply extends_dict_inv in E1. destruct E1 as (l1 & l2 & -> & F1). apply extends_dict_inv in E2. destruct E2 as (m1 & m2 & -> & F2).
    apply Forall2_app_inv_l in F2. destruct F2 as (n1 & n2 & F2 & F3 & ->). rewrite <- app_assoc. constructor. clear F3 n2 m2 l2.
    revert n1 F2. induction F1 as [|x y l l1 (K & E) F1 IHF]; intros n1 F2; inversion F2 as [|? z ? ? (K' & E') F2']; subst; constructor.
    + split; [congruence|]. inversion IH as [|? ? Hx _]; subst. eapply Hx; eauto.
    + inversion IH; subst. apply IHF; auto.
Qed.
Lemma ext_items_trans l m n : Forall2 ext_item l m -> Forall2 ext_item m n -> Forall2 ext_item l n.
Proof.
  intros F. revert n. induction F as [|x y l l1 (K & E) F1 IHF]; intros n F2; inversion F2 as [|? z ? ? (K' & E') F2']; subst; constructor; auto.
  split; [congruence|]. eapply extends_trans; eauto.
Qed.

Lemma imul_ok v c : forall n, depth_ok n c -> extends c (fst (content_imul v c)) /\ depth_ok n (fst (content_imul v c)).
Proof.
  induction c as [|d|l IH] using content_ind'; intros n D; cbn [content_imul fst].
  - split; [constructor|auto].
  - split; [constructor|destruct n; exact I].
  - destruct n as [|n]; [destruct D|]. cbn [depth_ok] in D.
    assert (K : Forall2 ext_item l (fst (imul_items (content_imul v) l)) /\ Forall (fun kv => depth_ok n (snd kv)) (fst (imul_items (content_imul v) l))).
    { induction IH as [|[k x] l Hx IH IHl]; cbn [imul_items fst]; [split; constructor|]. inversion D as [|? ? D1 D2]; subst. cbn [snd] in *.
      fold (imul_items (content_imul v)). destruct (Hx n D1) as (E1 & E2). destruct (content_imul v x) as [y [e|]] eqn:Ex; cbn [fst] in *.
      - split; constructor; auto; [split; auto|apply ext_items_refl].
      - destruct (IHl D2) as (F1 & F2). destruct (imul_items (content_imul v) l) as [t e]. cbn [fst] in *. split; constructor; auto. split; auto. }
    destruct (imul_items (content_imul v) l) as [l' e]. cbn [fst] in *. destruct K as (K1 & K2). split; auto.
    rewrite <- (app_nil_r l'). constructor. auto.
Qed.

Lemma assoc_depth n k (m : list (gkey * content)) x : Forall (fun kv => depth_ok n (snd kv)) m -> assoc k m = Some x -> depth_ok n x.
Proof. intros D E. destruct (assoc_in_key _ _ _ E) as (k' & Hx). rewrite Forall_forall in D. apply (D _ Hx). Qed.
Lemma iadd_items_ext f m n : 
  Forall (fun kv => depth_ok n (snd kv)) m ->
  forall l, Forall (fun kv => forall b, depth_ok n (snd kv) -> depth_ok n b -> extends (snd kv) (fst (f (snd kv) b)) /\ depth_ok n (fst (f (snd kv) b))) l ->
  Forall (fun kv => depth_ok n (snd kv)) l ->
  Forall2 ext_item l (fst (iadd_items f m l)) /\ Forall (fun kv => depth_ok n (snd kv)) (fst (iadd_items f m l)).
Proof.
  intros Dm. induction 1 as [|[k x] l Hx IH IHl]; intros D; cbn [iadd_items fst]; [split; constructor|].
  inversion D as [|? ? D1 D2]; subst. cbn [snd] in *. fold (iadd_items f m). destruct (IHl D2) as (F1 & F2).
  destruct (assoc k m) as [x'|] eqn:A.
  - destruct (Hx x' D1 (assoc_depth _ _ _ _ Dm A)) as (E1 & E2). destruct (f x x') as [y [e|]]; cbn [fst] in *.
    + split; constructor; auto; [split; auto|apply ext_items_refl].
    + destruct (iadd_items f m l) as [t e]. cbn [fst] in *. split; constructor; auto. split; auto.
  - destruct (iadd_items f m l) as [t e]. cbn [fst] in *. split; constructor; auto. split; auto. apply extends_refl.
Qed.
Lemma array_iadd_ok k1 k2 d b n : extends (CArr d) (fst (array_iadd k1 k2 d b)) /\ depth_ok n (fst (array_iadd k1 k2 d b)).
Proof.
  unfold array_iadd. destruct b as [|e|m]; cbn [fst]; try (split; [constructor|destruct n; exact I]).
  destruct (arr_iadd k1 k2 d e); cbn [fst]; (split; [constructor|destruct n; exact I]).
Qed.
Lemma dict_iadd_ext k1 k2 a : forall n b, depth_ok n a -> depth_ok n b ->
  extends a (fst (dict_iadd k1 k2 a b)) /\ depth_ok n (fst (dict_iadd k1 k2 a b)).
Proof.
  induction a as [|d|l IH] using content_ind'; intros n b Da Db; cbn [dict_iadd fst]; try (split; [apply extends_refl|auto]).
  destruct b as [|e|m]; cbn [fst]; try (split; [apply extends_refl|auto]).
  destruct n as [|n]; [destruct Da|]. cbn [depth_ok] in Da, Db.
  match goal with |- context [iadd_items ?f m l] => destruct (iadd_items_ext f m n Db l) as (F1 & F2); auto; [|destruct (iadd_items f m l) as [l' [e|]]] end.
  - eapply Forall_impl; [|exact IH]. intros [k x] Hx b D1 D2. cbn [snd] in *. destruct x as [|d|q]; [apply Hx; auto|apply array_iadd_ok|apply Hx; auto].
  - cbn [fst] in *. split; auto. rewrite <- (app_nil_r l'). constructor. auto.
  - cbn [fst] in *. rewrite map_copy_id. split; [constructor; auto|]. cbn [depth_ok]. apply Forall_app. split; auto.
    unfold new_items. rewrite Forall_forall in *. intros x Hx. apply filter_In in Hx. apply Db. tauto.
Qed.
Lemma iadd_ok k1 k2 a b n : depth_ok n a -> depth_ok n b ->
  extends a (fst (content_iadd k1 k2 a b)) /\ depth_ok n (fst (content_iadd k1 k2 a b)).
Proof.
  intros Da Db. destruct a as [|d|l]; destruct b as [|e|m]; cbn [content_iadd fst]; try rewrite copycontent_id;
    try (split; [apply extends_refl || constructor|auto]; fail); try apply array_iadd_ok; apply dict_iadd_ext; auto.
Qed.
Lemma mul_depth v c : forall n c', depth_ok n c -> content_mul v c = Ok c' -> depth_ok n c'.
Proof.
  induction c as [|d|l IH] using content_ind'; intros n c' D E; cbn [content_mul] in E; try discriminate.
  - injection E as <-. destruct n; exact I.
  - destruct n as [|n]; [destruct D|]. cbn [depth_ok] in D. destruct (mul_items (content_mul v) l) as [l'|e] eqn:M; [|discriminate]. injection E as <-.
    cbn [depth_ok]. revert l' M. induction IH as [|[k x] l Hx IH IHl]; cbn [mul_items]; intros l' M; [injection M as <-; constructor|].
    fold (mul_items (content_mul v)) in M. inversion D as [|? ? D1 D2]; subst. cbn [snd] in *.
    destruct (content_mul v x) as [y|] eqn:Ex; [|discriminate]. destruct (mul_items (content_mul v) l) as [t|] eqn:Et; [|discriminate]. injection M as <-.
    constructor; eauto.
Qed.

(** ** Fills *)
Lemma assoc_set_ext n u c (d : list (gkey * content)) :
  Forall (fun kv => depth_ok n (snd kv)) d -> depth_ok n c ->
  (forall old, assoc u d = Some old -> extends old c) ->
  exists d1 d2, assoc_set u c d = d1 ++ d2 /\ Forall2 ext_item d d1 /\ Forall (fun kv => depth_ok n (snd kv)) (d1 ++ d2).
Proof.
  intros D Dc. induction d as [|[k x] d IH]; intros E; cbn [assoc_set assoc] in *.
  - exists [], [(u, c)]. repeat split; auto; constructor; auto.
  - inversion D as [|? ? D1 D2]; subst. cbn [snd] in D1. destruct (gkey_eqb u k).
    + exists ((k, c) :: d), []. rewrite app_nil_r. split; auto. split; [|constructor; auto]. constructor; [|apply ext_items_refl]. split; auto.
    + destruct (IH D2 E) as (d1 & d2 & -> & F1 & F2). exists ((k, x) :: d1), d2. split; auto. split; [|constructor; auto].
      constructor; auto. split; auto. apply extends_refl.
Qed.
Lemma dict_loop_ext n sub fresh : depth_ok n fresh ->
  (forall i c, depth_ok n c -> extends c (fst (sub i c)) /\ depth_ok n (fst (sub i c))) ->
  forall us i d, Forall (fun kv => depth_ok n (snd kv)) d ->
  exists d1 d2, fst (dict_loop sub fresh i us d) = d1 ++ d2 /\ Forall2 ext_item d d1 /\ Forall (fun kv => depth_ok n (snd kv)) (d1 ++ d2).
Proof.
  intros Df Hs. induction us as [|u us IH]; intros i d D; cbn [dict_loop].
  - exists d, []. rewrite app_nil_r. split; auto. split; auto. apply ext_items_refl.
  - fold (dict_loop sub fresh).
    assert (Do : depth_ok n (match assoc u d with Some c => c | None => fresh end)).
    { destruct (assoc u d) eqn:A; auto. eapply assoc_depth; eauto. }
    destruct (Hs i _ Do) as (E1 & E2).
    destruct (assoc_set_ext n u (fst (sub i (match assoc u d with Some c => c | None => fresh end))) d) as (d1 & d2 & EQ & F1 & F2);
      [exact D|exact E2|intros old A; rewrite A in *; exact E1|].
    destruct (sub i (match assoc u d with Some c => c | None => fresh end)) as [new [e|]]; cbn [fst] in *.
    + exists d1, d2. auto.
    + destruct (IH (S i) (assoc_set u new d)) as (m1 & m2 & EQ' & G1 & G2); [rewrite EQ; auto|]. rewrite EQ in G1.
      apply Forall2_app_inv_l in G1. destruct G1 as (n1 & n2 & G1 & _ & ->). exists n1, (n2 ++ m2). rewrite app_assoc. split; auto. split; auto.
      eapply ext_items_trans; eauto.
Qed.
Lemma filldict_ext L len : forall groups n c idx profs ws all, length groups <= n -> depth_ok n c ->
  extends c (fst (filldict L len groups c idx profs ws all)) /\ depth_ok n (fst (filldict L len groups c idx profs ws all)).
Proof.
  induction groups as [|[us inv] rest IH]; intros n c idx profs ws all Ln D; cbn [filldict].
  - destruct c as [|d|l]; cbn [fst]; try (split; [apply extends_refl|auto]). destruct (fillblock L len d idx ws profs). cbn [fst].
    split; [constructor|destruct n; exact I].
  - destruct c as [|d|l]; cbn [fst]; try (split; [apply extends_refl|auto]). cbn [length] in Ln. destruct n as [|n]; [lia|]. cbn [depth_ok] in D.
    match goal with |- context [dict_loop ?s ?f 0 us l] => destruct (dict_loop_ext n s f) with (us := us) (i := 0) (d := l) as (d1 & d2 & EQ & F1 & F2); auto;
      [| |destruct (dict_loop s f 0 us l) as [l' e]] end.
    + destruct rest; [destruct n; exact I|]. cbn [length] in Ln. destruct n as [|n]; [lia|]. constructor.
    + intros i c Dc. apply IH; auto. lia.
    + cbn [fst] in *. subst l'. split; [constructor; auto|auto].
Qed.
Lemma prefill_ext L n c : depth_ok n c -> extends c (prefill L n c) /\ depth_ok n (prefill L n c).
Proof.
  destruct c as [|d|l]; cbn [prefill]; intros D; try (split; [apply extends_refl|auto]). split; [constructor|].
  destruct n as [|n]; cbn [Nat.eqb]; [exact I|constructor].
Qed.
Lemma postfill_ext L len d n c : length (d_group d) <= n -> depth_ok n c ->
  extends c (fst (postfill L len d c)) /\ depth_ok n (fst (postfill L len d c)).
Proof.
  intros Ln D. unfold postfill. destruct (flat_indexes (combine (l_tots L) (d_fixed d))); [apply filldict_ext; auto|]. split; [apply extends_refl|auto].
Qed.

Lemma hist_fill_filler cast rnd user order srcs h A :
  is_filler (length (h_group h)) (hist_fill cast rnd user order srcs h A).
Proof.
  intros c D. unfold hist_fill. destruct (prefill_ext (hist_layout h) (length (h_group h)) c D) as (E1 & D1).
  match goal with |- context [match ?r with Ok _ => _ | Err _ => _ end] => destruct r as [[len d]|e] eqn:R end; [|auto].
  assert (Ld : length (d_group d) <= length (h_group h)).
  { apply bind_ok in R. destruct R as (is & _ & R). apply bind_ok in R. destruct R as (fl & _ & R). apply bind_ok in R. destruct R as (r & _ & R).
    apply bind_ok in R. destruct R as (d' & Rd & R). injection R as _ <-. unfold read_dest in Rd.
    apply bind_ok in Rd. destruct Rd as (g & Rg & Rd). apply bind_ok in Rd. destruct Rd as (? & _ & Rd). apply bind_ok in Rd. destruct Rd as (? & _ & Rd).
    apply bind_ok in Rd. destruct Rd as (? & _ & Rd). injection Rd as <-. cbn [d_group]. clear - Rg.
    revert g Rg. induction (h_group h) as [|p l IH]; cbn [mapM]; intros g Rg; [injection Rg as <-; auto|].
    apply bind_ok in Rg. destruct Rg as (y & _ & Rg). apply bind_ok in Rg. destruct Rg as (t & Rt & Rg). injection Rg as <-. cbn [length]. specialize (IH t Rt). lia. }
  destruct (postfill_ext (hist_layout h) len d (length (h_group h)) _ Ld D1) as (E2 & D2). split; auto. eapply extends_trans; eauto.
Qed.

(** ** Selecting groups *)
Definition selected n (H H' : heap) (old : list loc) (q : ref) (c : content) : Prop :=
  (exists X, H' = H ++ X) /\ view n H' q = c /\ wt n H' q /\
  (forall l, In l (reach n H' q) -> In l old \/ length H <= l < length H').
Lemma alloc_dict n H X items old : wt_items n (H ++ X) items ->
  (forall l, In l (reach_items n (H ++ X) items) -> In l old \/ length H <= l < length (H ++ X)) ->
  selected (S n) H ((H ++ X) ++ [ODict items]) old (RLoc (length (H ++ X))) (CDict (view_items n (H ++ X) items)).
Proof.
  intros W B. destruct (frame_items_app n (H ++ X) [ODict items] items W) as (F1 & F2 & F3).
  destruct (dict_unfold n ((H ++ X) ++ [ODict items]) (length (H ++ X)) items (get_app_new _ _)) as (D1 & D2 & D3).
  split; [exists (X ++ [ODict items]); rewrite app_assoc; auto|]. split; [rewrite D1, F1; auto|]. split; [apply D3; auto|].
  rewrite D2, F2. intros l [<-|Hl].
  - right. rewrite !app_length. cbn [length]. lia.
  - apply B in Hl. rewrite app_length. cbn [length]. destruct Hl as [Hl|Hl]; auto. right. lia.
Qed.
Lemma sel_ref_ok b : forall p n H r H' q, p < n -> wt n H r -> sel_ref p b H r = (H', q) ->
  selected n H H' (reach n H r) q (keep_groups p b (view n H r)).
Proof.
  assert (SAME : forall n H r, wt n H r -> selected n H H (reach n H r) r (view n H r)).
  { intros n H r W. split; [exists []; symmetry; apply app_nil_r|]. auto. }
  induction p as [|p IH]; intros [|n] H [|l] H' q Hp W E; try lia; cbn [sel_ref] in E; try (injection E as <- <-; apply SAME; auto; fail).
  - destruct (get H l) as [[d|items]|] eqn:G.
    + injection E as <- <-. assert (V : view (S n) H (RLoc l) = CArr d) by (cbn [view]; rewrite G; auto). assert (S0 := SAME _ _ _ W). rewrite V in *. exact S0.
    + destruct (dict_unfold n H l items G) as (V & R & WI). unfold alloc in E. injection E as <- <-. rewrite V, R. cbn [keep_groups].
      assert (I : incl (filter (fun kv : gkey * ref => b (fst kv)) items) items) by (intros x Hx; apply filter_In in Hx; tauto).
      assert (Q := alloc_dict n H [] (filter (fun kv : gkey * ref => b (fst kv)) items) (l :: reach_items n H items)). rewrite app_nil_r in Q.
      replace (filter (fun kv => b (fst kv)) (view_items n H items)) with (view_items n H (filter (fun kv : gkey * ref => b (fst kv)) items)).
      * apply Q; [eapply wt_items_incl; eauto; apply WI; auto|]. intros l' Hl'. left. right. eapply reach_items_incl; eauto.
      * clear. unfold view_items. induction items as [|[k r] items IH]; cbn [map filter fst]; auto. destruct (b k); cbn [map fst snd]; rewrite IH; auto.
    + cbn [wt] in W. rewrite G in W. contradiction.
  - destruct (get H l) as [[d|items]|] eqn:G.
    + injection E as <- <-. assert (V : view (S n) H (RLoc l) = CArr d) by (cbn [view]; rewrite G; auto). assert (S0 := SAME _ _ _ W). rewrite V in *. exact S0.
    + destruct (dict_unfold n H l items G) as (V & R & WI). rewrite V, R. cbn [keep_groups].
      destruct (sel_refs (sel_ref p b) H items) as [Ha ys] eqn:Ea. unfold alloc in E. injection E as <- <-.
      assert (K : (exists X, Ha = H ++ X) /\ view_items n Ha ys = map (fun kv => (fst kv, keep_groups p b (snd kv))) (view_items n H items) /\ wt_items n Ha ys /\
        (forall l, In l (reach_items n Ha ys) -> In l (reach_items n H items) \/ length H <= l < length Ha)).
      { assert (WS := proj1 WI W). clear - IH WS Ea Hp. revert H Ha ys WS Ea. induction items as [|[k r] items IHi]; intros H Ha ys WS Ea; cbn [sel_refs] in Ea.
        - injection Ea as <- <-. split; [exists []; symmetry; apply app_nil_r|]. split; [reflexivity|]. split; [exact WS|]. intros l [].
        - fold (sel_refs (sel_ref p b)) in Ea. inversion WS as [|? ? W1 W2]; subst. cbn [snd] in W1.
          destruct (sel_ref p b H r) as [Hb y] eqn:Eb. destruct (IH n _ _ _ _ ltac:(lia) W1 Eb) as ((X & ->) & V1 & Wy & B1).
          destruct (frame_items_app n H X items W2) as (F1 & F2 & F3).
          destruct (sel_refs (sel_ref p b) (H ++ X) items) as [Hc zs] eqn:Ec. injection Ea as <- <-.
          destruct (IHi _ _ _ F3 Ec) as ((Y & ->) & V2 & Wz & B2). destruct (frame_app n (H ++ X) Y y Wy) as (G1 & G2 & G3).
          split; [exists (X ++ Y); rewrite app_assoc; auto|]. split; [|split].
          + cbn [view_items map fst snd]. fold (view_items n ((H ++ X) ++ Y) zs). fold (view_items n H items). rewrite V2, F1, G1, V1. auto.
          + constructor; auto.
          + cbn [reach_items flat_map snd]. fold (reach_items n ((H ++ X) ++ Y) zs). fold (reach_items n H items). rewrite G2. intros l. rewrite !in_app_iff. intros [Hl|Hl].
            * apply B1 in Hl. repeat rewrite app_length in *. destruct Hl as [Hl|Hl]; auto. right. lia.
            * apply B2 in Hl. rewrite F2 in Hl. repeat rewrite app_length in *. destruct Hl as [Hl|Hl]; auto. right. lia. }
      destruct K as ((X & ->) & K1 & K2 & K3). rewrite <- K1. apply alloc_dict; auto.
      intros l' Hl'. apply K3 in Hl'. destruct Hl' as [Hl'|Hl']; auto. left. right. auto.
    + cbn [wt] in W. rewrite G in W. contradiction.
Qed.
