(** Heap lemmas: frames, allocation, storing, adding. *)
From Coq Require Import String.
From Verif Require Import Base Num NumFacts Axis Calc Content Fill FillSpec FillProofs FillMain HistAlg HistAlgProofs Heap HeapSpec.
Local Open Scope list_scope.

(** ** What is reachable *)
Fixpoint reach (n : nat) (H : heap) (r : ref) : list loc :=
  match r with
  | RNone => []
  | RLoc l => l :: match get H l with
                   | Some (ODict items) => match n with
                                           | O => []
                                           | S m => flat_map (fun kv => reach m H (snd kv)) items
                                           end
                   | _ => []
                   end
  end.
Fixpoint wt (n : nat) (H : heap) (r : ref) : Prop :=
  match r with
  | RNone => True
  | RLoc l => match get H l with
              | Some (OArr _) => True
              | Some (ODict items) => match n with
                                      | O => False
                                      | S m => Forall (fun kv => wt m H (snd kv)) items
                                      end
              | None => False
              end
  end.
Definition disjoint (a b : list loc) : Prop := forall l, In l a -> ~ In l b.

Lemma view_depth n : forall H r, depth_ok n (view n H r).
Proof.
  induction n as [|n IH]; intros H r; destruct r as [|l]; cbn [view depth_ok]; try exact I;
    destruct (get H l) as [[d|items]|]; cbn [depth_ok]; auto.
  rewrite Forall_map. cbn [snd]. apply Forall_forall. intros; apply IH.
Qed.
Lemma wt_reach n : forall H r, wt n H r -> forall l, In l (reach n H r) -> l < length H.
Proof.
  induction n as [|n IH]; intros H [|l0] W l Hl; cbn [reach wt] in *; try contradiction;
    destruct (get H l0) as [[d|items]|] eqn:E; try contradiction.
  - destruct Hl as [<-|[]]. apply nth_error_Some. unfold get in E. congruence.
  - destruct Hl as [<-|[]]. apply nth_error_Some. unfold get in E. congruence.
  - destruct Hl as [<-|Hl]; [apply nth_error_Some; unfold get in E; congruence|].
    apply in_flat_map in Hl. destruct Hl as (kv & Hkv & Hl). rewrite Forall_forall in W. apply (IH H (snd kv)); auto.
Qed.
Lemma frame n : forall H H' r, (forall l, In l (reach n H r) -> get H' l = get H l) ->
  view n H' r = view n H r /\ reach n H' r = reach n H r /\ (wt n H r -> wt n H' r).
Proof.
  induction n as [|n IH]; intros H H' [|l] A; cbn [view reach wt] in *; auto; rewrite (A l) by (left; auto);
    destruct (get H l) as [[d|items]|]; auto.
  assert (B : forall kv, In kv items -> view n H' (snd kv) = view n H (snd kv) /\ reach n H' (snd kv) = reach n H (snd kv) /\ (wt n H (snd kv) -> wt n H' (snd kv))).
  { intros kv Hkv. apply IH. intros x Hx. apply A. right. apply in_flat_map. eauto. }
  split; [|split].
  - f_equal. apply map_ext_in. intros kv Hkv. f_equal. apply B; auto.
  - f_equal. clear A. induction items as [|kv t IHt]; cbn [flat_map]; auto. destruct (B kv) as (_ & -> & _); [left; auto|].
    rewrite IHt; auto. intros; apply B; right; auto.
  - rewrite !Forall_forall. intros W kv Hkv. apply B; auto.
Qed.
Lemma frame_app n H X r : wt n H r -> view n (H ++ X) r = view n H r /\ reach n (H ++ X) r = reach n H r /\ wt n (H ++ X) r.
Proof.
  intros W. destruct (frame n H (H ++ X) r) as (A & B & C); auto.
  intros l Hl. unfold get. apply nth_error_app1. eapply wt_reach; eauto.
Qed.

(** ** Lists of references *)
Definition reach_items n H (items : list (gkey * ref)) := flat_map (fun kv => reach n H (snd kv)) items.
Definition view_items n H (items : list (gkey * ref)) := map (fun kv => (fst kv, view n H (snd kv))) items.
Definition wt_items n H (items : list (gkey * ref)) := Forall (fun kv => wt n H (snd kv)) items.
Lemma frame_items n H H' items : (forall l, In l (reach_items n H items) -> get H' l = get H l) ->
  view_items n H' items = view_items n H items /\ reach_items n H' items = reach_items n H items /\ (wt_items n H items -> wt_items n H' items).
Proof.
  intros A.
  assert (B : forall kv, In kv items -> view n H' (snd kv) = view n H (snd kv) /\ reach n H' (snd kv) = reach n H (snd kv) /\ (wt n H (snd kv) -> wt n H' (snd kv))).
  { intros kv Hkv. apply frame. intros x Hx. apply A. apply in_flat_map. eauto. }
  unfold view_items, reach_items, wt_items. split; [|split].
  - apply map_ext_in. intros kv Hkv. f_equal. apply B; auto.
  - clear A. induction items as [|kv t IHt]; cbn [flat_map]; auto. destruct (B kv) as (_ & -> & _); [left; auto|].
    rewrite IHt; auto. intros; apply B; right; auto.
  - rewrite !Forall_forall. intros W kv Hkv. apply B; auto.
Qed.
Lemma wt_items_reach n H items : wt_items n H items -> forall l, In l (reach_items n H items) -> l < length H.
Proof.
  intros W l Hl. apply in_flat_map in Hl. destruct Hl as (kv & Hkv & Hl). unfold wt_items in W. rewrite Forall_forall in W.
  eapply wt_reach; eauto.
Qed.
Lemma frame_items_app n H X items : wt_items n H items ->
  view_items n (H ++ X) items = view_items n H items /\ reach_items n (H ++ X) items = reach_items n H items /\ wt_items n (H ++ X) items.
Proof.
  intros W. destruct (frame_items n H (H ++ X) items) as (A & B & C); auto.
  intros l Hl. unfold get. apply nth_error_app1. eapply wt_items_reach; eauto.
Qed.
Lemma dict_unfold n H l items : get H l = Some (ODict items) ->
  view (S n) H (RLoc l) = CDict (view_items n H items) /\ reach (S n) H (RLoc l) = l :: reach_items n H items /\
  (wt (S n) H (RLoc l) <-> wt_items n H items).
Proof. intros E. cbn [view reach wt]. rewrite E. split; [reflexivity|]. split; reflexivity. Qed.

Lemma get_app_new H o : get (H ++ [o]) (length H) = Some o.
Proof. unfold get. rewrite nth_error_app2, Nat.sub_diag; auto. Qed.
Lemma get_app_old H X l : l < length H -> get (H ++ X) l = get H l.
Proof. intros. apply nth_error_app1. auto. Qed.
Lemma nodup_app_intro (a b : list loc) : NoDup a -> NoDup b -> disjoint a b -> NoDup (a ++ b).
Proof.
  induction 1 as [|x a Hx Ha IH]; intros Hb D; cbn [app]; auto. constructor.
  - rewrite in_app_iff. intros [H|H]; auto. apply (D x); auto. left. auto.
  - apply IH; auto. intros l Hl. apply D. right. auto.
Qed.
Lemma nodup_app_elim (a b : list loc) : NoDup (a ++ b) -> NoDup a /\ NoDup b /\ disjoint a b.
Proof.
  induction a as [|x a IH]; cbn [app]; intros H; [repeat split; auto; [constructor|intros l []]|].
  inversion H as [|? ? Hx H']; subst. destruct (IH H') as (A & B & D). rewrite in_app_iff in Hx.
  split; [constructor; auto|]. split; auto. intros l [<-|Hl]; auto.
Qed.

(** ** New objects *)
Lemma alloc_tree_dict H l : alloc_tree H (CDict l) = let '(H1, items) := alloc_items alloc_tree H l in alloc H1 (ODict items).
Proof. reflexivity. Qed.
(** [r] is a reference to new objects only, which hold [c]; old objects are as they were. *)
Definition fresh_tree n (H H' : heap) (r : ref) (c : content) : Prop :=
  (exists X, H' = H ++ X) /\ view n H' r = c /\ wt n H' r /\ NoDup (reach n H' r) /\
  (forall l, In l (reach n H' r) -> length H <= l < length H').
Definition fresh_items n (H H' : heap) (items : list (gkey * ref)) (cs : list (gkey * content)) : Prop :=
  (exists X, H' = H ++ X) /\ view_items n H' items = cs /\ wt_items n H' items /\ NoDup (reach_items n H' items) /\
  (forall l, In l (reach_items n H' items) -> length H <= l < length H').

Lemma fresh_none n H : fresh_tree n H H RNone CNone.
Proof.
  split; [exists []; symmetry; apply app_nil_r|]. split; [destruct n; reflexivity|]. split; [destruct n; exact I|].
  destruct n; (split; [constructor|intros l []]).
Qed.
Lemma fresh_arr n H d : fresh_tree n H (H ++ [OArr d]) (RLoc (length H)) (CArr d).
Proof.
  split; [eauto|]. assert (E := get_app_new H (OArr d)).
  destruct n; cbn [view wt reach]; rewrite E; (split; [auto|]; split; [auto|]; split; [repeat constructor; auto|];
    intros l [<-|[]]; rewrite app_length; cbn [length]; lia).
Qed.
Lemma fresh_dict n H H1 items cs : fresh_items n H H1 items cs ->
  fresh_tree (S n) H (H1 ++ [ODict items]) (RLoc (length H1)) (CDict cs).
Proof.
  intros ((X & ->) & V & W & N & B). assert (E := get_app_new (H ++ X) (ODict items)).
  destruct (frame_items_app n (H ++ X) [ODict items] items W) as (F1 & F2 & F3).
  destruct (dict_unfold n _ _ _ E) as (D1 & D2 & D3). unfold fresh_tree. rewrite D1, D2, D3, F1, F2.
  split; [exists (X ++ [ODict items]); rewrite app_assoc; auto|]. split; [congruence|]. split; auto. split.
  - constructor; auto. intros Hl. apply B in Hl. lia.
  - intros l [<-|Hl]; [|apply B in Hl]; repeat rewrite app_length in *; cbn [length]; lia.
Qed.
Lemma fresh_cons n H H1 H2 k r c items cs : fresh_tree n H H1 r c -> fresh_items n H1 H2 items cs ->
  fresh_items n H H2 ((k, r) :: items) ((k, c) :: cs).
Proof.
  intros ((X & ->) & V & W & N & B) ((Y & ->) & V' & W' & N' & B').
  destruct (frame_app n (H ++ X) Y r W) as (F1 & F2 & F3).
  unfold fresh_items. cbn [view_items map fst snd reach_items flat_map]. fold (view_items n ((H ++ X) ++ Y) items).
  fold (reach_items n ((H ++ X) ++ Y) items). rewrite F1, F2.
  split; [exists (X ++ Y); rewrite app_assoc; auto|]. split; [congruence|]. split; [constructor; auto|]. split.
  - apply nodup_app_intro; auto. intros l Hl Hl'. apply B in Hl. apply B' in Hl'. repeat rewrite app_length in *. lia.
  - intros l. rewrite in_app_iff. intros [Hl|Hl]; [apply B in Hl|apply B' in Hl]; repeat rewrite app_length in *; lia.
Qed.
Lemma fresh_nil n H : fresh_items n H H [] [].
Proof.
  split; [exists []; symmetry; apply app_nil_r|]. split; [auto|]. split; [constructor|]. split; [constructor|intros l []].
Qed.
Lemma alloc_tree_ok c : forall n H H' r, depth_ok n c -> alloc_tree H c = (H', r) -> fresh_tree n H H' r c.
Proof.
  induction c as [|d|l IH] using content_ind'; intros n H H' r D E.
  - injection E as <- <-. apply fresh_none.
  - injection E as <- <-. apply fresh_arr.
  - rewrite alloc_tree_dict in E. destruct n as [|n]; [destruct D|]. cbn [depth_ok] in D.
    destruct (alloc_items alloc_tree H l) as [H1 items] eqn:A. injection E as <- <-. apply fresh_dict.
    revert H H1 items A. induction IH as [|[k c] l Hc IH IHl]; intros H H1 items A; cbn [alloc_items] in A.
    + injection A as <- <-. apply fresh_nil.
    + fold (alloc_items alloc_tree) in A. inversion D as [|? ? D1 D2]; subst. cbn [snd] in *.
      destruct (alloc_tree H c) as [Ha ra] eqn:Ea. destruct (alloc_items alloc_tree Ha l) as [Hb rb] eqn:Eb. injection A as <- <-.
      eapply fresh_cons; eauto.
Qed.
Lemma alloc_items_ok cs : forall n H H' items, Forall (fun kv => depth_ok n (snd kv)) cs ->
  alloc_items alloc_tree H cs = (H', items) -> fresh_items n H H' items cs.
Proof.
  induction cs as [|[k c] cs IH]; intros n H H' items D A; cbn [alloc_items] in A.
  - injection A as <- <-. apply fresh_nil.
  - fold (alloc_items alloc_tree) in A. inversion D as [|? ? D1 D2]; subst. cbn [snd] in *.
    destruct (alloc_tree H c) as [Ha ra] eqn:Ea. destruct (alloc_items alloc_tree Ha cs) as [Hb rb] eqn:Eb. injection A as <- <-.
    eapply fresh_cons; eauto. eapply alloc_tree_ok; eauto.
Qed.

(** ** Storing in place *)
Lemma set_length H l o : length (set H l o) = length H.
Proof. unfold set. revert l. induction H; intros [|l]; cbn [upd length]; auto. Qed.
Lemma get_set_same H l o : l < length H -> get (set H l o) l = Some o.
Proof. unfold get, set. revert l. induction H; intros [|l]; cbn [upd length nth_error]; intros; try lia; auto. apply IHlist. lia. Qed.
Lemma get_set_other H l l' o : l <> l' -> get (set H l o) l' = get H l'.
Proof. unfold get, set. revert l l'. induction H; intros [|l] [|l']; cbn [upd nth_error]; intros; auto; try congruence. Qed.

Lemma store_dict m H l items cs : get H l = Some (ODict items) ->
  store (S m) H (RLoc l) (CDict cs) = let '(H1, items') := store_items (store m) H items cs in (set H1 l (ODict items'), RLoc l).
Proof. intros E. cbn [store]. rewrite E. reflexivity. Qed.

(** The result of storing [c] in place of what was reachable as [old]. *)
Definition stored (H H' : heap) (old new : list loc) : Prop :=
  length H <= length H' /\
  (forall l, l < length H -> ~ In l old -> get H' l = get H l) /\
  NoDup new /\ (forall l, In l new -> In l old \/ length H <= l < length H').
Lemma fresh_stored n H H' r c : fresh_tree n H H' r c -> stored H H' [] (reach n H' r).
Proof.
  intros ((X & ->) & _ & _ & N & B). split; [rewrite app_length; lia|]. split; [intros; apply get_app_old; auto|]. split; auto.
Qed.
Lemma fresh_items_stored n H H' r c : fresh_items n H H' r c -> stored H H' [] (reach_items n H' r).
Proof.
  intros ((X & ->) & _ & _ & N & B). split; [rewrite app_length; lia|]. split; [intros; apply get_app_old; auto|]. split; auto.
Qed.
Lemma extends_dict_inv l c : extends (CDict l) c -> exists l1 l2, c = CDict (l1 ++ l2) /\
  Forall2 (fun a b => fst a = fst b /\ extends (snd a) (snd b)) l l1.
Proof. intros E. inversion E; subst. eauto. Qed.

Lemma store_ok : forall n H r c H' r', wt n H r -> NoDup (reach n H r) -> extends (view n H r) c -> depth_ok n c ->
  store n H r c = (H', r') ->
  view n H' r' = c /\ wt n H' r' /\ stored H H' (reach n H r) (reach n H' r').
Proof.
  assert (ARR : forall n H l d d', get H l = Some (OArr d) ->
    view n (set H l (OArr d')) (RLoc l) = CArr d' /\ wt n (set H l (OArr d')) (RLoc l) /\
    stored H (set H l (OArr d')) (reach n H (RLoc l)) (reach n (set H l (OArr d')) (RLoc l))).
  { intros n H l d d' E. assert (B : l < length H) by (apply nth_error_Some; unfold get in E; congruence).
    assert (E' := get_set_same H l (OArr d') B).
    assert (R : reach n (set H l (OArr d')) (RLoc l) = [l] /\ reach n H (RLoc l) = [l]).
    { destruct n; cbn [reach]; rewrite E, E'; auto. }
    destruct R as (-> & ->). split; [destruct n; cbn [view]; rewrite E'; auto|]. split; [destruct n; cbn [wt]; rewrite E'; auto|].
    split; [rewrite set_length; auto|]. split; [intros l' Hl Hn; apply get_set_other; intros ->; apply Hn; left; auto|].
    split; [repeat constructor; auto|auto]. }
  assert (NONE : forall n H c H' r', depth_ok n c -> alloc_tree H c = (H', r') ->
    view n H' r' = c /\ wt n H' r' /\ stored H H' [] (reach n H' r')).
  { intros n H c H' r' D E. assert (F := alloc_tree_ok c n H H' r' D E). split; [apply F|]. split; [apply F|]. eapply fresh_stored; eauto. }
  induction n as [|n IH]; intros H [|l] c H' r' W N E D S.
  - cbn [store] in S. apply NONE; auto.
  - cbn [store wt view] in *. destruct (get H l) as [[d|items]|] eqn:G; try contradiction.
    inversion E; subst. injection S as <- <-. exact (ARR 0 H l d d' G).
  - cbn [store] in S. apply NONE; auto.
  - cbn [wt] in W. destruct (get H l) as [[d|items]|] eqn:G; try contradiction.
    + cbn [view] in E. rewrite G in E. inversion E; subst. cbn [store] in S. rewrite G in S. injection S as <- <-. exact (ARR (Datatypes.S n) H l d d' G).
    + destruct (dict_unfold n H l items G) as (V & R & _). rewrite V in E. rewrite R in *.
      apply extends_dict_inv in E. destruct E as (l1 & l2 & -> & F2). rewrite (store_dict n H l items _ G) in S.
      destruct (store_items (store n) H items (l1 ++ l2)) as [H1 items'] eqn:SI. injection S as <- <-.
      inversion N as [|? ? Nl N']; subst.
      assert (Bl : l < length H) by (apply nth_error_Some; unfold get in G; congruence).
      cbn [depth_ok] in D. fold (wt_items n H items) in W.
      assert (K : forall items H H1 items' l1, wt_items n H items -> NoDup (reach_items n H items) ->
        Forall2 (fun a b => fst a = fst b /\ extends (snd a) (snd b)) (view_items n H items) l1 ->
        Forall (fun kv => depth_ok n (snd kv)) (l1 ++ l2) -> store_items (store n) H items (l1 ++ l2) = (H1, items') ->
        view_items n H1 items' = l1 ++ l2 /\ wt_items n H1 items' /\ stored H H1 (reach_items n H items) (reach_items n H1 items')).
      { clear - IH. induction items as [|[k x] items IHi]; intros H H1 items' l1 W N F2 D S.
        - cbn [view_items map] in F2. inversion F2; subst. cbn [app] in *. destruct l2 as [|kc l2]; cbn [store_items] in S.
          + assert (F := alloc_items_ok [] n H H1 items' D S). split; [apply F|]. split; [apply F|]. eapply fresh_items_stored; eauto.
          + assert (F := alloc_items_ok (kc :: l2) n H H1 items' D S). split; [apply F|]. split; [apply F|]. eapply fresh_items_stored; eauto.
        - cbn [view_items map] in F2. inversion F2 as [|? [k' c] ? l1' (Ek & Ec) F2']; subst. cbn [fst snd] in Ek, Ec. subst k'.
          cbn [app store_items] in S. fold (store_items (store n)) in S.
          destruct (store n H x c) as [Ha y] eqn:Sx. destruct (store_items (store n) Ha items (l1' ++ l2)) as [Hb t2] eqn:St. injection S as <- <-.
          cbn [app] in D. inversion D as [|? ? D1 D2]; subst. cbn [snd] in D1. inversion W as [|? ? W1 W2]; subst. cbn [snd] in W1.
          cbn [reach_items flat_map snd] in N. fold (reach_items n H items) in N. apply nodup_app_elim in N. destruct N as (N1 & N2 & Dj).
          destruct (IH H x c Ha y W1 N1 Ec D1 Sx) as (V1 & Wy & L1 & K1 & Ny & By).
          (* the other entries are untouched *)
          assert (W2' := W2). destruct (frame_items n H Ha items) as (A1 & A2 & A3).
          { intros l Hl. apply K1; [eapply wt_items_reach; eauto|]. intros Hl'. apply (Dj l); auto. }
          fold (view_items n H items) in F2'. rewrite <- A1 in F2'.
          destruct (IHi Ha Hb t2 l1') as (V2 & Wt & L2 & K2 & Nt & Bt); auto; [rewrite A2; auto|].
          rewrite A2 in K2, Bt.
          (* the stored entry is untouched by the rest *)
          assert (Dy : forall l, In l (reach n Ha y) -> ~ In l (reach_items n H items)).
          { intros l Hl Hl'. apply By in Hl. destruct Hl as [Hl|Hl]; [apply (Dj l); auto|]. assert (B := wt_items_reach n H items W2 l Hl'). lia. }
          destruct (frame n Ha Hb y) as (B1 & B2 & B3).
          { intros l Hl. apply K2; auto. eapply wt_reach; eauto. }
          cbn [view_items map fst snd]. fold (view_items n Hb t2). rewrite B1, V1, V2. split; auto. split; [constructor; auto; apply B3; auto|].
          cbn [reach_items flat_map snd]. fold (reach_items n Hb t2). fold (reach_items n H items). rewrite B2. split; [lia|]. split; [|split].
          + intros l Hl Hn. rewrite in_app_iff in Hn. rewrite K2 by (tauto || lia). apply K1; tauto.
          + apply nodup_app_intro; auto. intros l Hl Hl'. apply Bt in Hl'. destruct Hl' as [Hl'|Hl']; [apply (Dy l); auto|].
            assert (B := wt_reach n Ha y Wy l Hl). lia.
          + intros l. rewrite !in_app_iff. intros [Hl|Hl]; [apply By in Hl|apply Bt in Hl]; [destruct Hl; [auto|right; lia]|destruct Hl; [auto|right; lia]]. }
      destruct (K items H H1 items' l1 W N' F2 D SI) as (V1 & W1 & L1 & K1 & N1 & B1).
      assert (Bl1 : l < length H1) by lia.
      assert (G' := get_set_same H1 l (ODict items') Bl1).
      assert (Nl' : ~ In l (reach_items n H1 items')) by (intros Hl; apply B1 in Hl; destruct Hl as [Hl|Hl]; [contradiction|lia]).
      destruct (frame_items n H1 (set H1 l (ODict items')) items') as (A1 & A2 & A3).
      { intros l' Hl'. apply get_set_other. intros ->. contradiction. }
      destruct (dict_unfold n _ _ _ G') as (D1 & D2 & D3). rewrite D1, D2, D3, A1, A2, V1. split; auto. split; auto.
      split; [rewrite set_length; lia|]. split; [|split].
      * intros l' Hl' Hn. rewrite get_set_other by (intros ->; apply Hn; left; auto). apply K1; auto. intros H2. apply Hn. right. auto.
      * constructor; auto.
      * intros l' [<-|Hl']; [left; left; auto|]. apply B1 in Hl'. rewrite set_length. destruct Hl'; [left; right; auto|auto].
Qed.
