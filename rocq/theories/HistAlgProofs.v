(** Lemmas about histogram arithmetic. *)
From Coq Require Import String.
From Verif Require Import Base Num NumFacts Axis Calc Content Fill FillSpec FillProofs FillProofs2 FillProofs3 FillMain HistAlg.
Local Open Scope list_scope.

(** ** Induction over contents *)
Fixpoint content_ind' (P : content -> Prop) (H0 : P CNone) (H1 : forall d, P (CArr d))
    (H2 : forall l, Forall (fun kv => P (snd kv)) l -> P (CDict l)) (c : content) : P c :=
  match c with
  | CNone => H0
  | CArr d => H1 d
  | CDict l => H2 l ((fix go l : Forall (fun kv => P (snd kv)) l :=
                        match l with
                        | [] => Forall_nil _
                        | kv :: t => Forall_cons kv (content_ind' P H0 H1 H2 (snd kv)) (go t)
                        end) l)
  end.

Lemma copycontent_id c : copycontent c = c.
Proof.
  induction c as [|d|l IH] using content_ind'; auto. cbn [copycontent]. f_equal.
  induction IH as [|[k v] l E _ IHl]; auto. cbn [map fst snd] in *. rewrite E, IHl. reflexivity.
Qed.
Lemma map_copy_id (l : list (gkey * content)) : map (fun kv => (fst kv, copycontent (snd kv))) l = l.
Proof. induction l as [|[k v] l IH]; auto. cbn [map fst snd]. rewrite copycontent_id, IH. reflexivity. Qed.

(** ** Association lists *)
Lemma gkey_eqb_eq k k' : gkey_eqb k k' = true -> k = k'.
Proof. destruct k, k'; cbn [gkey_eqb]; try discriminate; intros H; f_equal; [apply neqb_eq; auto|apply String.eqb_eq; auto]. Qed.
Lemma assoc_app {A} k (l m : list (gkey * A)) :
  assoc k (l ++ m) = match assoc k l with Some v => Some v | None => assoc k m end.
Proof. induction l as [|[k' v] l IH]; cbn [app assoc]; auto. destruct (gkey_eqb k k'); auto. Qed.
Lemma assoc_same_keys {A B} (R : gkey -> A -> B -> Prop) (l : list (gkey * A)) (m : list (gkey * B)) k :
  Forall2 (fun a b => fst a = fst b /\ R (fst a) (snd a) (snd b)) l m ->
  match assoc k l, assoc k m with
  | Some a, Some b => R k a b
  | None, None => True
  | _, _ => False
  end.
Proof.
  induction 1 as [|[k1 a] [k2 b] l m [E H] _ IH]; cbn [assoc]; auto. cbn [fst snd] in *. subst k2.
  destruct (gkey_eqb k k1) eqn:E; auto. apply gkey_eqb_eq in E. subst. auto.
Qed.
Lemma assoc_new l m k : assoc k (new_items l m) = if has_key k l then None else assoc k m.
Proof.
  unfold new_items. induction m as [|[k' v] m IH]; cbn [filter assoc fst]; [destruct (has_key k l); auto|].
  destruct (has_key k' l) eqn:E; cbn [negb assoc].
  - rewrite IH. destruct (has_key k l) eqn:E'; auto. destruct (gkey_eqb k k') eqn:E''; auto.
    apply gkey_eqb_eq in E''. congruence.
  - destruct (gkey_eqb k k') eqn:E''; [apply gkey_eqb_eq in E''; subst; rewrite E; auto|]. auto.
Qed.
Lemma has_key_iff {A} k (l : list (gkey * A)) : has_key k l = true <-> assoc k l <> None.
Proof. unfold has_key. destruct (assoc k l); split; congruence. Qed.
Lemma has_key_none {A} k (l : list (gkey * A)) : has_key k l = false <-> assoc k l = None.
Proof. unfold has_key. destruct (assoc k l); split; congruence. Qed.
Lemma forall_app_filter {A} (P : A -> Prop) q l : Forall P l -> Forall P (filter q l).
Proof. rewrite !Forall_forall. intros H x Hx. apply filter_In in Hx. apply H. tauto. Qed.
Lemma new_items_in l m kv : In kv (new_items l m) <-> In kv m /\ assoc (fst kv) l = None.
Proof. unfold new_items. rewrite filter_In. rewrite Bool.negb_true_iff, has_key_none. tauto. Qed.
Lemma map_fst_filter_nodup {A B} (q : A * B -> bool) l : NoDup (map fst l) -> NoDup (map fst (filter q l)).
Proof.
  induction l as [|x l IH]; cbn [map filter]; auto. intros H. inversion H; subst.
  destruct (q x); cbn [map]; auto. constructor; auto. intros Hi. apply H2. apply in_map_iff in Hi.
  destruct Hi as (y & E & Hy). apply filter_In in Hy. rewrite <- E. apply in_map. tauto.
Qed.

(** The dict that + makes is well formed. *)
Lemma joined_keys (l l' m : list (gkey * content)) :
  map fst l' = map fst l -> NoDup (map fst l) -> NoDup (map fst m) ->
  Forall key_ok (map fst l) -> Forall key_ok (map fst m) ->
  NoDup (map fst (l' ++ new_items l m)) /\ Forall key_ok (map fst (l' ++ new_items l m)).
Proof.
  intros E N1 N2 K1 K2. rewrite map_app, E. split.
  - apply nodup_app; [auto|apply map_fst_filter_nodup; auto|]. intros k Hk Hn.
    apply in_map_iff in Hn. destruct Hn as ([k' v] & Ek & Hn). cbn [fst] in Ek. subst k'.
    apply new_items_in in Hn. destruct Hn as (_ & Hn). cbn [fst] in Hn. rewrite Forall_forall in K1.
    exact (proj1 (assoc_none k l (K1 k Hk)) Hn Hk).
  - apply Forall_app. split; auto. rewrite Forall_forall in *. intros k Hk. apply in_map_iff in Hk.
    destruct Hk as (kv & <- & Hk). apply new_items_in in Hk. apply K2. apply in_map. tauto.
Qed.

(** ** What + does to the blocks *)
Definition join (x y : option (list Num)) : option (list Num) :=
  match x, y with
  | Some d, Some e => Some (map2 nadd d e)
  | Some d, None => Some d
  | None, y => y
  end.
Lemma map2_length {A B C} (f : A -> B -> C) l : forall m, length l = length m -> length (map2 f l m) = length l.
Proof. induction l; intros [|y m]; cbn [map2 length]; intros H; try lia. rewrite IHl; lia. Qed.
Lemma arr_add_same k d e : length d = length e -> arr_add k k d e = Ok (map2 nadd d e).
Proof. intros H. unfold arr_add, arr_zip. rewrite !Nat.eqb_refl, H, Nat.eqb_refl. reflexivity. Qed.
Lemma arr_iadd_same k d e : length d = length e -> arr_iadd k k d e = Ok (map2 nadd d e).
Proof. intros H. unfold arr_iadd, arr_zip. rewrite !Nat.eqb_refl, H, Nat.eqb_refl. reflexivity. Qed.

Lemma add_items_ok f m (P : content -> Prop) l :
  Forall (fun kv => P (snd kv)) l -> Forall (fun kv => P (snd kv)) m ->
  (forall x x', In x (map snd l) -> P x -> P x' -> exists y, f x x' = Ok y) ->
  exists l', add_items f m l = Ok l' /\
    Forall2 (fun a b => fst a = fst b /\ match assoc (fst a) m with
                                         | Some x' => P x' /\ f (snd a) x' = Ok (snd b)
                                         | None => snd b = snd a
                                         end) l l'.
Proof.
  intros Hl Hm Hf. induction Hl as [|[k x] l Hx Hl IH]; [exists []; split; auto; constructor|].
  destruct IH as (l' & E & F); [intros; apply Hf; auto; right; auto|].
  cbn [add_items fst snd] in *. destruct (assoc k m) as [x'|] eqn:A.
  - assert (Px' : P x') by (rewrite Forall_forall in Hm; apply (Hm (k, x')); apply assoc_in; auto).
    destruct (Hf x x') as (y & Ey); auto; [left; auto|]. rewrite Ey. cbn [bind]. fold (add_items f m l). rewrite E. cbn [bind].
    eexists. split; [reflexivity|]. constructor; auto. cbn [fst snd]. rewrite A. auto.
  - cbn [bind]. fold (add_items f m l). rewrite E. cbn [bind]. eexists. split; [reflexivity|]. constructor; auto.
    cbn [fst snd]. rewrite A. auto.
Qed.
Lemma forall2_keys {A B} (R : gkey * A -> gkey * B -> Prop) l m :
  Forall2 (fun a b => fst a = fst b /\ R a b) l m -> map fst m = map fst l.
Proof. induction 1 as [|a b l m [E _] _ IH]; cbn [map]; congruence. Qed.

Lemma content_add_ok L k n : forall a b, content_ok L n a -> content_ok L n b ->
  exists c, content_add k k a b = Ok c /\ content_ok L n c /\
    forall ks, block c ks = join (block a ks) (block b ks).
Proof.
  induction n as [|n IH]; intros a b Ha Hb; destruct a as [|d|l], b as [|e|m]; try contradiction; cbn [content_ok] in *.
  - cbn [content_add]. rewrite arr_add_same by congruence. cbn [rmap bind]. eexists. split; [reflexivity|].
    split; [rewrite map2_length; congruence|]. intros [|? ?]; reflexivity.
  - destruct Ha as (Fl & Nl & Kl), Hb as (Fm & Nm & Km). cbn [content_add].
    destruct (add_items_ok (content_add k k) m (content_ok L n) l Fl Fm) as (l' & E & F).
    { intros x x' _ Hx Hx'. destruct (IH x x' Hx Hx') as (y & Ey & _). eauto. }
    rewrite E. cbn [bind]. eexists. split; [reflexivity|].
    assert (Ek := forall2_keys _ _ _ F). destruct (joined_keys l l' m Ek Nl Nm Kl Km) as (N & K).
    split; [split; [|split; auto]|].
    + apply Forall_app. split; [|apply forall_app_filter; auto]. clear - F Fl IH.
      induction F as [|[k1 x] [k2 y] l l' [E H] _ IHF]; auto. inversion Fl; subst. constructor; auto.
      cbn [fst snd] in *. destruct (assoc k1 m) as [x'|]; [|subst; auto]. destruct H as (Hx' & H).
      destruct (IH x x') as (y' & Ey & Hy & _); auto. congruence.
    + intros [|k0 ks]; [reflexivity|]. cbn [block]. rewrite assoc_app, assoc_new.
      assert (G := assoc_same_keys (fun k1 x y => match assoc k1 m with
        | Some x' => content_ok L n x' /\ content_add k k x x' = Ok y | None => y = x end) l l' k0 F). cbn beta in G. unfold has_key.
      destruct (assoc k0 l) as [x|] eqn:El.
      * destruct (assoc k0 l') as [y|]; [|tauto]. destruct (assoc k0 m) as [x'|].
        -- destruct G as (Hx' & G). rewrite Forall_forall in Fl. assert (Hx := Fl _ (assoc_in _ _ _ El)).
           destruct (IH x x' Hx Hx') as (y' & Ey & _ & V). rewrite G in Ey. inversion Ey; subst. apply V.
        -- subst. destruct (block x ks); reflexivity.
      * destruct (assoc k0 l'); [tauto|]. reflexivity.
Qed.

Lemma block_none ks : block CNone ks = None.
Proof. destruct ks; reflexivity. Qed.
Lemma hist_add_ok L k n a b : hist_ok L n a -> hist_ok L n b ->
  exists c, content_add k k a b = Ok c /\ hist_ok L n c /\
    (forall ks, block c ks = join (block a ks) (block b ks)) /\
    (c = CNone <-> a = CNone /\ b = CNone).
Proof.
  intros [->|Ha] [->|Hb].
  - exists CNone. repeat split; auto. left; auto. intros ks. rewrite block_none. reflexivity.
  - exists b. split; [destruct b; try reflexivity; cbn [content_add]; rewrite copycontent_id; reflexivity|].
    split; [right; auto|]. split; [intros ks; rewrite block_none; reflexivity|].
    split; [intros ->|intros (_ & ->)]; destruct n; contradiction.
  - exists a. split; [destruct a; try reflexivity; cbn [content_add]; rewrite copycontent_id; reflexivity|].
    split; [right; auto|]. split; [intros ks; rewrite block_none; destruct (block a ks); reflexivity|].
    split; [intros ->|intros (-> & _)]; destruct n; contradiction.
  - destruct (content_add_ok L k n a b Ha Hb) as (c & E & Hc & V). exists c. split; auto. split; [right; auto|].
    split; auto. split; [intros ->|intros (-> & _)]; destruct n; contradiction.
Qed.

Lemma join_comm x y : (forall d e, x = Some d -> y = Some e -> length d = length e) -> join x y = join y x.
Proof.
  destruct x as [d|], y as [e|]; cbn [join]; auto. intros H. f_equal. specialize (H d e eq_refl eq_refl).
  revert e H. induction d; intros [|y e]; cbn [map2 length]; intros H; auto. f_equal; [apply nadd_comm|apply IHd; lia].
Qed.
Lemma map2_assoc a : forall b c, map2 nadd (map2 nadd a b) c = map2 nadd a (map2 nadd b c).
Proof. induction a; intros [|y b] [|z c]; cbn [map2]; auto. f_equal; auto. symmetry. apply nadd_assoc. Qed.
Lemma join_assoc x y z : join (join x y) z = join x (join y z).
Proof. destruct x, y, z; cbn [join]; auto. f_equal. apply map2_assoc. Qed.

(** ** In-place addition *)
Lemma iadd_items_ok f g m (P : content -> Prop) l :
  Forall (fun kv => P (snd kv)) l -> Forall (fun kv => P (snd kv)) m ->
  (forall x x', P x -> P x' -> exists y, f x x' = Ok y /\ g x x' = (y, None)) ->
  forall l', add_items f m l = Ok l' -> iadd_items g m l = (l', None).
Proof.
  intros Hl Hm Hf. induction Hl as [|[k x] l Hx Hl IH]; intros l' E; cbn [add_items iadd_items] in *; [inversion E; auto|].
  fold (add_items f m l) in E. fold (iadd_items g m l).
  destruct (assoc k m) as [x'|] eqn:A.
  - assert (Px' : P x') by (rewrite Forall_forall in Hm; apply (Hm (k, x')); apply assoc_in; auto).
    destruct (Hf x x') as (y & Ey & Eg); auto. rewrite Ey in E. rewrite Eg. cbn [bind] in E.
    destruct (add_items f m l) as [t|] eqn:Et; cbn [bind] in E; [|discriminate]. inversion E; subst.
    rewrite (IH t); auto.
  - cbn [bind] in E. destruct (add_items f m l) as [t|] eqn:Et; cbn [bind] in E; [|discriminate].
    inversion E; subst. rewrite (IH t); auto.
Qed.
Lemma dict_iadd_ok L k n : forall a b c, content_ok L n a -> content_ok L n b -> content_add k k a b = Ok c ->
  (match a with CArr d => array_iadd k k d b | _ => dict_iadd k k a b end) = (c, None).
Proof.
  induction n as [|n IH]; intros a b c Ha Hb E; destruct a as [|d|l], b as [|e|m]; try contradiction; cbn [content_ok] in *.
  - cbn [content_add] in E. rewrite arr_add_same in E by congruence. cbn [rmap bind] in E. unfold array_iadd.
    rewrite arr_iadd_same by congruence. congruence.
  - destruct Ha as (Fl & Nl & Kl), Hb as (Fm & Nm & Km). cbn [content_add dict_iadd] in *.
    destruct (add_items (content_add k k) m l) as [l'|] eqn:El; [|discriminate]. cbn [bind] in E.
    rewrite (iadd_items_ok (content_add k k) _ m (content_ok L n) l Fl Fm) with (l' := l'); auto.
    + rewrite map_copy_id. congruence.
    + intros x x' Hx Hx'. destruct (content_add_ok L k n x x' Hx Hx') as (y & Ey & _). exists y. split; auto.
Qed.
Lemma content_iadd_ok L k n a b c : hist_ok L n a -> hist_ok L n b -> content_add k k a b = Ok c ->
  content_iadd k k a b = (c, None).
Proof.
  intros [->|Ha] [->|Hb] E.
  - inversion E; auto.
  - destruct b; try (destruct n; contradiction); cbn [content_add content_iadd] in *; congruence.
  - destruct a; try (destruct n; contradiction); cbn [content_add content_iadd] in *; rewrite copycontent_id in E; inversion E; reflexivity.
  - assert (G := dict_iadd_ok L k n a b c Ha Hb E). destruct a, b; try (destruct n; contradiction); auto.
Qed.

(** ** Scaling *)
Lemma content_mul_ok L v n : forall a, content_ok L n a ->
  exists c, content_mul v a = Ok c /\ content_imul v a = (c, None) /\ content_ok L n c /\
    forall ks, block c ks = option_map (map (fun x => nmul x v)) (block a ks).
Proof.
  induction n as [|n IH]; intros a Ha; destruct a as [|d|l]; try contradiction; cbn [content_ok] in *.
  - cbn [content_mul content_imul]. eexists. split; [reflexivity|]. split; [reflexivity|].
    split; [rewrite map_length; auto|]. intros [|? ?]; reflexivity.
  - destruct Ha as (Fl & Nl & Kl). cbn [content_mul content_imul].
    assert (exists l', mul_items (content_mul v) l = Ok l' /\ imul_items (content_imul v) l = (l', None) /\
      Forall2 (fun a b => fst a = fst b /\ (content_ok L n (snd b) /\
         forall ks, block (snd b) ks = option_map (map (fun x => nmul x v)) (block (snd a) ks))) l l') as (l' & E & E' & F).
    { clear Nl Kl. induction Fl as [|[k x] l Hx Fl IHl]; [exists []; repeat split; auto|].
      destruct (IH x Hx) as (y & Ey & Ey' & Hy & Vy). destruct IHl as (l' & E & E' & F).
      exists ((k, y) :: l'). cbn [mul_items imul_items]. fold (mul_items (content_mul v) l). fold (imul_items (content_imul v) l).
      rewrite Ey, Ey', E, E'. cbn [bind]. repeat split; auto. }
    rewrite E, E'. cbn [rmap bind]. eexists. split; [reflexivity|]. split; [reflexivity|].
    assert (Ek := forall2_keys _ _ _ F). split.
    + rewrite Ek. split; auto. clear - F. induction F as [|a b l l' (_ & H & _) F IH]; constructor; auto.
    + intros [|k ks]; [reflexivity|]. cbn [block].
      assert (G := assoc_same_keys (fun _ a b => forall ks, block b ks = option_map (map (fun x => nmul x v)) (block a ks)) l l' k).
      destruct (assoc k l), (assoc k l'); try (exfalso; apply G; clear - F; induction F as [|a b ? ? (E & _ & H) ? ?]; constructor; auto; fail).
      * apply G. clear - F; induction F as [|a b ? ? (E & _ & H) ? ?]; constructor; auto.
      * reflexivity.
Qed.
