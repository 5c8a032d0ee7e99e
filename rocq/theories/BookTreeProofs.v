(** Lemmas about books as trees: what programs can make, JSON, comparison. *)
From Coq Require Import String Permutation.
From Verif Require Import Base Num NumFacts Axis Calc Content Fill FillProofs2 HistAlg AlgSpec HistAlgProofs Json JsonProofs CompareProofs
  Glob Book BookTree BookTreeSpec.
Local Open Scope string_scope.
Local Open Scope list_scope.

Section NodeInd.
  Variable Q : node -> Prop.
  Hypothesis Hh : forall h, Q (NHist h).
  Hypothesis Hb : forall c l a, Forall (fun kx => Q (snd kx)) l -> Q (NBook c l a).
  Fixpoint node_induct (x : node) : Q x :=
    match x with
    | NHist h => Hh h
    | NBook c l a => Hb c l a ((fix go l : Forall (fun kx => Q (snd kx)) l :=
                                 match l with
                                 | [] => Forall_nil _
                                 | kx :: t => Forall_cons kx (node_induct (snd kx)) (go t)
                                 end) l)
    end.
End NodeInd.

(** ** Dicts with string keys *)
Section Dict.
  Context {A : Type}.
  Implicit Types l m : list (string * A).
  Lemma sassoc_some k v l : sassoc k l = Some v -> In (k, v) l.
  Proof.
    induction l as [|[k' v'] l IH]; cbn [sassoc]; [discriminate|]. destruct (String.eqb_spec k k') as [->|N]; intros E.
    - injection E as <-. left. auto.
    - right. auto.
  Qed.
  Lemma sassoc_none k l : sassoc k l = None <-> ~ In k (map fst l).
  Proof.
    induction l as [|[k' v'] l IH]; cbn [sassoc map fst]; [intuition|]. destruct (String.eqb_spec k k') as [->|N]; split; intros H.
    - discriminate.
    - exfalso. apply H. left. auto.
    - intros [E|E]; [congruence|]. apply IH in H. auto.
    - apply IH. intros E. apply H. right. auto.
  Qed.
  Lemma sassoc_key k l : In k (map fst l) -> exists v, sassoc k l = Some v.
  Proof. intros H. destruct (sassoc k l) eqn:E; eauto. apply sassoc_none in E. contradiction. Qed.
  Lemma set_keys k v l : map fst (sassoc_set k v l) = if mem k (map fst l) then map fst l else map fst l ++ [k].
  Proof.
    unfold mem. induction l as [|[k' v'] l IH]; cbn [sassoc_set map fst existsb app]; auto. destruct (String.eqb_spec k k') as [->|N]; cbn [map fst orb]; auto.
    rewrite IH. destruct (existsb (String.eqb k) (map fst l)); auto.
  Qed.
  Lemma mem_in k (l : list string) : mem k l = true <-> In k l.
  Proof. unfold mem. rewrite existsb_exists. split; [intros (x & H & E); apply String.eqb_eq in E; subst; auto|intros H; exists k; split; auto; apply String.eqb_refl]. Qed.
  Lemma mem_out k (l : list string) : mem k l = false <-> ~ In k l.
  Proof. rewrite <- mem_in. destruct (mem k l); intuition congruence. Qed.
  Lemma set_nodup k v l : NoDup (map fst l) -> NoDup (map fst (sassoc_set k v l)).
  Proof.
    intros H. rewrite set_keys. destruct (mem k (map fst l)) eqn:E; auto. apply mem_out in E.
    apply (Permutation_NoDup (l := k :: map fst l)); [apply Permutation_cons_append|constructor; auto].
  Qed.
  Lemma set_in k v l k' v' : In (k', v') (sassoc_set k v l) -> (k' = k /\ v' = v) \/ In (k', v') l.
  Proof.
    induction l as [|[k0 v0] l IH]; cbn [sassoc_set].
    - intros [E|[]]. injection E as <- <-. auto.
    - destruct (String.eqb_spec k k0) as [->|N].
      + intros [E|H]; [injection E as <- <-; auto|right; right; auto].
      + intros [E|H]; [right; left; auto|]. destruct (IH H) as [?|?]; auto. right. right. auto.
  Qed.
  Lemma set_same k v l : sassoc k l = Some v -> sassoc_set k v l = l.
  Proof.
    induction l as [|[k' v'] l IH]; cbn [sassoc sassoc_set]; [discriminate|]. destruct (String.eqb_spec k k') as [->|N]; intros E.
    - congruence.
    - rewrite IH; auto.
  Qed.
  Lemma set_new k v l : ~ In k (map fst l) -> sassoc_set k v l = l ++ [(k, v)].
  Proof.
    induction l as [|[k' v'] l IH]; cbn [sassoc_set map fst app]; auto. intros H. destruct (String.eqb_spec k k') as [->|N]; [exfalso; apply H; left; auto|].
    rewrite IH; auto. intros E. apply H. right. auto.
  Qed.
  Lemma set_set k v w l : sassoc_set k w (sassoc_set k v l) = sassoc_set k w l.
  Proof.
    induction l as [|[k' v'] l IH]; cbn [sassoc_set]; [rewrite String.eqb_refl; auto|].
    destruct (String.eqb k k') eqn:E; cbn [sassoc_set]; rewrite E; auto. rewrite IH. auto.
  Qed.
  Lemma del_in k l k' v' : In (k', v') (sdel k l) -> In (k', v') l.
  Proof.
    induction l as [|[k0 v0] l IH]; cbn [sdel]; auto. destruct (String.eqb k k0); [right; auto|]. intros [E|H]; [left; auto|right; auto].
  Qed.
  Lemma del_nodup k l : NoDup (map fst l) -> NoDup (map fst (sdel k l)).
  Proof.
    induction l as [|[k0 v0] l IH]; cbn [sdel map fst]; auto. intros H. inversion H as [|? ? H1 H2]; subst. destruct (String.eqb k k0); auto.
    cbn [map fst]. constructor; auto. intros E. apply H1. apply in_map_iff in E. destruct E as ([k1 v1] & E & E'). cbn [fst] in E. subst k1.
    apply del_in in E'. apply in_map_iff. exists (k0, v1). auto.
  Qed.
  Lemma find_sassoc k l : find (fun ky => String.eqb (fst ky) k) l = match sassoc k l with Some v => Some (k, v) | None => None end.
  Proof.
    induction l as [|[k' v'] l IH]; cbn [find sassoc fst]; auto. rewrite (String.eqb_sym k' k). destruct (String.eqb_spec k k') as [->|N]; auto.
  Qed.
End Dict.

Lemma node_at_cons c l a k p : node_at (NBook c l a) (k :: p) = match sassoc k l with Some y => node_at y p | None => None end.
Proof. cbn [node_at]. rewrite find_sassoc. destruct (sassoc k l); auto. Qed.

(** ** What programs can make *)
Inductive proper (P : hobj -> Prop) : node -> Prop :=
| proper_hist h : P h -> proper P (NHist h)
| proper_book c l att : NoDup (map fst l) -> (forall k x, In (k, x) l -> cut_slash k = None /\ proper P x) -> changed c l = None ->
    proper P (NBook c l att).

Lemma assert_items_key f m l : (forall x y, In x (map snd l) -> f x y <> Some KeyError) -> (forall n, In n (map fst l) -> In n (map fst m)) ->
  assert_items f m l <> Some KeyError.
Proof.
  induction l as [|[n x] l IH]; cbn [assert_items map fst snd]; intros F K; [discriminate|].
  destruct (wild n); [discriminate|]. destruct (sassoc_key n m (K n (or_introl eq_refl))) as (y & ->).
  destruct (f x y) eqn:E.
  - specialize (F x y (or_introl eq_refl)). congruence.
  - apply IH; intros; [apply F; right; auto|apply K; right; auto].
Qed.
Lemma same_names_iff l m : same_names l m = true <-> (forall n, In n (map fst l) <-> In n (map fst m)).
Proof.
  unfold same_names. rewrite andb_true_iff, !forallb_forall. split.
  - intros (H1 & H2) n. split; intros H; apply in_map_iff in H; destruct H as (kx & <- & H).
    + apply mem_in. apply H1. auto.
    + apply mem_in. apply H2. auto.
  - intros H. split; intros kx Hk; apply mem_in; apply H; apply in_map; auto.
Qed.
Lemma node_assert_key a : forall b, node_assert a b <> Some KeyError.
Proof.
  induction a as [h|c l x IH] using node_induct; intros [g|d m y]; cbn [node_assert]; try discriminate.
  - destruct (hist_compatible h g) as [[]|]; discriminate.
  - destruct (class_eqb c d); [|discriminate]. destruct (same_names l m) eqn:E; [|discriminate].
    assert (E' := proj1 (same_names_iff l m) E). change (assert_items node_assert m l <> Some KeyError).
    apply assert_items_key; [|intros; apply E'; auto]. intros x0 y0 H. apply in_map_iff in H. destruct H as ([k z] & <- & H).
    rewrite Forall_forall in IH. apply (IH _ H).
Qed.
Lemma changed_key c l : changed c l <> Some KeyError.
Proof.
  destruct c; cbn [changed]; try discriminate. assert (H : assertcompatible l <> Some KeyError).
  { unfold assertcompatible. induction (map snd l) as [|x t IH]; cbn [assert_chain]; [discriminate|]. destruct t as [|y t]; [discriminate|].
    assert (K := node_assert_key x y). destruct (node_assert x y); auto. }
  destruct (assertcompatible l); auto. destruct (forallb _ _); discriminate.
Qed.

Section Made.
  Variable P : hobj -> Prop.
  Notation proper := (proper P).

  Lemma fresh_set v n : forall name, snd (tset_n n KBook [] name v) <> Some KeyError.
  Proof.
    induction n as [|n IH]; intros name; cbn [tset_n]; destruct (cut_slash name) as [[k rest]|]; cbn [snd]; try discriminate.
    cbn [sassoc]. specialize (IH rest). destruct (tset_n n KBook [] rest v) as [m' [e|]]; cbn [snd] in *; [auto|]. cbn [changed]. discriminate.
  Qed.
  Lemma set_key_error v n : forall c l name, snd (tset_n n c l name v) = Some KeyError -> fst (tset_n n c l name v) = l.
  Proof.
    induction n as [|n IH]; intros c l name; cbn [tset_n]; destruct (cut_slash name) as [[k rest]|]; cbn [fst snd]; intros E; try discriminate;
      try (exfalso; eapply changed_key; eassumption).
    destruct (sassoc k l) as [[h|d m x]|] eqn:A.
    - cbn [fst]. apply set_same. auto.
    - specialize (IH d m rest). destruct (tset_n n d m rest v) as [m' [e|]]; cbn [fst snd] in *.
      + rewrite IH by congruence. rewrite set_set. apply set_same. auto.
      + exfalso. eapply changed_key; eassumption.
    - assert (F := fresh_set v n rest). destruct (tset_n n KBook [] rest v) as [m' [e|]]; cbn [fst snd] in *; [congruence|].
      exfalso. eapply changed_key; eassumption.
  Qed.

  Lemma proper_set c l att k v : proper (NBook c l att) -> cut_slash k = None -> proper v -> changed c (sassoc_set k v l) = None ->
    proper (NBook c (sassoc_set k v l) att).
  Proof.
    intros H C V N. inversion H as [|? ? ? ND F E]; subst. constructor; auto; [apply set_nodup; auto|].
    intros k' x Hi. apply set_in in Hi. destruct Hi as [(-> & ->)|Hi]; auto.
  Qed.
  Lemma cut_first s k r : cut_slash s = Some (k, r) -> cut_slash k = None.
  Proof.
    revert k r. induction s as [|c s IH]; cbn [cut_slash]; intros k r E; [discriminate|]. destruct (Ascii.eqb c (Ascii.Ascii true true true true false true false false)) eqn:Ec.
    - injection E as <- <-. reflexivity.
    - destruct (cut_slash s) as [[a b]|] eqn:Es; [|discriminate]. injection E as <- <-. cbn [cut_slash]. rewrite Ec, (IH a b); auto.
  Qed.
  Lemma proper_att c l a b : proper (NBook c l a) -> proper (NBook c l b).
  Proof. intros H. inversion H; subst. constructor; auto. Qed.
  Lemma proper_get c l a k x : proper (NBook c l a) -> sassoc k l = Some x -> proper x.
  Proof. intros H E. inversion H as [|? ? ? ND F _]; subst. apply sassoc_some in E. apply (F k x E). Qed.

  Lemma set_proper v : proper v -> forall n c l att name, proper (NBook c l att) -> fine (snd (tset_n n c l name v)) ->
    proper (NBook c (fst (tset_n n c l name v)) att).
  Proof.
    intros V. induction n as [|n IH]; intros c l att name H [E|E]; try (rewrite (set_key_error v _ c l name E); auto; fail);
      revert E; cbn [tset_n]; destruct (cut_slash name) as [[k rest]|] eqn:C; cbn [fst snd]; intros E; try discriminate;
      try (apply proper_set; auto; fail).
    assert (Hk := cut_first _ _ _ C).
    set (attempt := match sassoc k l with None => NBook KBook [] [] | Some x => x end) in *.
    assert (Ha : proper attempt).
    { unfold attempt. destruct (sassoc k l) eqn:A; [eapply proper_get; eauto|]. constructor; [constructor|intros ? ? []|reflexivity]. }
    destruct attempt as [h|d m x]; [discriminate|]. specialize (IH d m x rest Ha). destruct (tset_n n d m rest v) as [m' [e|]]; [discriminate|].
    cbn [fst snd] in *. rewrite set_set in *. apply proper_set; auto. apply IH. left. auto.
  Qed.

  Lemma del_key_error n : forall c l name, snd (tdel_n n c l name) = Some KeyError -> fst (tdel_n n c l name) = l.
  Proof.
    induction n as [|n IH]; intros c l name; cbn [tdel_n]; (destruct (sassoc name l) as [y|] eqn:A; [cbn [fst snd]; intros E; exfalso; eapply changed_key; eassumption|]);
      destruct (cut_slash name) as [[k rest]|]; cbn [fst snd]; intros E; auto.
    destruct (sassoc k l) as [[h|d m x]|] eqn:B; cbn [fst snd]; auto. specialize (IH d m rest). destruct (tdel_n n d m rest) as [m' [e|]]; cbn [fst snd] in *.
    - rewrite IH by congruence. apply set_same. auto.
    - exfalso. eapply changed_key; eassumption.
  Qed.
  Lemma del_proper n : forall c l att name, proper (NBook c l att) -> fine (snd (tdel_n n c l name)) ->
    proper (NBook c (fst (tdel_n n c l name)) att).
  Proof.
    assert (D : forall c l att name, proper (NBook c l att) -> changed c (sdel name l) = None -> proper (NBook c (sdel name l) att)).
    { intros c l att name H N. inversion H as [|? ? ? ND F E]; subst. constructor; auto; [apply del_nodup; auto|]. intros k x Hi. apply del_in in Hi. auto. }
    induction n as [|n IH]; intros c l att name H [E|E]; try (rewrite (del_key_error _ c l name E); auto; fail);
      revert E; cbn [tdel_n]; (destruct (sassoc name l) as [y|] eqn:A; [cbn [fst snd]; intros E; apply D; auto|]);
      destruct (cut_slash name) as [[k rest]|] eqn:C; cbn [fst snd]; try discriminate.
    destruct (sassoc k l) as [[h|d m x]|] eqn:B; cbn [fst snd]; try discriminate. assert (Hm := proper_get _ _ _ _ _ H B).
    specialize (IH d m x rest Hm). destruct (tdel_n n d m rest) as [m' [e|]]; cbn [fst snd] in *; [discriminate|]. intros E. apply proper_set; auto.
    - eapply cut_first; eauto.
    - apply IH. left. auto.
  Qed.

  Lemma made_proper x : made P x -> proper x.
  Proof.
    induction 1 as [h H|c|c l att att' _ IH|c l att name v _ IH _ IHv F|c l att name _ IH F|c l1 k y l2 y' att _ IH N _ IHy].
    - constructor. auto.
    - constructor; [constructor|intros ? ? []|destruct c; reflexivity].
    - eapply proper_att; eauto.
    - apply set_proper; auto.
    - apply del_proper; auto.
    - inversion IH as [|? ? ? ND F E]; subst. constructor.
      + rewrite map_app in *. exact ND.
      + intros k' x Hi. apply in_app_iff in Hi. destruct Hi as [Hi|[Hi|Hi]].
        * apply F. apply in_app_iff. auto.
        * injection Hi as <- <-. split; auto. apply (F k y). apply in_app_iff. right. left. auto.
        * apply F. apply in_app_iff. right. right. auto.
      + destruct c; try reflexivity. congruence.
  Qed.
End Made.
