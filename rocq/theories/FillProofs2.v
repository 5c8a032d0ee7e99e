(** Proofs about groups, the recursion over group axes, and the flat index. *)
From Coq Require Import String Permutation.
From Verif Require Import Base Num NumFacts Axis Calc Content Fill FillSpec AxisProofs2 FillProofs.

(** ** Keys *)
Lemma gkey_eqb_iff a b : gkey_eqb a b = true <-> a = b /\ key_ok a.
Proof.
  unfold key_ok. destruct a, b; simpl; try (split; [discriminate|intros [? ?]; discriminate]).
  - rewrite neqb_iff. split.
    + intros [-> H]. split; auto. intros E. inversion E; subst. discriminate.
    + intros [E H]. inversion E; subst. split; auto. destruct x0; auto. congruence.
  - rewrite String.eqb_eq. split; [intros ->; split; auto; discriminate|intros [E _]; congruence].
Qed.
Lemma gkey_eqb_refl a : key_ok a -> gkey_eqb a a = true.
Proof. intros. apply gkey_eqb_iff; auto. Qed.
Lemma gkey_eqb_sym a b : gkey_eqb a b = gkey_eqb b a.
Proof.
  destruct a, b; simpl; auto; [apply neqb_sym|apply String.eqb_sym].
Qed.
Lemma gkey_eqb_neq a b : key_ok a -> a <> b -> gkey_eqb a b = false.
Proof. intros H1 H2. apply Bool.not_true_is_false. rewrite gkey_eqb_iff. tauto. Qed.

Lemma assoc_set_same {A} k (v : A) l : key_ok k -> assoc k (assoc_set k v l) = Some v.
Proof.
  intros Hk. induction l as [|[k' v'] l IH]; simpl.
  - rewrite gkey_eqb_refl; auto.
  - destruct (gkey_eqb k k') eqn:E; simpl; rewrite E; auto.
Qed.
Lemma assoc_set_other {A} k k' (v : A) l : gkey_eqb k k' = false -> key_ok k' -> assoc k (assoc_set k' v l) = assoc k l.
Proof.
  intros H Hk. induction l as [|[k1 v1] l IH]; simpl.
  - rewrite H. reflexivity.
  - destruct (gkey_eqb k' k1) eqn:E; simpl.
    + apply gkey_eqb_iff in E. destruct E as [<- _]. rewrite H. reflexivity.
    + rewrite IH. reflexivity.
Qed.
Lemma assoc_in {A} k (v : A) l : assoc k l = Some v -> In (k, v) l.
Proof.
  induction l as [|[k1 v1] l IH]; simpl; [discriminate|].
  destruct (gkey_eqb k k1) eqn:E; intros H.
  - apply gkey_eqb_iff in E. destruct E as [<- _]. inversion H; auto.
  - auto.
Qed.
Lemma assoc_none {A} k (l : list (gkey * A)) : key_ok k -> assoc k l = None <-> ~ In k (map fst l).
Proof.
  intros Hk. induction l as [|[k1 v1] l IH]; simpl; [tauto|].
  destruct (gkey_eqb k k1) eqn:E.
  - apply gkey_eqb_iff in E. destruct E as [<- _]. split; [discriminate|tauto].
  - assert (k1 <> k). { intros ->. rewrite gkey_eqb_refl in E; auto; discriminate. } tauto.
Qed.
Lemma assoc_not_ok {A} k (l : list (gkey * A)) : ~ key_ok k -> assoc k l = None.
Proof.
  intros Hk. induction l as [|[k1 v1] l IH]; simpl; auto.
  destruct (gkey_eqb k k1) eqn:E; auto. apply gkey_eqb_iff in E. tauto.
Qed.
Lemma key_ok_dec k : {key_ok k} + {~ key_ok k}.
Proof.
  unfold key_ok. destruct k as [x|s]; [destruct x|]; try (left; discriminate).
  right. intros H; apply H; auto.
Qed.
Lemma assoc_set_keys {A} k (v : A) l : key_ok k ->
  map fst (assoc_set k v l) = if has_key k l then map fst l else map fst l ++ [k].
Proof.
  intros Hk. unfold has_key. induction l as [|[k1 v1] l IH]; simpl; auto.
  destruct (gkey_eqb k k1) eqn:E; simpl; auto.
  rewrite IH. destruct (assoc k l); auto.
Qed.
Lemma assoc_set_nodup {A} k (v : A) l : key_ok k -> NoDup (map fst l) -> NoDup (map fst (assoc_set k v l)).
Proof.
  intros Hk Hn. rewrite assoc_set_keys by auto. unfold has_key. destruct (assoc k l) eqn:E; auto.
  apply assoc_none in E; auto. eapply Permutation_NoDup; [apply Permutation_cons_append|].
  constructor; auto.
Qed.
Lemma assoc_set_ok {A} k (v : A) l : key_ok k -> Forall key_ok (map fst l) -> Forall key_ok (map fst (assoc_set k v l)).
Proof.
  intros Hk Hn. rewrite assoc_set_keys by auto. destruct (has_key k l); auto.
  apply Forall_app; auto.
Qed.
Lemma assoc_set_forall {A} (P : A -> Prop) k v l : P v -> Forall (fun kv => P (snd kv)) l ->
  Forall (fun kv => P (snd kv)) (assoc_set k v l).
Proof.
  intros Hv H. induction H as [|[k1 v1] l H1 H2 IH]; simpl; auto.
  destruct (gkey_eqb k k1); constructor; auto.
Qed.

(** ** uniques and inverse *)
Lemma nodup_keys_in l x : Forall key_ok l -> In x (nodup_keys l) <-> In x l.
Proof.
  induction 1 as [|a l Ha Hl IH]; simpl; [tauto|].
  destruct (existsb (gkey_eqb a) l) eqn:E; simpl; rewrite IH; [|tauto].
  apply existsb_exists in E. destruct E as [y [Hy E]]. apply gkey_eqb_iff in E. destruct E as [<- _].
  split; [tauto|]. intros [->|]; auto.
Qed.
Lemma nodup_keys_nodup l : Forall key_ok l -> NoDup (nodup_keys l).
Proof.
  induction 1 as [|a l Ha Hl IH]; simpl; [constructor|].
  destruct (existsb (gkey_eqb a) l) eqn:E; auto. constructor; auto.
  rewrite nodup_keys_in by auto. intros Hi. rewrite <- Bool.not_true_iff_false in E. apply E.
  apply existsb_exists. exists a. split; auto. apply gkey_eqb_refl; auto.
Qed.
Lemma insert_key_perm x l : Permutation (insert_key x l) (x :: l).
Proof.
  induction l as [|y l IH]; simpl; auto. destruct (gkey_ltb x y); auto.
  etransitivity; [apply perm_skip, IH|]. apply perm_swap.
Qed.
Lemma sort_keys_perm l : Permutation (sort_keys l) l.
Proof.
  induction l as [|y l IH]; simpl; auto. etransitivity; [apply insert_key_perm|]. auto.
Qed.
Lemma index_from_spec l : forall i k z, NoDup l -> key_ok k ->
  index_from i k l = z -> (z = -1 /\ ~ In k l)%Z \/ (exists j, z = i + Z.of_nat j /\ nth_error l j = Some k)%Z.
Proof.
  induction l as [|x l IH]; intros i k z Hn Hk; simpl; [auto|].
  inversion Hn; subst. destruct (gkey_eqb k x) eqn:E; intros Hz.
  - apply gkey_eqb_iff in E. destruct E as [<- _]. right. exists 0. simpl. split; [lia|auto].
  - destruct (IH _ _ _ H2 Hk Hz) as [[? ?]|[j [? ?]]].
    + left. split; auto. intros [->|]; auto. rewrite gkey_eqb_refl in E; auto; discriminate.
    + right. exists (S j). simpl. split; [lia|auto].
Qed.

Definition kuniques (kf : row -> option gkey) (rows : list row) : list gkey :=
  fst (group_col (map kf rows)).
Definition kinv (kf : row -> option gkey) (rows : list row) (r : row) : Z :=
  match kf r with Some k => index_from 0 k (kuniques kf rows) | None => (-1)%Z end.
Definition kf_ok (rows : list row) (kf : row -> option gkey) : Prop :=
  forall r k, In r rows -> kf r = Some k -> key_ok k.

Lemma group_col_eq kf rows : group_col (map kf rows) = (kuniques kf rows, map (kinv kf rows) rows).
Proof.
  unfold kuniques, kinv, group_col. simpl. f_equal. rewrite map_map. reflexivity.
Qed.
Lemma catopts_in {A} (l : list (option A)) x : In x (catopts l) <-> In (Some x) l.
Proof.
  unfold catopts. rewrite in_flat_map. split.
  - intros [[y|] [H1 H2]]; simpl in H2; [|tauto]. destruct H2 as [->|[]]. auto.
  - intros H. exists (Some x). simpl; auto.
Qed.
Lemma catopts_ok kf rows : kf_ok rows kf -> Forall key_ok (catopts (map kf rows)).
Proof.
  intros H. apply Forall_forall. intros x Hx. apply catopts_in in Hx. apply in_map_iff in Hx.
  destruct Hx as [r [E Hr]]. eauto.
Qed.
Lemma kuniques_in kf rows k : kf_ok rows kf -> In k (kuniques kf rows) <-> exists r, In r rows /\ kf r = Some k.
Proof.
  intros H. unfold kuniques, group_col; simpl.
  pose proof (sort_keys_perm (nodup_keys (catopts (map kf rows)))) as P.
  transitivity (In k (nodup_keys (catopts (map kf rows)))).
  { split; intros Hi; [exact (Permutation_in _ P Hi)|exact (Permutation_in _ (Permutation_sym P) Hi)]. }
  rewrite nodup_keys_in by (apply catopts_ok; auto). rewrite catopts_in, in_map_iff.
  split; intros [r [? ?]]; exists r; auto.
Qed.
Lemma kuniques_nodup kf rows : kf_ok rows kf -> NoDup (kuniques kf rows).
Proof.
  intros H. unfold kuniques, group_col; simpl. eapply Permutation_NoDup.
  - apply Permutation_sym, sort_keys_perm.
  - apply nodup_keys_nodup, catopts_ok; auto.
Qed.
Lemma kuniques_ok kf rows : kf_ok rows kf -> Forall key_ok (kuniques kf rows).
Proof.
  intros H. apply Forall_forall. intros k Hk. apply kuniques_in in Hk; auto. destruct Hk as [r [? ?]]. eauto.
Qed.
Lemma kinv_spec kf rows r i k : kf_ok rows kf -> In r rows -> nth_error (kuniques kf rows) i = Some k ->
  (kinv kf rows r =? Z.of_nat i)%Z = match kf r with Some k' => gkey_eqb k k' | None => false end.
Proof.
  intros H Hr Hi. unfold kinv. destruct (kf r) as [k'|] eqn:E; [|apply Z.eqb_neq; lia].
  assert (Hk' : key_ok k') by eauto.
  assert (Hk : key_ok k).
  { apply nth_error_In in Hi. pose proof (kuniques_ok _ _ H) as Ho. rewrite Forall_forall in Ho. auto. }
  destruct (index_from_spec (kuniques kf rows) 0 k' _ (kuniques_nodup _ _ H) Hk' eq_refl) as [[H1 H2]|[j [H1 H2]]];
    rewrite H1.
  - exfalso. apply H2. apply kuniques_in; auto. eauto.
  - destruct (Z.eqb_spec (0 + Z.of_nat j) (Z.of_nat i)) as [He|He].
    + assert (j = i) by lia. subst j. rewrite Hi in H2. inversion H2. symmetry. apply gkey_eqb_refl; auto.
    + symmetry. apply gkey_eqb_neq; auto. intros ->. apply He.
      pose proof (kuniques_nodup _ _ H) as Hn. rewrite NoDup_nth_error in Hn.
      rewrite (Hn j i); [lia| |congruence]. apply nth_error_Some. congruence.
Qed.

(** ** dict_loop *)
Section DictLoop.
Variables (sub : nat -> content -> content * option err) (fresh : content).
Variables (P : content -> Prop) (R : nat -> content -> content -> Prop).
Hypothesis Hfresh : P fresh.

Lemma dict_loop_ok u : forall i d,
  NoDup u -> Forall key_ok u ->
  (forall j old, j < length u -> P old -> exists new, sub (i + j) old = (new, None) /\ P new /\ R (i + j) old new) ->
  Forall (fun kv => P (snd kv)) d -> NoDup (map fst d) -> Forall key_ok (map fst d) ->
  exists d', dict_loop sub fresh i u d = (d', None) /\
    Forall (fun kv => P (snd kv)) d' /\ NoDup (map fst d') /\ Forall key_ok (map fst d') /\
    (forall k, ~ In k u -> assoc k d' = assoc k d) /\
    (forall j k, nth_error u j = Some k -> exists new, assoc k d' = Some new /\
        R (i + j) (match assoc k d with Some c => c | None => fresh end) new).
Proof.
  induction u as [|x u IH]; intros i d Hn Ho Hs Hp Hd Hk; simpl.
  - exists d. repeat split; auto. intros [|j] k; discriminate.
  - inversion Hn as [|? ? Hx Hn']; subst. inversion Ho as [|? ? Hxo Ho']; subst.
    set (old := match assoc x d with Some c => c | None => fresh end).
    assert (Pold : P old).
    { unfold old. destruct (assoc x d) eqn:E; auto. apply assoc_in in E.
      rewrite Forall_forall in Hp. apply (Hp _ E). }
    destruct (Hs 0 old ltac:(simpl; lia) Pold) as [new [E1 [Pn Rn]]].
    rewrite Nat.add_0_r in E1, Rn. rewrite E1.
    destruct (IH (S i) (assoc_set x new d)) as [d' [E2 [Hp' [Hd' [Hk' [Hsame Hnew]]]]]]; auto.
    { intros j o Hj Po. replace (S i + j) with (i + S j) by lia. apply Hs; simpl; auto; lia. }
    { apply assoc_set_forall; auto. } { apply assoc_set_nodup; auto. } { apply assoc_set_ok; auto. }
    exists d'. split; auto. split; auto. split; auto. split; auto. split.
    + intros k Hkn. simpl in Hkn. rewrite Hsame by tauto.
      destruct (key_ok_dec k) as [Hkk|Hkk].
      * apply assoc_set_other; auto. apply gkey_eqb_neq; auto; intros ->; tauto.
      * rewrite !assoc_not_ok; auto.
    + intros [|j] k Hj; simpl in Hj.
      * inversion Hj; subst k. exists new. rewrite Hsame by auto. rewrite assoc_set_same by auto.
        rewrite Nat.add_0_r. split; auto.
      * destruct (Hnew j k Hj) as [nw [E3 R3]]. exists nw. split; auto.
        replace (i + S j) with (S i + j) by lia.
        assert (Hku : In k u) by (eapply nth_error_In; eauto).
        rewrite assoc_set_other in R3; auto. apply gkey_eqb_neq.
        { rewrite Forall_forall in Ho'; auto. } { intros ->; auto. }
Qed.
End DictLoop.

(** ** filldict *)
Definition bv (c : content) (ks : list gkey) (pos : nat) : Num :=
  match block c ks with Some d => nth pos d nzero | None => nzero end.

Fixpoint kmatch (ks : list gkey) (kfs : list (row -> option gkey)) (r : row) : bool :=
  match ks, kfs with
  | [], [] => true
  | k :: ks', kf :: kfs' => (match kf r with Some k' => gkey_eqb k k' | None => false end) && kmatch ks' kfs' r
  | _, _ => false
  end.

Lemma nth_repeat_zero n i : nth i (repeat nzero n) nzero = nzero.
Proof. revert i; induction n; destruct i; simpl; auto. Qed.

Definition fresh_of (L : layout) (n : nat) : content :=
  match n with 0 => CArr (zeros (l_size L)) | S _ => CDict [] end.
Lemma fresh_ok L n : content_ok L n (fresh_of L n).
Proof.
  destruct n; simpl; [apply repeat_length|]. repeat split; constructor.
Qed.
Lemma fresh_bv L n ks pos : bv (fresh_of L n) ks pos = nzero.
Proof.
  unfold bv. destruct n, ks; simpl; auto. apply nth_repeat_zero.
Qed.

Section FillDict.
Variables (L : layout) (m : wmode) (len : nat) (f : row -> option Z) (rows : list row).
Hypothesis Hm : mode_ok L m.
Hypothesis Hf : forall r z, In r rows -> f r = Some z -> (0 <= z < Z.of_nat (l_rows L))%Z.
Hypothesis Hnm : l_nprof L = 0 \/ (forall r, In r rows -> f r <> None).

Definition all_of (all : option (list bool)) (p : row -> bool) : Prop :=
  all = Some (map p rows) \/ (all = None /\ forall r, p r = true).

Definition added (kfs : list (row -> option gkey)) (p : row -> bool) (c c' : content) : Prop :=
  (forall ks i kd, i < l_rows L -> has_column L kd ->
    bv c' ks (i * l_last L + column_of L kd) =
    nadd (bv c ks (i * l_last L + column_of L kd))
         (nsum (map (row_adds m kd) (filter (fun r => p r && kmatch ks kfs r && hit i (f r)) rows)))) /\
  (forall ks, block c' ks <> None <->
     block c ks <> None \/ Forall2 (fun k kf => exists r, In r rows /\ kf r = Some k) ks kfs).

Lemma filldict_ok kfs : forall c idx p all,
  content_ok L (length kfs) c ->
  Forall (kf_ok rows) kfs ->
  idx_of idx f (filter p rows) ->
  (idx = None -> kfs = [] -> l_rows L = 1 /\ len = length (filter p rows)) ->
  all_of all p ->
  exists c', filldict L len (map (fun kf => group_col (map kf rows)) kfs) c idx
      (profs_of 0 (l_nprof L) (filter p rows)) (ws_of m (filter p rows)) all = (c', None) /\
    content_ok L (length kfs) c' /\ added kfs p c c'.
Proof.
  induction kfs as [|kf kfs IH]; intros c idx p all Hc Hk Hidx Hlen Hall.
  - destruct c as [|data|]; try contradiction. simpl in Hc. simpl.
    destruct (fillblock_ok L m f (filter p rows) Hm) with (len := len) (data := data) (idx := idx)
      as [d' [E [HL N]]]; auto.
    { intros r z Hr. apply Hf. apply filter_In in Hr; tauto. }
    { destruct Hnm; auto. right. intros r Hr. apply filter_In in Hr. apply H; tauto. }
    rewrite E. exists (CArr d'). split; auto. split; [simpl; congruence|]. split.
    + intros [|k ks] i kd Hi Hkd; unfold bv; cbn [block kmatch].
      * rewrite N by auto. rewrite filter_filter. do 3 f_equal. apply filter_ext. intros r.
        rewrite andb_true_r. reflexivity.
      * rewrite filter_none; [rewrite nadd_0_l; reflexivity|]. intros r _. rewrite andb_false_r. reflexivity.
    + intros [|k ks]; simpl; split; intros H; try (right; constructor); try discriminate.
      * congruence. * destruct H as [H|H]; [congruence|inversion H].
  - destruct c as [| |items]; try contradiction. simpl in Hc. destruct Hc as [Hc [Hnd Hko]].
    inversion Hk as [|? ? Hkf Hkfs]; subst. simpl map.
    rewrite group_col_eq. cbn [filldict].
    set (u := kuniques kf rows) in *. set (inv := kinv kf rows) in *.
    match goal with |- context [dict_loop ?s ?fr] => set (sub := s); set (fresh := fr) end.
    assert (Efresh : fresh = fresh_of L (length kfs)) by (unfold fresh; destruct kfs; reflexivity).
    assert (Hsub : forall i old, i < length u -> content_ok L (length kfs) old ->
      exists new, sub i old = (new, None) /\ content_ok L (length kfs) new /\
        added kfs (fun r => p r && (inv r =? Z.of_nat i)%Z) old new).
    { intros i old Hi Hold. unfold sub.
      set (p' := fun r => p r && (inv r =? Z.of_nat i)%Z).
      assert (Einv : match all with Some a => select a (map inv rows) | None => map inv rows end
                     = map inv (filter p rows)).
      { destruct Hall as [->|[-> Ht]]; [apply select_map|]. rewrite filter_all; auto. }
      rewrite Einv. rewrite map_map.
      assert (Esel : forall {B} (g : row -> B), select (map (fun x => (inv x =? Z.of_nat i)%Z) (filter p rows)) (map g (filter p rows))
                      = map g (filter p' rows)).
      { intros. rewrite select_map, filter_filter. reflexivity. }
      assert (Eall : match all with
            | Some a => map2 (fun b z => b && (z =? Z.of_nat i)%Z) a (map inv rows)
            | None => map (fun x => (inv x =? Z.of_nat i)%Z) (filter p rows) end = map p' rows).
      { destruct Hall as [->|[-> Ht]]; [rewrite map2_map; reflexivity|].
        rewrite filter_all by auto. apply map_ext. intros r. unfold p'. rewrite Ht. reflexivity. }
      rewrite Eall.
      assert (Eidx : match idx with
          | Some c0 => select (map (fun x => (inv x =? Z.of_nat i)%Z) (filter p rows)) c0
          | None => zeros_col (filter (fun b : bool => b) (map (fun x => (inv x =? Z.of_nat i)%Z) (filter p rows))) end
          = map f (filter p' rows)).
      { destruct Hidx as [->|[-> Hz]]; [apply Esel|]. apply zeros_col_map; auto.
        unfold p'. rewrite <- filter_filter. clear.
        induction (filter p rows); simpl; auto. destruct (inv a =? Z.of_nat i)%Z; simpl; auto. }
      rewrite Eidx.
      assert (Ep : map (fun q : list Num * list Num =>
           (select (map (fun x => (inv x =? Z.of_nat i)%Z) (filter p rows)) (fst q),
            select (map (fun x => (inv x =? Z.of_nat i)%Z) (filter p rows)) (snd q)))
          (profs_of 0 (l_nprof L) (filter p rows)) = profs_of 0 (l_nprof L) (filter p' rows)).
      { unfold profs_of. rewrite map_map. apply map_ext. intros q. cbn [fst snd]. rewrite !Esel. reflexivity. }
      rewrite Ep.
      assert (Ew : match ws_of m (filter p rows) with
          | Some (w, w2) => Some (select (map (fun x => (inv x =? Z.of_nat i)%Z) (filter p rows)) w,
                                  select (map (fun x => (inv x =? Z.of_nat i)%Z) (filter p rows)) w2)
          | None => None end = ws_of m (filter p' rows)).
      { destruct m; simpl; auto; rewrite !Esel; reflexivity. }
      rewrite Ew. apply IH; auto; try discriminate.
      - left; auto. - left; auto. }
    destruct (dict_loop_ok sub fresh (content_ok L (length kfs))
      (fun i old new => added kfs (fun r => p r && (inv r =? Z.of_nat i)%Z) old new)) with (u := u) (i := 0) (d := items)
      as [d' [E [Hp' [Hn' [Hk' [Hsame Hnew]]]]]]; auto.
    { rewrite Efresh. apply fresh_ok. }
    { apply kuniques_nodup; auto. } { apply kuniques_ok; auto. }
    rewrite E. exists (CDict d'). split; auto. split; [simpl; auto|].
    assert (Hin : forall k, {i | nth_error u i = Some k} + {~ In k u}).
    { intros k. generalize u. induction u0 as [|x u0 IHu]; [right; auto|].
      destruct (key_ok_dec k) as [Hkk|Hkk].
      - destruct (gkey_eqb k x) eqn:Ek.
        + apply gkey_eqb_iff in Ek. left. exists 0. simpl. destruct Ek as [-> _]; auto.
        + destruct IHu as [[i Hi]|Hni]; [left; exists (S i); auto|right].
          intros [->|]; auto. rewrite gkey_eqb_refl in Ek; auto; discriminate.
      - destruct IHu as [[i Hi]|Hni]; [left; exists (S i); auto|].
        destruct k as [[| | |]|]; try (exfalso; apply Hkk; discriminate).
        destruct x as [[| | |]|]; try (right; intros [H|H]; [discriminate|auto]).
        left. exists 0. reflexivity. }
    split.
    + intros [|k ks] i kd Hi Hkd.
      * unfold bv; cbn [block kmatch]. rewrite filter_none; [rewrite nadd_0_l; reflexivity|].
        intros r _. rewrite andb_false_r. reflexivity.
      * destruct (Hin k) as [[j Hj]|Hni].
        -- destruct (Hnew j k Hj) as [nw [Ea [Hv _]]]. simpl in Hv.
           specialize (Hv ks i kd Hi Hkd).
           assert (E1 : bv (CDict d') (k :: ks) (i * l_last L + column_of L kd) = bv nw ks (i * l_last L + column_of L kd)).
           { unfold bv; simpl. rewrite Ea. reflexivity. }
           assert (E2 : bv (CDict items) (k :: ks) (i * l_last L + column_of L kd) =
              bv (match assoc k items with Some c => c | None => fresh end) ks (i * l_last L + column_of L kd)).
           { unfold bv at 1; simpl. destruct (assoc k items); [reflexivity|]. rewrite Efresh, fresh_bv. reflexivity. }
           rewrite E1, E2, Hv. do 3 f_equal. apply filter_ext_in. intros r Hr. simpl.
           unfold inv. rewrite (kinv_spec kf rows r j k) by auto.
           rewrite !andb_assoc. reflexivity.
        -- rewrite filter_none; [rewrite nadd_0_r; unfold bv; simpl; rewrite Hsame by auto; reflexivity|].
           intros r Hr. simpl. destruct (kf r) as [k'|] eqn:Ek; [|rewrite andb_false_r; reflexivity].
           destruct (gkey_eqb k k') eqn:Ekk; [|rewrite andb_false_r; reflexivity].
           exfalso. apply gkey_eqb_iff in Ekk. destruct Ekk as [-> _]. apply Hni.
           apply kuniques_in; eauto.
    + intros [|k ks].
      * simpl. split; [congruence|]. intros [H|H]; [congruence|inversion H].
      * destruct (Hin k) as [[j Hj]|Hni].
        -- destruct (Hnew j k Hj) as [nw [Ea [_ Hb]]]. specialize (Hb ks). simpl. rewrite Ea, Hb.
           assert (Hex : exists r, In r rows /\ kf r = Some k).
           { apply kuniques_in; auto. eapply nth_error_In; eauto. }
           split; (intros [H|H]; [|right]).
           ++ destruct (assoc k items); [left; auto|].
              rewrite Efresh in H. destruct kfs; destruct ks; simpl in H; try congruence.
              right. constructor; auto.
           ++ constructor; auto.
           ++ destruct (assoc k items); [left; auto|congruence].
           ++ inversion H; auto.
        -- simpl. rewrite Hsame by auto. split; [tauto|]. intros [H|H]; auto.
           exfalso. apply Hni. inversion H; subst. apply kuniques_in; auto.
Qed.
End FillDict.
