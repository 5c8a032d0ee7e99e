(** Comparing and sorting bin keys: proofs for C69. *)
From Coq Require Import String Permutation Sorted.
From Verif Require Import Base Num NumFacts Axis AxisSpec AxisProofs AxisMain Calc Content Vega Pandas Interval.
Local Open Scope list_scope.

(** ** Sorted lists *)
Lemma ss_app {A} (R : A -> A -> Prop) l m : StronglySorted R l -> StronglySorted R m -> (forall x y, In x l -> In y m -> R x y) -> StronglySorted R (l ++ m).
Proof.
  intros Hl Hm H. induction Hl as [|x l Hl IH Hx]; auto. cbn [app]. constructor.
  - apply IH. intros a b Ha. apply H. right; auto.
  - apply Forall_app. split; auto. apply Forall_forall. intros y Hy. apply H; auto. left; auto.
Qed.
Lemma ss_app_l {A} (R : A -> A -> Prop) l m : StronglySorted R (l ++ m) -> StronglySorted R l.
Proof. induction l as [|x l IH]; intros H; [constructor|]. inversion H; subst. constructor; auto. apply Forall_app in H3. tauto. Qed.
Lemma ss_nth {A} (R : A -> A -> Prop) l : StronglySorted R l -> forall i j a b, i < j -> nth_error l i = Some a -> nth_error l j = Some b -> R a b.
Proof.
  intros H. induction H as [|x l H IH Hx]; intros i j a b Hij Ha Hb; [destruct i; discriminate|]. destruct j as [|j]; [lia|]. destruct i as [|i]; simpl in *.
  - injection Ha as <-. rewrite Forall_forall in Hx. apply Hx. eapply nth_error_In; eauto.
  - eapply IH; [|eauto..]. lia.
Qed.
Lemma ss_map {A B} (f : A -> B) (R : B -> B -> Prop) l : StronglySorted R (map f l) -> StronglySorted (fun a b => R (f a) (f b)) l.
Proof. induction l as [|x l IH]; intros H; [constructor|]. inversion H; subst. constructor; auto. rewrite Forall_map in H3. auto. Qed.
Lemma ss_seq (f : nat -> Num) n : (forall i j, i < j -> nltb (f i) (f j) = true) -> forall s, StronglySorted (fun a b => nltb a b = true) (map f (seq s n)).
Proof.
  intros H. induction n as [|n IH]; intros s; [constructor|]. cbn [seq map]. constructor; auto. apply Forall_map, Forall_forall.
  intros j Hj. apply in_seq in Hj. apply H. lia.
Qed.
(** Sorted lists with the same elements are equal. *)
Lemma ss_unique {A} (R : A -> A -> Prop) l : forall m, StronglySorted R l -> StronglySorted R m -> Permutation l m ->
  (forall a b, In a l -> In b l -> R a b -> R b a -> False) -> l = m.
Proof.
  induction l as [|x l IH]; intros m Hl Hm P As.
  - apply Permutation_nil in P. auto.
  - destruct m as [|y m]; [apply Permutation_sym, Permutation_nil in P; discriminate|]. inversion Hl; subst. inversion Hm; subst.
    assert (x = y).
    { assert (Ix : In x (y :: m)) by (eapply Permutation_in; [exact P|left; auto]). assert (Iy : In y (x :: l)) by (eapply Permutation_in; [apply Permutation_sym, P|left; auto]).
      destruct Ix as [<-|Ix]; auto. destruct Iy as [<-|Iy]; auto. rewrite Forall_forall in *. exfalso. apply (As x y); auto; [left; auto|right; auto]. }
    subst y. f_equal. apply IH; auto; [eapply Permutation_cons_inv; eauto|]. intros a b Ha Hb. apply As; right; auto.
Qed.

(** ** Keys in ascending order *)
Definition below (a b : key) : Prop := py_lt a b = Ok true /\ py_lt b a = Ok false.
Definition interval_low (k : key) : Num := match k with KIv l _ _ _ => l | _ => NaN end.
Definition proper_interval (k : key) : Prop := exists l h cl ch, k = KIv l h cl ch.

Lemma below_lows a b : proper_interval a -> proper_interval b -> nltb (interval_low a) (interval_low b) = true -> below a b.
Proof.
  intros (l & h & cl & ch & ->) (l' & h' & cl' & ch' & ->) H. cbn [interval_low] in H. split; cbn; rewrite ?H, ?(nltb_asym _ _ H); auto.
Qed.
Lemma below_nan a : proper_interval a -> below a KNaN.
Proof. intros (l & h & cl & ch & ->). split; reflexivity. Qed.
Lemma ascending l (nf : bool) : Forall proper_interval l -> StronglySorted (fun a b => nltb a b = true) (map interval_low l) ->
  StronglySorted below (l ++ if nf then [KNaN] else []).
Proof.
  intros F S. rewrite Forall_forall in F. apply ss_app.
  - apply ss_map in S. induction S as [|x l S IH Hx]; constructor.
    + apply IH. intros y Hy. apply F. right; auto.
    + rewrite Forall_forall in *. intros y Hy. apply below_lows; [apply F; left; auto|apply F; right; auto|auto].
  - destruct nf; repeat constructor.
  - intros x y Hx Hy. destruct nf; [|destruct Hy]. destruct Hy as [<-|[]]. apply below_nan. auto.
Qed.

Lemma edge_lt n l h : 0 < n -> (this l < this h)%Q -> forall i j, i < j -> nltb (i2x n (Fin l) (Fin h) i) (i2x n (Fin l) (Fin h) j) = true.
Proof.
  intros Hn Hlh i j Hij. rewrite !i2x_edge by auto. simpl. apply qltb_iff. apply QArith_base.Qnot_le_lt. intros H.
  apply (edge_tval n l h Hn Hlh) in H. assert (G : (this (edge n l h i) <= this (edge n l h i))%Q) by apply QArith_base.Qle_refl.
  apply (edge_tval_ge n l h Hn Hlh) in G. pose proof (QArith_base.Qle_trans _ _ _ H G) as K. rewrite <- Zle_Qle in K. lia.
Qed.

Lemma bin_ascending n l h u o nf cl : 0 < n -> (this l < this h)%Q -> StronglySorted below (keys_bin n (Fin l) (Fin h) u o nf cl).
Proof.
  intros Hn Hlh. unfold keys_bin. rewrite !app_assoc. apply ascending.
  - rewrite !Forall_app. split; [split|]; [destruct u|..|destruct o]; try constructor; try constructor; try (repeat eexists).
    apply Forall_map, Forall_forall. intros i _. repeat eexists.
  - rewrite !map_app, map_map. cbn [interval_low]. rewrite <- app_assoc. apply ss_app.
    + destruct u; repeat constructor.
    + assert (E : StronglySorted (fun a b => nltb a b = true) (map (i2x n (Fin l) (Fin h)) (seq 0 (n + 1)))) by (apply ss_seq, edge_lt; auto).
      rewrite seq_app, map_app in E. cbn [seq map Nat.add] in E.
      replace (i2x n (Fin l) (Fin h) n) with (Fin h) in E by (rewrite i2x_edge, edge_n by auto; reflexivity).
      destruct o; [exact E|]. rewrite app_nil_r. eapply ss_app_l; eauto.
    + intros x y Hx Hy. destruct u; [|destruct Hx]. destruct Hx as [<-|[]]. cbn [interval_low]. apply in_app_iff in Hy. destruct Hy as [Hy|Hy].
      * apply in_map_iff in Hy as (i & <- & _). rewrite i2x_edge by auto. reflexivity.
      * destruct o; [|destruct Hy]. destruct Hy as [<-|[]]. reflexivity.
Qed.

Lemma pairs_lows es : es <> [] -> map fst (pairs_of es) ++ [last es NaN] = es.
Proof.
  induction es as [|x es IH]; intros H; [congruence|]. destruct es as [|y es]; auto. cbn [pairs_of map fst app]. f_equal. apply IH. discriminate.
Qed.
Lemma split_ascending es u o nf cl : strictly_sorted es -> es <> [] -> (u = true -> forall x, In x es -> x <> NInf /\ x <> NaN) ->
  StronglySorted below (keys_split es u o nf cl).
Proof.
  intros Hs Hne Hf. unfold keys_split. rewrite !app_assoc. apply ascending.
  - rewrite !Forall_app. split; [split|]; [destruct u|..|destruct o]; try constructor; try constructor; try (repeat eexists).
    apply Forall_map, Forall_forall. intros i _. repeat eexists.
  - rewrite !map_app, map_map. cbn [interval_low]. rewrite <- app_assoc.
    change (map (fun x => fst x) (pairs_of es)) with (map fst (pairs_of es)).
    pose proof (pairs_lows es Hne) as E.
    assert (S : StronglySorted (fun a b => nltb a b = true) (map fst (pairs_of es) ++ map interval_low (if o then [KIv (last es NaN) PInf cl true] else []))).
    { destruct o; cbn [map interval_low]; [rewrite E; exact Hs|]. rewrite app_nil_r. unfold strictly_sorted in Hs. rewrite <- E in Hs. eapply ss_app_l; eauto. }
    apply ss_app; auto; [destruct u; repeat constructor|].
    intros x y Hx Hy. destruct u; [|destruct Hx]. destruct Hx as [<-|[]]. cbn [interval_low].
    assert (Iy : In y es). { rewrite <- E. rewrite in_app_iff in *. destruct Hy as [Hy|Hy]; auto. destruct o; [right; exact Hy|destruct Hy]. }
    destruct (Hf eq_refl y Iy). destruct y; try congruence; reflexivity.
Qed.

(** ** Sorting *)
Lemma below_asym a b : below a b -> below b a -> False.
Proof. intros (H & _) (_ & H'). congruence. Qed.

Section Sorting.
  Variable ks : list key.
  Hypothesis Hks : StronglySorted below ks.
  Lemma ks_nodup : NoDup ks.
  Proof.
    clear - Hks. induction Hks as [|x l H IH Hx]; constructor; auto. intros I. rewrite Forall_forall in Hx. specialize (Hx x I). eapply below_asym; eauto.
  Qed.
  Lemma ks_total a b : In a ks -> In b ks -> a = b \/ below a b \/ below b a.
  Proof.
    intros Ha Hb. apply In_nth_error in Ha as (i & Hi). apply In_nth_error in Hb as (j & Hj).
    destruct (Nat.lt_trichotomy i j) as [L|[->|L]].
    - right; left. eapply ss_nth; eauto.
    - left. congruence.
    - right; right. eapply ss_nth; eauto.
  Qed.
  Lemma insert_ok k : forall l, In k ks -> (forall x, In x l -> In x ks) -> StronglySorted below l -> ~ In k l ->
    exists r, key_insert k l = Ok r /\ Permutation (k :: l) r /\ StronglySorted below r.
  Proof.
    induction l as [|x l IH]; intros Hk Hl S N; cbn [key_insert].
    - exists [k]. repeat split; auto. repeat constructor.
    - inversion S; subst. destruct (ks_total k x Hk (Hl x (or_introl eq_refl))) as [->|[B|B]]; [exfalso; apply N; left; auto|..].
      + rewrite (proj1 B). cbn [bind]. eexists. split; [reflexivity|]. split; auto. constructor; auto. constructor; auto.
        rewrite Forall_forall in *. intros y Hy. specialize (H2 y Hy). assert (Iy : In y ks) by (apply Hl; right; auto).
        destruct (ks_total k y Hk Iy) as [<-|[B'|B']]; auto; exfalso.
        * eapply below_asym; eauto.
        * assert (Hx : In x ks) by (apply Hl; left; auto). clear - Hks Hk Hx Iy B B' H2.
          apply In_nth_error in Hk as (i & Hi). apply In_nth_error in Hx as (j & Hj). apply In_nth_error in Iy as (m & Hm).
          assert (L : forall i j a b, nth_error ks i = Some a -> nth_error ks j = Some b -> below a b -> i < j).
          { intros i' j' a b Ha Hb AB. destruct (Nat.lt_trichotomy i' j') as [L|[->|L]]; auto; exfalso.
            - assert (a = b) by congruence. subst. eapply below_asym; eauto.
            - pose proof (ss_nth _ _ Hks _ _ _ _ L Hb Ha). eapply below_asym; eauto. }
          pose proof (L _ _ _ _ Hi Hj B). pose proof (L _ _ _ _ Hj Hm H2). pose proof (L _ _ _ _ Hm Hi B'). lia.
      + rewrite (proj2 B). cbn [bind]. destruct IH as (r & E & P & S'); auto; [intros y Hy; apply Hl; right; auto|intros I; apply N; right; auto|].
        rewrite E. cbn [rmap]. eexists. split; [reflexivity|]. split; [etransitivity; [apply perm_swap|constructor; auto]|]. constructor; auto.
        apply (Permutation_Forall P). constructor; auto.
  Qed.
  Lemma sort_ok : forall l, NoDup l -> (forall x, In x l -> In x ks) -> exists r, key_sort l = Ok r /\ Permutation l r /\ StronglySorted below r.
  Proof.
    induction l as [|k l IH]; intros N Hl; cbn [key_sort]; [exists []; repeat split; constructor|]. inversion N; subst.
    destruct IH as (s & E & P & S); auto; [intros x Hx; apply Hl; right; auto|]. rewrite E. cbn [bind].
    destruct (insert_ok k s) as (r & Er & Pr & Sr); auto; [apply Hl; left; auto|intros x Hx; apply Hl; right; eapply Permutation_in; [apply Permutation_sym; eauto|auto]
      |intros I; apply H1; eapply Permutation_in; [apply Permutation_sym; eauto|auto]|].
    exists r. split; auto. split; auto. etransitivity; [|exact Pr]. constructor; auto.
  Qed.
  Lemma sorted_is l : Permutation l ks -> StronglySorted below l -> l = ks.
  Proof. intros P S. apply (ss_unique below); auto. intros a b _ _. apply below_asym. Qed.
  Lemma sort_is l : Permutation l ks -> key_sort l = Ok ks.
  Proof.
    intros P. destruct (sort_ok l) as (r & E & P' & S).
    - eapply Permutation_NoDup; [apply Permutation_sym; eauto|apply ks_nodup].
    - intros x Hx. eapply Permutation_in; eauto.
    - rewrite E. f_equal. apply sorted_is; auto. etransitivity; [apply Permutation_sym; eauto|auto].
  Qed.
End Sorting.

(** ** Sets *)
Definition nan_free_key (k : key) : Prop := match k with KIv l h _ _ => isnan l = false /\ isnan h = false | _ => True end.
Definition is_bool_key (k : key) : bool := match k with KBool _ => true | _ => false end.
Lemma py_eq_iff a b : nan_free_key a -> is_interval a = true -> (py_eq a b = true <-> a = b).
Proof.
  intros N I. unfold py_eq. rewrite I. cbn [orb]. destruct a as [l h cl ch| | |]; try discriminate.
  - destruct b as [l' h' cl' ch'| | |]; cbn [iv_eq]; try (split; [discriminate|congruence]). destruct N as (N1 & N2).
    rewrite !andb_true_iff, !neqb_iff, !Bool.eqb_true_iff. split; [intros ((((-> & _) & (-> & _)) & ->) & ->); auto|intros E; injection E as <- <- <- <-; repeat split; auto].
  - destruct b; cbn [iv_eq]; split; try discriminate; auto.
Qed.
Lemma set_in l : (forall k, In k l -> nan_free_key k /\ is_interval k = true) -> NoDup (key_set l) /\ forall k, In k (key_set l) <-> In k l.
Proof.
  induction l as [|x l IH]; intros H; cbn [key_set]; [split; [constructor|tauto]|]. destruct IH as (N & I); [intros k Hk; apply H; right; auto|].
  destruct (H x (or_introl eq_refl)) as (H1 & H2). destruct (existsb (py_eq x) (key_set l)) eqn:E.
  - split; auto. intros k. rewrite I. split; [right; auto|]. intros [<-|Hk]; auto. apply existsb_exists in E as (y & Hy & Ey). apply py_eq_iff in Ey; auto. subst. apply I; auto.
  - split.
    + constructor; auto. intros Hx. assert (E' : existsb (py_eq x) (key_set l) = true) by (apply existsb_exists; exists x; split; auto; apply py_eq_iff; auto). congruence.
    + intros k. split; intros [->|Hk]; try (left; reflexivity); right; apply I; auto.
Qed.
Lemma all_bins l : all_some bin_of (map DBin l) = Some l.
Proof. induction l as [|x l IH]; auto. cbn. rewrite IH. reflexivity. Qed.

Lemma domain_is ks l : StronglySorted below ks -> (forall k, In k ks -> nan_free_key k /\ is_interval k = true) ->
  (forall k, In k l <-> In k ks) -> domain_sorted (map DBin l) = Ok (map DBin ks).
Proof.
  intros S H I. unfold domain_sorted. rewrite all_bins. destruct (set_in l) as (N & J); [intros k Hk; apply H, I; auto|].
  rewrite (sort_is ks S); auto. apply NoDup_Permutation; auto; [apply ks_nodup; auto|]. intros k. rewrite J. apply I.
Qed.
