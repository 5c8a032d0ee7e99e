(** Lemmas about arrays of any rank. *)
From Coq Require Import String.
From Verif Require Import Base Num NumFacts Axis Calc Content Fill FillSpec FillProofs FillProofs2 FillProofs3 FillMain HistAlg HistAlgProofs HistAlgMain Nd.
Local Open Scope list_scope.

(** ** Multi-indexes *)
Lemma idx_eqb_eq i : forall j, idx_eqb i j = true <-> i = j.
Proof.
  induction i as [|x i IH]; intros [|y j]; cbn [idx_eqb]; split; intros H; try discriminate; auto.
  - apply andb_true_iff in H. destruct H as (H1 & H2). apply Nat.eqb_eq in H1. apply IH in H2. congruence.
  - inversion H; subst. rewrite Nat.eqb_refl. apply IH. reflexivity.
Qed.
Lemma idx_eqb_refl i : idx_eqb i i = true.
Proof. apply idx_eqb_eq. reflexivity. Qed.
Lemma indices_in sh : forall i, In i (indices sh) <-> Forall2 lt i sh.
Proof.
  induction sh as [|n sh IH]; intros i; cbn [indices].
  - split; [intros [<-|[]]; constructor|intros H; inversion H; left; auto].
  - rewrite in_flat_map. split.
    + intros (x & Hx & Hi). apply in_map_iff in Hi. destruct Hi as (j & <- & Hj). apply in_seq in Hx.
      constructor; [lia|]. apply IH; auto.
    + intros H. inversion H as [|x ? j ? Hx Hj]; subst. exists x. split; [apply in_seq; lia|].
      apply in_map. apply IH; auto.
Qed.
Lemma flat_map_length {A B} (f : A -> list B) n l : (forall x, length (f x) = n) -> length (flat_map f l) = length l * n.
Proof. intros H. induction l as [|x l IH]; cbn [flat_map length]; auto. rewrite app_length, H, IH. lia. Qed.
Lemma indices_length sh : length (indices sh) = prod sh.
Proof.
  induction sh as [|n sh IH]; auto. cbn [indices prod fold_right]. fold (prod sh).
  rewrite (flat_map_length _ (prod sh)); [rewrite seq_length; reflexivity|]. intros x. rewrite map_length. auto.
Qed.
Lemma nth_flat_map {A B} (f : A -> list B) m d d' l : (forall x, length (f x) = m) ->
  forall i j, i < length l -> j < m -> nth (i * m + j) (flat_map f l) d = nth j (f (nth i l d')) d.
Proof.
  intros Hm. induction l as [|x l IH]; intros i j Hi Hj; cbn [length] in Hi; [lia|]. cbn [flat_map].
  destruct i as [|i].
  - cbn [nth Nat.mul Nat.add]. rewrite app_nth1; [reflexivity|]. rewrite Hm. lia.
  - cbn [nth]. rewrite app_nth2; rewrite Hm; [|nia]. replace (S i * m + j - m) with (i * m + j) by nia. apply IH; lia.
Qed.
Lemma nth_indices sh : forall i, Forall2 lt i sh -> nth (ravel sh i) (indices sh) [] = i.
Proof.
  induction sh as [|n sh IH]; intros i H; inversion H as [|x ? j ? Hx Hj]; subst; [reflexivity|].
  cbn [ravel indices]. fold (prod sh).
  rewrite (nth_flat_map (fun i => map (cons i) (indices sh)) (prod sh) [] 0);
    [|intros; rewrite map_length, indices_length; auto|rewrite seq_length; lia|apply ravel_lt; auto].
  rewrite seq_nth by lia. cbn [Nat.add].
  rewrite nth_indep with (d' := x :: []) by (rewrite map_length, indices_length; apply ravel_lt; auto).
  rewrite map_nth. rewrite IH; auto.
Qed.
Lemma indices_nodup sh : NoDup (indices sh).
Proof.
  induction sh as [|n sh IH]; cbn [indices]; [repeat constructor; auto|].
  assert (G : forall l, NoDup l -> NoDup (flat_map (fun i => map (cons i) (indices sh)) l)).
  { induction l as [|x l IHl]; intros Hn; cbn [flat_map]; [constructor|]. inversion Hn; subst.
    apply nodup_app; auto.
    - apply FinFun.Injective_map_NoDup; auto. intros a b E. congruence.
    - intros y Hy Hy'. apply in_map_iff in Hy. destruct Hy as (j & <- & Hj). apply in_flat_map in Hy'.
      destruct Hy' as (x' & Hx' & Hj'). apply in_map_iff in Hj'. destruct Hj' as (j' & E & _). inversion E; subst. auto. }
  apply G. apply seq_NoDup.
Qed.

Lemma aget_anew sh f i : Forall2 lt i sh -> aget sh (anew sh f) i = f i.
Proof.
  intros H. unfold aget, anew.
  rewrite nth_indep with (d' := f []) by (rewrite map_length, indices_length; apply ravel_lt; auto).
  rewrite map_nth, nth_indices; auto.
Qed.
Lemma anew_length sh f : length (anew sh f) = prod sh.
Proof. unfold anew. rewrite map_length. apply indices_length. Qed.
Lemma anew_ext sh f g : (forall i, Forall2 lt i sh -> f i = g i) -> anew sh f = anew sh g.
Proof. intros H. apply map_ext_in. intros i Hi. apply H. apply indices_in. auto. Qed.
Lemma anew_aget sh d : length d = prod sh -> anew sh (aget sh d) = d.
Proof.
  intros H. apply nth_ext_num; [rewrite anew_length; auto|]. intros p Hp. rewrite anew_length in Hp.
  destruct (ravel_surj sh p Hp) as (i & Hi & <-). change (aget sh (anew sh (aget sh d)) i = aget sh d i).
  apply aget_anew; auto.
Qed.
Lemma array_ext sh d e : length d = prod sh -> length e = prod sh ->
  (forall i, Forall2 lt i sh -> aget sh d i = aget sh e i) -> d = e.
Proof. intros Hd He H. rewrite <- (anew_aget sh d Hd), <- (anew_aget sh e He). apply anew_ext. auto. Qed.

(** ** Sums over dimensions *)
Lemma select_lt k : forall i sh, Forall2 lt i sh -> Forall2 lt (select k i) (select k sh).
Proof.
  induction k as [|b k IH]; intros i sh H; [constructor|]. inversion H as [|x n j sh' Hx Hj]; subst; cbn [select]; [constructor|].
  destruct b; auto.
Qed.
Lemma aget_asum k sh d o : Forall2 lt o (select k sh) ->
  aget (select k sh) (asum k sh d) o = nsum (map (aget sh d) (filter (fun i => idx_eqb (select k i) o) (indices sh))).
Proof. intros H. unfold asum. rewrite aget_anew; auto. Qed.
Lemma asum_length k sh d : length (asum k sh d) = prod (select k sh).
Proof. apply anew_length. Qed.

(** Regrouping a sum. *)
Lemma nsum_classes {A} (g : A -> Num) (f : A -> list nat) (p : list nat -> bool) cells l :
  NoDup cells -> (forall x, In x l -> In (f x) cells) ->
  nsum (map (fun o => nsum (map g (filter (fun x => idx_eqb (f x) o) l))) (filter p cells))
  = nsum (map g (filter (fun x => p (f x)) l)).
Proof.
  intros N Hc. apply (nsum_cells (fun o x => idx_eqb (f x) o) (fun x => p (f x))).
  - apply NoDup_filter; auto.
  - intros x Hx E o Ho. apply filter_In in Ho. destruct Ho as (_ & Ho). destruct (idx_eqb (f x) o) eqn:Eq; auto.
    apply idx_eqb_eq in Eq. subst. congruence.
  - intros x Hx E. exists (f x). split; [apply filter_In; auto|apply idx_eqb_refl].
  - intros x o o' H H' _ _. apply idx_eqb_eq in H, H'. congruence.
Qed.

(** Composing two choices of dimensions. *)
Fixpoint pick2 (k1 k2 : list bool) : list bool :=
  match k1 with
  | [] => []
  | true :: k1' => match k2 with b :: k2' => b :: pick2 k1' k2' | [] => false :: pick2 k1' [] end
  | false :: k1' => false :: pick2 k1' k2
  end.
Lemma select_nil_r {A} k : select k (@nil A) = [].
Proof. destruct k; reflexivity. Qed.
Lemma select_pick2 {A} k1 : forall k2 (l : list A), select k2 (select k1 l) = select (pick2 k1 k2) l.
Proof.
  induction k1 as [|b k1 IH]; intros k2 l; cbn [pick2 select].
  - destruct k2; reflexivity.
  - destruct l as [|x l]; cbn [select].
    + rewrite select_nil_r. destruct b, k2; reflexivity.
    + destruct b.
      * destruct k2 as [|b2 k2]; cbn [select]; [rewrite <- IH; reflexivity|]. rewrite IH. reflexivity.
      * cbn [select]. rewrite IH. destruct k2; reflexivity.
Qed.
Lemma asum_asum k1 k2 sh d : asum k2 (select k1 sh) (asum k1 sh d) = asum (pick2 k1 k2) sh d.
Proof.
  apply (array_ext (select k2 (select k1 sh))); [apply asum_length|rewrite select_pick2; apply asum_length|].
  intros o Ho. rewrite aget_asum by auto. rewrite select_pick2 in *. rewrite aget_asum by auto.
  transitivity (nsum (map (fun i => nsum (map (aget sh d) (filter (fun x => idx_eqb (select k1 x) i) (indices sh))))
    (filter (fun i => idx_eqb (select k2 i) o) (indices (select k1 sh))))).
  - f_equal. apply map_ext_in. intros i Hi. apply filter_In in Hi. destruct Hi as (Hi & _).
    apply indices_in in Hi. apply aget_asum; auto.
  - rewrite (nsum_classes (aget sh d) (select k1) (fun i => idx_eqb (select k2 i) o) (indices (select k1 sh))).
    + f_equal. f_equal. apply filter_ext. intros i. rewrite select_pick2. reflexivity.
    + apply indices_nodup.
    + intros x Hx. apply indices_in. apply select_lt. apply indices_in; auto.
Qed.

(** Elementwise operations. *)
Lemma aget_map2 sh d e i : length d = prod sh -> length e = prod sh ->
  aget sh (map2 nadd d e) i = nadd (aget sh d i) (aget sh e i).
Proof.
  intros Hd He. unfold aget. generalize (ravel sh i). assert (H : length d = length e) by congruence. clear Hd He.
  revert e H. induction d as [|x d IH]; intros [|y e] H p; cbn [length] in H; try lia.
  - destruct p; cbn [map2 nth]; rewrite nadd_0_l; reflexivity.
  - destruct p as [|p]; cbn [map2 nth]; auto.
Qed.
Lemma asum_add k sh d e : length d = prod sh -> length e = prod sh ->
  asum k sh (map2 nadd d e) = map2 nadd (asum k sh d) (asum k sh e).
Proof.
  intros Hd He. apply (array_ext (select k sh)); [apply asum_length|rewrite map2_length; rewrite ?asum_length; reflexivity|].
  intros o Ho. rewrite aget_map2 by apply asum_length. rewrite !aget_asum by auto. rewrite <- nsum_map_add.
  f_equal. apply map_ext. intros i. apply aget_map2; auto.
Qed.
Lemma aget_scale sh d q i : aget sh (map (fun x => nmul x (Fin q)) d) i = nmul (aget sh d i) (Fin q).
Proof.
  unfold aget. apply nth_map_fin.
Qed.
Lemma asum_scale k sh d q : asum k sh (map (fun x => nmul x (Fin q)) d) = map (fun x => nmul x (Fin q)) (asum k sh d).
Proof.
  apply (array_ext (select k sh)); [apply asum_length|rewrite map_length; apply asum_length|].
  intros o Ho. rewrite aget_scale, !aget_asum by auto.
  rewrite nmul_comm, <- nsum_map_mul_fin, map_map. f_equal. apply map_ext. intros i. rewrite aget_scale, nmul_comm. reflexivity.
Qed.

(** Keeping every dimension changes nothing. *)
Lemma select_all {A} k : forall (l : list A), length k = length l -> forallb (fun b : bool => b) k = true -> select k l = l.
Proof.
  induction k as [|b k IH]; intros [|x l] H F; cbn [length forallb select] in *; try lia; auto.
  apply andb_true_iff in F. destruct F as (-> & F). rewrite IH; auto; lia.
Qed.
Lemma asum_all k sh d : length k = length sh -> forallb (fun b : bool => b) k = true -> length d = prod sh -> asum k sh d = d.
Proof.
  intros Hk F Hd. apply (array_ext sh); auto; [rewrite asum_length, select_all; auto|].
  intros i Hi. transitivity (aget (select k sh) (asum k sh d) i); [rewrite (select_all k sh Hk F); reflexivity|].
  rewrite aget_asum by (rewrite (select_all k sh Hk F); auto).
  assert (G : forall l, NoDup l -> (forall j, In j l -> Forall2 lt j sh) -> In i l ->
    nsum (map (aget sh d) (filter (fun j => idx_eqb (select k j) i) l)) = aget sh d i).
  { induction l as [|j l IH]; intros N H Hin; [inversion Hin|]. inversion N; subst. cbn [filter].
    assert (Lj : length k = length j) by (rewrite Hk; symmetry; eapply Forall2_length; apply H; left; auto).
    rewrite (select_all k j Lj F). destruct (idx_eqb j i) eqn:E.
    - apply idx_eqb_eq in E. subst j. cbn [map]. rewrite nsum_cons.
      rewrite filter_none; [apply nadd_0_r|]. intros x Hx. destruct (idx_eqb (select k x) i) eqn:E; auto.
      apply idx_eqb_eq in E. rewrite select_all in E; auto; [subst; contradiction|].
      rewrite Hk. symmetry. eapply Forall2_length. apply H. right; auto.
    - destruct Hin as [->|Hin]; [rewrite idx_eqb_refl in E; discriminate|]. apply IH; auto. intros; apply H; right; auto. }
  apply G; [apply indices_nodup|intros j; apply indices_in|apply indices_in; auto].
Qed.

(** ** Broadcasting arrays of the same shape *)
Lemma bshape_rev_same s : bshape_rev s s = Some s.
Proof. induction s as [|x s IH]; cbn [bshape_rev]; auto. rewrite IH, Nat.eqb_refl. reflexivity. Qed.
Lemma bindex_rev_same s : forall i, Forall2 lt i s -> bindex_rev s i = i.
Proof.
  induction s as [|x s IH]; intros i H; inversion H as [|j ? i' ? Hj Hi]; subst; auto. cbn [bindex_rev].
  rewrite IH by auto. destruct (Nat.eqb x 1) eqn:E; auto. apply Nat.eqb_eq in E. f_equal. lia.
Qed.
Lemma Forall2_rev {A B} (R : A -> B -> Prop) l m : Forall2 R l m -> Forall2 R (rev l) (rev m).
Proof. induction 1; cbn [rev]; [constructor|]. apply Forall2_app; auto. Qed.
Lemma bindex_same s i : Forall2 lt i s -> bindex s i = i.
Proof. intros H. unfold bindex. rewrite bindex_rev_same by (apply Forall2_rev; auto). apply rev_involutive. Qed.
Lemma badd_same s d e : length d = prod s -> length e = prod s -> badd s d s e = Ok (s, map2 nadd d e).
Proof.
  intros Hd He. unfold badd. rewrite bshape_rev_same, rev_involutive. do 2 f_equal.
  apply (array_ext s); [apply anew_length|rewrite map2_length; congruence|].
  intros i Hi. rewrite aget_anew by auto. rewrite bindex_same by auto. symmetry. apply aget_map2; auto.
Qed.
