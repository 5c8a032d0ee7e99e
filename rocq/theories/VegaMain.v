(** The data of a plot *)
From Coq Require Import String Sorted Permutation Lia Lqa.
From Verif Require Import Base Num NumFacts Axis AxisSpec AxisProofs AxisMain Calc Content Fill FillSpec FillProofs FillProofs2 FillProofs3 FillMain
  Tree Order Expr ExprFacts InstrSpec Elem HistFill HistSpec KeySpec HistAlg AlgSpec HistAlgProofs HistAlgMain CompareProofs
  Nd NdProofs Proj ProjSpec ProjProofs ProjMain Select Table TableSpec TableProofs Pandas PandasSpec PandasProofs PandasMain Vega VegaSpec VegaProofs VegaGroups VegaAxis.
Local Open Scope list_scope.
Local Open Scope nat_scope.

(** ** Positions *)
Section Positions.
  Variables (l : last1d) (a : axis).
  Hypothesis Ha : axis_fine a.
  Hypothesis Hnum : is_number_axis a = true.
  Hypothesis Hbase : is_baseline (c_kind l) = true.
  Hypothesis Hwide : first_bin_wide a.
  Lemma tiny_step e0 e1 en : isfin e0 = true -> nltb e0 en = true -> nltb (nadd e0 (nmul tiny (nsub en e0))) e1 = true -> nltb e0 (nadd e0 (nmul tiny (nsub en e0))) = true.
  Proof.
    destruct e0 as [x| | |]; try discriminate. destruct en as [y| | |]; try discriminate; intros _ H1 H2.
    - cbn in *. apply qltb_iff in H1. apply qltb_iff. qc_push. unfold Qminus. assert (0 < this y - this x)%Q by lra. lra.
    - assert (E : nadd (Fin x) (nmul tiny (nsub PInf (Fin x))) = PInf) by reflexivity. rewrite E in H2. destruct e1; discriminate.
  Qed.
  Lemma position_in_bin : exists u n (e : nat -> Num),
    (forall i j, i < j -> j <= n -> nltb (e i) (e j) = true) /\ axis_ends a = (e 0, e n) /\
    forall s, iends a s <> None -> exists i, i < n /\ s = u + i /\ iends a s = Some (e i, e (S i)) /\
      nleb (e i) (ipos l a s) = true /\ nltb (ipos l a s) (e (S i)) = true /\ (i = 0 -> nltb (e 0) (ipos l a s) = true).
  Proof.
    destruct (edges_ok a Ha Hnum) as (u & n & e & H1 & H2 & H3). exists u, n, e. split; auto. split; auto. intros s Hs.
    pose proof (iends_eq a s Ha Hnum) as E. destruct (iends a s) as [[lo hi]|] eqn:Ei; [|congruence]. symmetry in E. destruct (H1 s lo hi E) as (i & Hi & Hs' & -> & ->).
    exists i. split; auto. split; auto. split; auto. unfold ipos, first_slot, lo_of, hi_of. rewrite Ei, Hbase, (ends_low a Hnum), (ends_high a Hnum), H3. cbn [fst snd].
    assert (Hfin : isfin (e i) = true /\ isfin (e (S i)) = true).
    { unfold iends in Ei. destruct (dk a s) as [?|[lo hi c1 c2| | |]]; try discriminate. destruct (isfin lo) eqn:F1; [|discriminate]. destruct (isfin hi) eqn:F2; [|discriminate]. injection Ei as <- <-. auto. }
    assert (Hnn : isnan (e i) = false) by (destruct (e i); auto; destruct Hfin; discriminate).
    destruct i as [|i].
    - rewrite neqb_refl by auto. pose proof (Hwide s (e 0) (e 1) E) as W. rewrite H3 in W. cbn [fst snd] in W. specialize (W eq_refl).
      assert (X : nltb (e 0) (nadd (e 0) (nmul tiny (nsub (e n) (e 0)))) = true) by (apply (tiny_step _ (e 1)); [apply Hfin|apply H2; lia|auto]).
      split; [apply nltb_nleb; auto|]. auto.
    - assert (X : neqb (e (S i)) (e 0) = false).
      { destruct (neqb (e (S i)) (e 0)) eqn:X; auto. apply neqb_eq in X. pose proof (H2 0 (S i) ltac:(lia) ltac:(lia)) as Y. rewrite X, nltb_irrefl in Y. discriminate. }
      rewrite X. split; [apply nleb_refl; auto|]. split; [apply H2; lia|]. discriminate.
  Qed.
  Lemma pos_injective s s' : iends a s <> None -> iends a s' <> None -> ipos l a s = ipos l a s' -> s = s'.
  Proof.
    intros H H' E. destruct position_in_bin as (u & n & e & M & _ & P). destruct (P s H) as (i & Hi & -> & _ & L1 & R1 & _). destruct (P s' H') as (j & Hj & -> & _ & L2 & R2 & _).
    assert (X : forall i j, i < j -> j < n -> nltb (ipos l a (u + i)) (e (S i)) = true -> nleb (e j) (ipos l a (u + j)) = true -> ipos l a (u + i) <> ipos l a (u + j)).
    { intros i' j' Hij Hjn A B C. rewrite C in A. assert (Y : nltb (e j') (e (S i')) = true) by (eapply nleb_nltb_trans; eauto).
      destruct (Nat.eq_dec (S i') j') as [<-|Hne]; [rewrite nltb_irrefl in Y; discriminate|]. pose proof (M (S i') j' ltac:(lia) ltac:(lia)) as Z. apply nltb_asym in Z. congruence. }
    destruct (Nat.lt_trichotomy i j) as [Hl|[->|Hl]]; auto; exfalso.
    - apply (X i j); auto.
    - apply (X j i); auto.
  Qed.
  Lemma pos_not_end s : iends a s <> None -> ipos l a s <> fst (axis_ends a) /\ ipos l a s <> snd (axis_ends a).
  Proof.
    intros H. destruct position_in_bin as (u & n & e & M & En & P). destruct (P s H) as (i & Hi & -> & _ & L1 & R1 & Z). rewrite En. cbn [fst snd]. split; intros E; rewrite E in *.
    - destruct i as [|i]; [specialize (Z eq_refl); rewrite nltb_irrefl in Z; discriminate|]. pose proof (M 0 (S i) ltac:(lia) ltac:(lia)) as Y.
      assert (X : nltb (e 0) (e 0) = true) by (eapply nltb_nleb_trans; eauto). rewrite nltb_irrefl in X. discriminate.
    - destruct (Nat.eq_dec (S i) n) as [<-|Hne]; [rewrite nltb_irrefl in R1; discriminate|]. pose proof (M (S i) n ltac:(lia) ltac:(lia)) as Y. apply nltb_asym in Y. congruence.
  Qed.
  Lemma ipos_notnan s : iends a s <> None -> isnan (ipos l a s) = false.
  Proof. intros H. destruct position_in_bin as (u & n & e & _ & _ & P). destruct (P s H) as (i & _ & _ & _ & L1 & _). apply nleb_notnan in L1. tauto. Qed.

  Definition found (S : list (Num * Num)) : Prop :=
    (forall x y, In (x, y) S -> exists s, iends a s <> None /\ x = ipos l a s /\ y = middle (lo_of a s) (hi_of a s)).
  Lemma shift_bin S s : found S -> iends a s <> None -> In (ipos l a s, middle (lo_of a s) (hi_of a s)) S -> shift S (VNumber (ipos l a s)) = VNumber (middle (lo_of a s) (hi_of a s)).
  Proof.
    intros HS Hs Hin. unfold shift. destruct (find _ (rev S)) as [[x y]|] eqn:E.
    - apply find_some in E. destruct E as (E1 & E2). apply in_rev in E1. cbn [fst snd] in *. apply neqb_eq in E2. destruct (HS x y E1) as (s' & Hs' & -> & ->). apply pos_injective in E2; auto. subst. reflexivity.
    - exfalso. eapply find_none in E; [|apply -> in_rev; exact Hin]. cbn [fst] in E. rewrite neqb_refl in E by (apply ipos_notnan; auto). discriminate.
  Qed.
  Lemma shift_end S x : found S -> (x = fst (axis_ends a) \/ x = snd (axis_ends a)) -> shift S (VNumber x) = VNumber x.
  Proof.
    intros HS Hx. unfold shift. destruct (find _ (rev S)) as [[x' y]|] eqn:E; auto.
    apply find_some in E. destruct E as (E1 & E2). apply in_rev in E1. cbn [fst snd] in *. apply neqb_eq in E2. destruct (HS x' y E1) as (s' & Hs' & Ex & _).
    destruct (pos_not_end s' Hs') as (N1 & N2). destruct Hx; congruence.
  Qed.
End Positions.

(** ** Rows of one place *)
Section Rows.
  Variables (G F : list axis).
  Hypothesis HF : Forall axis_fine F.
  Hypothesis Hfix : Forall (fun a => is_fixed a = true) F.
  Hypothesis HG : Forall axis_fine G.
  Hypothesis Hgr : Forall (fun a => is_group a = true) G.
  Lemma gtexts_length ks : length ks = length G -> length (gtexts G ks) = length G.
  Proof. intros H. unfold gtexts. rewrite map_length, combine_length. lia. Qed.
  Lemma texts_length ss : Forall2 lt ss (tots_of F) -> length (texts F ss) = length F.
  Proof. intros H. apply Forall2_length in H. unfold texts, tots_of in *. rewrite map_length in *. rewrite combine_length. lia. Qed.
  Lemma texts_nth ss i a s : nth_error F i = Some a -> nth_error ss i = Some s -> nth_error (texts F ss) i = Some (txt a s).
  Proof.
    clear HF Hfix. unfold texts. revert ss i. induction F as [|b F' IH]; intros ss i H1 H2; [destruct i; discriminate|]. destruct ss as [|s' ss]; [destruct i; discriminate|].
    destruct i as [|i]; cbn in *; [injection H1 as ->; injection H2 as ->; reflexivity|]. apply IH; auto.
  Qed.
  Lemma pcells_length i x ss : Forall2 lt ss (tots_of F) -> i < length F -> length (pcells i x F ss) = length F.
  Proof. intros H Hi. unfold pcells. rewrite app_length. cbn [length]. rewrite firstn_length, skipn_length, texts_length by auto. lia. Qed.
  Lemma pcells_nth i x ss j : Forall2 lt ss (tots_of F) -> i < length F -> nth_error (pcells i x F ss) j = if Nat.eqb j i then Some (VNumber x) else nth_error (texts F ss) j.
  Proof.
    intros H Hi. unfold pcells. pose proof (texts_length ss H) as L. destruct (Nat.eqb_spec j i) as [->|Hne].
    - rewrite nth_error_app2; rewrite firstn_length, L, Nat.min_l by lia; [|lia]. rewrite Nat.sub_diag. reflexivity.
    - destruct (Nat.lt_ge_cases j i) as [Hl|Hl].
      + rewrite nth_error_app1 by (rewrite firstn_length; lia). clear - Hl. revert i j Hl. generalize (texts F ss). induction l as [|c l IH]; intros i j Hl; [rewrite firstn_nil; reflexivity|].
        destruct i as [|i]; [lia|]. destruct j as [|j]; auto. cbn. apply IH. lia.
      + rewrite nth_error_app2; rewrite firstn_length, L, Nat.min_l by lia; [|lia]. assert (Hj : j - i = S (j - i - 1)) by lia. rewrite Hj. cbn [nth_error].
        assert (X : forall (t : list vcell) m n, nth_error (skipn m t) n = nth_error t (m + n)).
        { induction t as [|c t IH]; intros [|m] n; cbn; auto. destruct n; reflexivity. }
        rewrite X. f_equal. lia.
  Qed.

  Definition keys_fine (ks : list gkey) : Prop := length ks = length G /\ forall i a k, nth_error G i = Some a -> nth_error ks i = Some k -> names_group a k (text_of (gkey_d a k)).
  Lemma groups_named ks : keys_fine ks ->
    Forall2 (fun ak c => exists t, c = VText t /\ names_group (fst ak) (snd ak) t) (combine G ks) (gtexts G ks).
  Proof.
    clear HG Hgr. intros (Hl & H). unfold gtexts. revert ks Hl H. induction G as [|a G' IH]; intros ks Hl H; [constructor|]. destruct ks as [|k ks]; [discriminate|].
    cbn [combine map]. constructor.
    - cbn [fst snd]. eexists. split; [reflexivity|]. apply (H 0); reflexivity.
    - apply IH; [cbn in Hl; lia|]. intros i b k' H1 H2. apply (H (S i)); auto.
  Qed.
  Lemma slot_lt ss i a s : Forall2 lt ss (tots_of F) -> nth_error F i = Some a -> nth_error ss i = Some s -> s < totbins a.
  Proof.
    clear HF Hfix. intros H. revert ss H i. induction F as [|b F' IH]; intros ss H i H1 H2; [destruct i; discriminate|]. inversion H; subst. destruct i as [|i]; cbn in *.
    - injection H1 as <-. injection H2 as <-. auto.
    - eapply IH; eauto.
  Qed.
  Lemma cells_text ks ss : keys_fine ks -> Forall2 lt ss (tots_of F) -> cells G F None (ks, ss) (gtexts G ks ++ texts F ss).
  Proof.
    intros Hk Hs. exists (gtexts G ks), (texts F ss). split; auto. cbn [fst snd]. split; [apply groups_named; auto|]. split; [apply gtexts_length, Hk|]. split; [apply texts_length; auto|].
    intros i a s c H1 H2 H3. rewrite (texts_nth ss i a s H1 H2) in H3. injection H3 as <-. eexists. split; [reflexivity|]. apply names_bin_ok.
    - rewrite Forall_forall in HF. apply HF. eapply nth_error_In; eauto.
    - rewrite Forall_forall in Hfix. apply Hfix. eapply nth_error_In; eauto.
    - eapply slot_lt; eauto.
  Qed.
  Lemma cells_number q x ks ss : q < length F -> keys_fine ks -> Forall2 lt ss (tots_of F) -> cells G F (Some (q, x)) (ks, ss) (gtexts G ks ++ pcells q x F ss).
  Proof.
    intros Hq Hk Hs. exists (gtexts G ks), (pcells q x F ss). split; auto. cbn [fst snd]. split; [apply groups_named; auto|]. split; [apply gtexts_length, Hk|]. split; [apply pcells_length; auto|].
    intros i a s c H1 H2 H3. rewrite pcells_nth in H3 by auto. destruct (Nat.eqb i q); [injection H3 as <-; reflexivity|].
    rewrite (texts_nth ss i a s H1 H2) in H3. injection H3 as <-. eexists. split; [reflexivity|]. apply names_bin_ok.
    - rewrite Forall_forall in HF. apply HF. eapply nth_error_In; eauto.
    - rewrite Forall_forall in Hfix. apply Hfix. eapply nth_error_In; eauto.
    - eapply slot_lt; eauto.
  Qed.
End Rows.

(** The groups of a histogram have labels. *)
Lemma block_key c : forall ks, block c ks <> None -> forall i k, nth_error ks i = Some k -> key_at c (firstn i ks) k.
Proof.
  intros ks. revert c. induction ks as [|k0 ks IH]; intros c Hb i k Hi; [destruct i; discriminate|]. destruct c as [|d|lc]; cbn in Hb; try congruence.
  destruct (assoc k0 lc) as [x|] eqn:E; [|congruence]. destruct i as [|i]; cbn [nth_error firstn] in *.
  - injection Hi as <-. exists lc. split; auto. apply assoc_in in E. apply (in_map fst) in E. exact E.
  - destruct (IH x Hb i k Hi) as (l' & S1 & I1). exists l'. cbn [sub]. rewrite E. auto.
Qed.
Lemma group_named a k : axis_fine a -> is_group a = true -> (exists v, value_fine a v /\ in_group a v k) ->
  (forall e w org nf cl, a = AGroupbin e w org nf cl -> exists x, k = GNum x) -> names_group a k (text_of (gkey_d a k)).
Proof.
  intros Ha Hg Hv Hn. destruct (group_label_ok a k Ha Hg Hv) as (lb & E & S). destruct a; try discriminate; [reflexivity|].
  destruct (Hn _ _ _ _ _ eq_refl) as (x & ->). cbn [gkey_d text_of names_group group_label shows_group] in *. eexists. split; [reflexivity|].
  unfold pd_interval in E. destruct (nleb _ _); [|discriminate]. injection E as <-. intros y Hy. cbn [contains]. apply (S y). auto.
Qed.
Lemma groups_fine G c ks : Forall axis_fine G -> Forall (fun a => is_group a = true) G -> real_groups G c -> number_keys G c -> length ks = length G -> block c ks <> None -> keys_fine G ks.
Proof.
  intros HG Hg Hr Hn Hl Hb. split; auto. intros i a k H1 H2. pose proof (block_key c ks Hb i k H2) as K.
  assert (Hi : i < length ks) by (apply nth_error_Some; congruence). assert (L : length (firstn i ks) = i) by (rewrite firstn_length; lia).
  rewrite Forall_forall in HG, Hg. apply nth_error_In in H1 as Hin. apply group_named; auto.
  - apply (Hr (firstn i ks) k a K). rewrite L. auto.
  - intros e w org nf cl ->. apply (Hn (firstn i ks) k e w org nf cl K). rewrite L. auto.
Qed.
