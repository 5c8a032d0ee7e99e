(** Consequences of the fill theorem: chunks, permutations, totals, NaN weights and filters. *)
From Coq Require Import String Permutation.
From Verif Require Import Base Num NumFacts Axis Calc Content Fill FillSpec AxisProofs2 FillProofs FillProofs2 FillProofs3.

Lemma fill_ok L ng m rows c : fill_pre L ng m rows c ->
  exists c', fill_rows L ng m rows c = (c', None) /\ content_ok L ng c' /\
    (forall ks ss kd, in_shape L ss -> has_column L kd ->
       cell L c' ks ss (column_of L kd) =
       nadd (cell L c ks ss (column_of L kd))
            (nsum (map (row_adds m kd) (filter (in_cell ks ss) rows)))) /\
    (forall ks, block c' ks <> None <-> block (prefill L ng c) ks <> None \/
       Forall2 (fun k j => exists r, In r rows /\ nth j (r_keys r) None = Some k) ks (seq 0 ng)).
Proof. intros [H1 [H2 [H3 [H4 H5]]]]. apply fill_rows_ok; auto. Qed.

(** ** Every position of a block is a cell. *)
Lemma ravel_surj ts : forall i, i < prod ts -> exists ss, Forall2 lt ss ts /\ ravel ts ss = i.
Proof.
  induction ts as [|t ts IH]; simpl; intros i Hi.
  - exists []. split; auto. lia.
  - fold (prod ts) in *. assert (0 < prod ts) by nia.
    destruct (IH (i mod prod ts)) as [ss [H1 H2]]; [apply Nat.mod_upper_bound; lia|].
    exists (i / prod ts :: ss). split.
    + constructor; auto. apply Nat.div_lt_upper_bound; nia.
    + simpl. fold (prod ts). rewrite H2. pose proof (Nat.div_mod i (prod ts)). nia.
Qed.
Lemma column_surj L c : c < l_last L -> exists kd, has_column L kd /\ column_of L kd = c.
Proof.
  unfold l_last. intros H. destruct (even_odd_cases c) as [[E _]|[E _]].
  - destruct (Nat.lt_ge_cases (c / 2) (l_nprof L)).
    + exists (SumWX (c / 2)). simpl. split; auto; lia.
    + exists SumW. simpl. split; auto. destruct (l_weighted L); lia.
  - destruct (Nat.lt_ge_cases (c / 2) (l_nprof L)).
    + exists (SumWX2 (c / 2)). simpl. split; auto; lia.
    + exists SumW2. simpl. destruct (l_weighted L) eqn:Ew; split; auto; lia.
Qed.
Lemma l_last_pos L : 0 < l_last L.
Proof. unfold l_last. destruct (l_weighted L); lia. Qed.
Lemma pos_surj L pos : pos < l_size L ->
  exists ss kd, in_shape L ss /\ has_column L kd /\ ravel (l_tots L) ss * l_last L + column_of L kd = pos.
Proof.
  unfold l_size. intros H. pose proof (l_last_pos L) as Hp.
  destruct (ravel_surj (l_tots L) (pos / l_last L)) as [ss [H1 H2]].
  { change (prod (l_tots L)) with (l_rows L). apply Nat.div_lt_upper_bound; nia. }
  destruct (column_surj L (pos mod l_last L)) as [kd [H3 H4]]; [apply Nat.mod_upper_bound; lia|].
  exists ss, kd. split; auto. split; auto. rewrite H2, H4.
  pose proof (Nat.div_mod pos (l_last L)). nia.
Qed.

Lemma block_length L n c ks d : content_ok L n c -> block c ks = Some d -> length d = l_size L.
Proof.
  revert c ks. induction n as [|n IH]; intros c ks Hc Hb; destruct c as [|d0|l]; try contradiction.
  - destruct ks; simpl in *; inversion Hb; subst; auto.
  - destruct ks as [|k ks]; simpl in *; [discriminate|]. destruct (assoc k l) as [c'|] eqn:E; [|discriminate].
    destruct Hc as [Hc _]. rewrite Forall_forall in Hc. apply (IH c' ks); auto. apply (Hc (k, c')). apply assoc_in; auto.
Qed.

Lemma bv_out L n c ks pos : content_ok L n c -> l_size L <= pos -> bv c ks pos = nzero.
Proof.
  intros Hc Hp. unfold bv. destruct (block c ks) eqn:E; auto.
  apply nth_overflow. erewrite block_length; eauto.
Qed.

Lemma same_cells_intro L n a b : content_ok L n a -> content_ok L n b ->
  (forall ks ss kd, in_shape L ss -> has_column L kd -> cell L a ks ss (column_of L kd) = cell L b ks ss (column_of L kd)) ->
  same_cells L a b.
Proof.
  intros Ha Hb H ks ss j.
  assert (G : forall pos, bv a ks pos = bv b ks pos).
  { intros pos. destruct (Nat.lt_ge_cases pos (l_size L)) as [Hl|Hl].
    - destruct (pos_surj L pos Hl) as [ss' [kd [H1 [H2 <-]]]]. apply (H ks ss' kd H1 H2).
    - rewrite !(bv_out L n) by auto. reflexivity. }
  apply G.
Qed.

Lemma same_content_intro L n a b : content_ok L n a -> content_ok L n b ->
  same_cells L a b -> (forall ks, block a ks <> None <-> block b ks <> None) -> same_content a b.
Proof.
  intros Ha Hb Hc He ks. specialize (He ks).
  destruct (block a ks) as [d|] eqn:E1, (block b ks) as [d'|] eqn:E2; auto.
  - f_equal. apply nth_ext_num.
    + rewrite (block_length L n a ks d), (block_length L n b ks d'); auto.
    + intros i _. specialize (Hc ks [] i). unfold cell in Hc. rewrite E1, E2 in Hc.
      destruct (l_tots L); exact Hc.
  - exfalso. apply (proj1 He); congruence.
  - exfalso. apply (proj2 He); congruence.
Qed.

Lemma same_cells_of_content L a b : same_content a b -> same_cells L a b.
Proof. intros H ks ss j. unfold cell. rewrite H. reflexivity. Qed.

(** ** C10: fresh histogram *)
Lemma c10_fill L ng m rows c : fill_pre L ng m rows c ->
  exists c', fill_rows L ng m rows c = (c', None) /\ content_ok L ng c' /\
    forall ks ss kd, in_shape L ss -> has_column L kd ->
       cell L c' ks ss (column_of L kd) =
       nadd (cell L c ks ss (column_of L kd))
            (nsum (map (row_adds m kd) (filter (in_cell ks ss) rows))).
Proof.
  intros H. destruct (fill_ok _ _ _ _ _ H) as [c' [E [Hc [Hv _]]]]. exists c'. auto.
Qed.

Lemma c10_counts L ng rows : l_weighted L = false -> fill_pre L ng Unweighted rows CNone ->
  exists c', fill_rows L ng Unweighted rows CNone = (c', None) /\
    forall ks ss, in_shape L ss ->
      cell L c' ks ss (column_of L SumW) = nnat (length (filter (in_cell ks ss) rows)).
Proof.
  intros _ H. destruct (fill_ok _ _ _ _ _ H) as [c' [E [Hc [Hv _]]]]. exists c'. split; auto.
  intros ks ss Hs. rewrite Hv by (auto; exact I).
  replace (cell L CNone ks ss (column_of L SumW)) with nzero by (unfold cell; destruct ks; reflexivity).
  rewrite nadd_0_l. cbn [row_adds row_weight]. apply nsum_map_one.
Qed.

(** which blocks exist *)
Lemma c10_blocks L ng m rows c : fill_pre L ng m rows c ->
  exists c', fill_rows L ng m rows c = (c', None) /\
    forall ks, length ks = ng ->
      (block c' ks <> None <->
       block (prefill L ng c) ks <> None \/
       forall j, j < ng -> exists r k, In r rows /\ nth_error ks j = Some k /\ nth j (r_keys r) None = Some k).
Proof.
  intros H. destruct (fill_ok _ _ _ _ _ H) as [c' [E [Hc [_ Hb]]]]. exists c'. split; auto.
  intros ks Hk. rewrite Hb. apply or_iff_compat_l.
  assert (G : forall n ks a, length ks = n ->
    (Forall2 (fun k j => exists r, In r rows /\ nth j (r_keys r) None = Some k) ks (seq a n) <->
     forall j, j < n -> exists r k, In r rows /\ nth_error ks j = Some k /\ nth (a + j) (r_keys r) None = Some k)).
  { clear. induction n as [|n IH]; intros ks a Hk; destruct ks as [|k ks]; simpl in Hk; try lia; simpl.
    - split; [lia|constructor].
    - split.
      + intros HF. inversion HF as [|? ? ? ? [r [H1 H2]] H3]; subst. intros [|j] Hj.
        * exists r, k. rewrite Nat.add_0_r. auto.
        * apply IH with (j := j) in H3; [|lia|lia]. destruct H3 as [r' [k' [H4 [H5 H6]]]]. exists r', k'.
          replace (a + S j) with (S a + j) by lia. auto.
      + intros HA. constructor.
        * destruct (HA 0 ltac:(lia)) as [r [k' [H1 [H2 H3]]]]. simpl in H2. inversion H2; subst.
          rewrite Nat.add_0_r in H3. eauto.
        * apply IH; [lia|]. intros j Hj. destruct (HA (S j) ltac:(lia)) as [r [k' [H1 [H2 H3]]]].
          exists r, k'. replace (S a + j) with (a + S j) by lia. auto. }
  apply (G ng ks 0 Hk).
Qed.

(** ** C14, C15 *)
Lemma pre_content L ng m rows c c' : fill_pre L ng m rows c -> content_ok L ng c' -> fill_pre L ng m rows c'.
Proof. intros [H1 [H2 [H3 [H4 H5]]]] H. repeat split; auto. right; auto. Qed.
Lemma pre_app L ng m a b c : fill_pre L ng m (a ++ b) c <-> fill_pre L ng m a c /\ fill_pre L ng m b c.
Proof.
  unfold fill_pre, no_masked_profile. rewrite !Forall_app. tauto.
Qed.
Lemma block_notnone_length L n c ks : content_ok L n c -> block c ks <> None -> length ks = n.
Proof.
  revert c ks. induction n as [|n IH]; intros c ks Hc Hb; destruct c as [|d0|l]; try contradiction.
  - destruct ks; simpl in *; auto; congruence.
  - destruct ks as [|k ks]; simpl in *; [congruence|]. destruct (assoc k l) as [c'|] eqn:E; [|congruence].
    f_equal. destruct Hc as [Hc _]. rewrite Forall_forall in Hc. apply (IH c' ks); auto. apply (Hc (k, c')). apply assoc_in; auto.
Qed.

Lemma c14_cells L ng m a b c : fill_pre L ng m (a ++ b) c ->
  exists c1 c2 c3, fill_rows L ng m a c = (c1, None) /\ fill_rows L ng m b c1 = (c2, None) /\
    fill_rows L ng m (a ++ b) c = (c3, None) /\ same_cells L c2 c3 /\ content_ok L ng c2 /\
    (ng <= 1 -> same_content c2 c3).
Proof.
  intros H. destruct (proj1 (pre_app _ _ _ _ _ _) H) as [Ha Hb].
  destruct (fill_ok _ _ _ _ _ Ha) as [c1 [E1 [H1 [V1 B1]]]].
  destruct (fill_ok _ _ _ _ _ (pre_content _ _ _ _ _ _ Hb H1)) as [c2 [E2 [H2 [V2 B2]]]].
  destruct (fill_ok _ _ _ _ _ H) as [c3 [E3 [H3 [V3 B3]]]].
  exists c1, c2, c3. repeat split; auto.
  - apply (same_cells_intro L ng); auto. intros ks ss kd Hs Hk.
    rewrite V2, V1, V3 by auto. rewrite filter_app, map_app, nsum_app, nadd_assoc. reflexivity.
  - intros Hn. apply (same_content_intro L ng); auto.
    { apply (same_cells_intro L ng); auto. intros ks ss kd Hs Hk.
      rewrite V2, V1, V3 by auto. rewrite filter_app, map_app, nsum_app, nadd_assoc. reflexivity. }
    intros ks. rewrite B2, B3.
    assert (Ep : prefill L ng c1 = c1) by (unfold prefill; destruct c1; auto; destruct ng; contradiction).
    rewrite Ep, B1. destruct ng as [|[|n]]; [| |lia]; simpl.
    + assert (Hnil : forall (P Q : gkey -> nat -> Prop), Forall2 P ks [] -> Forall2 Q ks [])
        by (intros P Q HF; inversion HF; constructor).
      split; [intros [[HH|HH]|HH]|intros [HH|HH]]; eauto.
    + split.
      * intros [[HH|HH]|HH]; auto; right; inversion HH as [|? ? ? ? [r [Hr Ek]] Hn2]; subst; (constructor; [exists r; rewrite in_app_iff; auto|inversion Hn2; constructor]).
      * intros [HH|HH]; auto. inversion HH as [|? ? ? ? [r [Hr Ek]] Hn2]; subst.
        apply in_app_iff in Hr. destruct Hr as [Hr|Hr]; [left; right|right]; (constructor; [eauto|inversion Hn2; constructor]).
Qed.

Lemma perm_filter {A} (p : A -> bool) l l' : Permutation l l' -> Permutation (filter p l) (filter p l').
Proof.
  induction 1; simpl; auto.
  - destruct (p x); auto.
  - destruct (p x), (p y); auto. apply perm_swap.
  - etransitivity; eauto.
Qed.

Lemma pre_perm L ng m a b c : Permutation a b -> fill_pre L ng m a c -> fill_pre L ng m b c.
Proof.
  intros P [H1 [H2 [H3 [H4 H5]]]]. repeat split; auto.
  - eapply Permutation_Forall; eauto.
  - destruct H5; [left; auto|right]. eapply Permutation_Forall; eauto.
Qed.

Lemma c15_perm L ng m a b c : Permutation a b -> fill_pre L ng m a c ->
  exists c1 c2, fill_rows L ng m a c = (c1, None) /\ fill_rows L ng m b c = (c2, None) /\ same_content c1 c2.
Proof.
  intros P H. pose proof (pre_perm _ _ _ _ _ _ P H) as H'.
  destruct (fill_ok _ _ _ _ _ H) as [c1 [E1 [H1 [V1 B1]]]].
  destruct (fill_ok _ _ _ _ _ H') as [c2 [E2 [H2 [V2 B2]]]].
  exists c1, c2. repeat split; auto.
  apply (same_content_intro L ng); auto.
  - apply (same_cells_intro L ng); auto. intros ks ss kd Hs Hk. rewrite V1, V2 by auto. f_equal.
    apply nsum_perm, Permutation_map, perm_filter; auto.
  - intros ks. rewrite B1, B2. apply or_iff_compat_l. clear - P.
    assert (G : forall a b, Permutation a b -> forall l,
      Forall2 (fun k j => exists r, In r a /\ nth j (r_keys r) None = Some k) ks l ->
      Forall2 (fun k j => exists r, In r b /\ nth j (r_keys r) None = Some k) ks l).
    { clear. intros a b P l HF. induction HF as [|k j ks l [r [Hr E]] HF IH]; constructor; auto.
      exists r. split; auto. eapply Permutation_in; eauto. }
    split; apply G; auto using Permutation_sym.
Qed.

(** Congruence: equal cells before, equal cells after. *)
Lemma fill_same_cells L ng m rows c c' : fill_pre L ng m rows c -> hist_ok L ng c' -> same_cells L c c' ->
  exists d d', fill_rows L ng m rows c = (d, None) /\ fill_rows L ng m rows c' = (d', None) /\
    content_ok L ng d /\ content_ok L ng d' /\ same_cells L d d'.
Proof.
  intros H Hc' Hs.
  assert (H' : fill_pre L ng m rows c') by (destruct H as [? [? [? [? ?]]]]; repeat split; auto).
  destruct (fill_ok _ _ _ _ _ H) as [c1 [E1 [H1 [V1 _]]]].
  destruct (fill_ok _ _ _ _ _ H') as [c2 [E2 [H2 [V2 _]]]].
  exists c1, c2. repeat split; auto. apply (same_cells_intro L ng); auto. intros.
  rewrite V1, V2 by auto. rewrite Hs. reflexivity.
Qed.

Lemma same_cells_sym L a b : same_cells L a b -> same_cells L b a.
Proof. intros H ks ss j. symmetry. apply H. Qed.
Lemma same_cells_trans L a b c : same_cells L a b -> same_cells L b c -> same_cells L a c.
Proof. intros H H' ks ss j. rewrite H. apply H'. Qed.

(** any way of cutting the data into chunks *)
Lemma c14_chunks L ng m chunks : forall c, fill_pre L ng m (concat chunks) c -> chunks <> [] ->
  exists c1 c2, fill_all L ng m chunks c = (c1, None) /\ fill_rows L ng m (concat chunks) c = (c2, None) /\
    content_ok L ng c1 /\ same_cells L c1 c2.
Proof.
  induction chunks as [|a rest IH]; intros c H Hn; [congruence|]. simpl in *.
  destruct (c14_cells _ _ _ _ _ _ H) as [c1 [c2 [c3 [E1 [E2 [E3 [S [Ok2 _]]]]]]]].
  rewrite E1. destruct (proj1 (pre_app _ _ _ _ _ _) H) as [Ha Hb].
  assert (Ok1 : content_ok L ng c1).
  { destruct (fill_ok _ _ _ _ _ Ha) as [x [Ex [Hx _]]]. congruence. }
  destruct rest as [|b rest].
  - simpl in *. exists c1, c3. repeat split; auto.
    destruct (fill_ok _ _ _ _ _ H) as [x [Ex [Hx [Vx _]]]].
    destruct (fill_ok _ _ _ _ _ Ha) as [y [Ey [Hy [Vy _]]]].
    assert (x = c3) by congruence. assert (y = c1) by congruence. subst x y.
    apply (same_cells_intro L ng); auto. intros. rewrite Vx, Vy by auto. rewrite app_nil_r. reflexivity.
  - destruct (IH c1) as [d1 [d2 [F1 [F2 [O1 S1]]]]]; [apply (pre_content _ _ _ _ _ _ Hb Ok1)|congruence|].
    exists d1, c3. repeat split; auto.
    assert (d2 = c2) by congruence. subst d2. eapply same_cells_trans; eauto.
Qed.

(** ** C06 *)
Lemma c06_groups L m chunks : forall c, fill_pre L 1 m (concat chunks) c -> chunks <> [] ->
  exists c', fill_all L 1 m chunks c = (c', None) /\
    forall k, block c' [k] <> None <-> block c [k] <> None \/ exists r, In r (concat chunks) /\ r_keys r = [Some k].
Proof.
  induction chunks as [|a rest IH]; intros c H Hn; [congruence|]. cbn [concat fill_all] in *.
  destruct (proj1 (pre_app _ _ _ _ _ _) H) as [Ha Hb].
  destruct (fill_ok _ _ _ _ _ Ha) as [c1 [E1 [H1 [_ B1]]]]. rewrite E1.
  assert (G : forall k, block c1 [k] <> None <-> block c [k] <> None \/ exists r, In r a /\ r_keys r = [Some k]).
  { intros k. rewrite B1.
    assert (Ep : block (prefill L 1 c) [k] = block c [k]) by (unfold prefill; destruct c; reflexivity).
    rewrite Ep. apply or_iff_compat_l. simpl.
    destruct Ha as [_ [_ [Hr _]]]. rewrite Forall_forall in Hr.
    split.
    - intros HH. inversion HH as [|? ? ? ? [r [Hi E]] _]; subst. exists r. split; auto.
      destruct (Hr r Hi) as [Hl _]. destruct (r_keys r) as [|x [|y l]]; simpl in *; try lia. congruence.
    - intros [r [Hi E]]. constructor; auto. exists r. rewrite E. auto. }
  destruct rest as [|b rest].
  - simpl. exists c1. split; auto. rewrite app_nil_r. auto.
  - destruct (IH c1) as [c2 [E2 G2]]; [apply (pre_content _ _ _ _ _ _ Hb H1)|congruence|].
    exists c2. split; auto. intros k. rewrite G2, G. generalize (concat (b :: rest)). intros X. setoid_rewrite in_app_iff.
    split.
    + intros [[?|[r [? ?]]]|[r [? ?]]]; auto; right; exists r; auto.
    + intros [?|[r [[?|?] ?]]]; auto; [left; right|right]; exists r; auto.
Qed.

(** ** C12, C13 *)
Lemma nsum_drop_zero {A} (g : A -> Num) (p q : A -> bool) l :
  (forall r, In r l -> q r = false -> g r = nzero) ->
  nsum (map g (filter p l)) = nsum (map g (filter p (filter q l))).
Proof.
  induction l as [|r l IH]; intros H; auto. cbn [filter].
  assert (IH' := IH (fun x h => H x (or_intror h))). clear IH.
  destruct (q r) eqn:Eq; cbn [filter]; destruct (p r); cbn [map]; rewrite ?nsum_cons, IH'; auto.
  rewrite (H r) by (simpl; auto). apply nadd_0_l.
Qed.

Lemma nmul_fin_zero x : isfin x = true -> nmul x nzero = nzero.
Proof. destruct x; try discriminate. intros _. simpl. unfold nzero. f_equal. qc_eq. Qed.
Lemma zero_weight_adds_nothing L ng m r kd : row_ok L ng r -> has_column L kd -> finite_profiles r ->
  row_weight m r = nzero -> row_weight2 m r = nzero -> row_adds m kd r = nzero.
Proof.
  intros [_ [_ [_ Hl]]] Hk Hf Hw Hw2.
  destruct kd as [p|p| |]; cbn [row_adds has_column] in *; auto; rewrite Hw; apply nmul_fin_zero;
    unfold finite_profiles in Hf; rewrite Forall_forall in Hf; apply (Hf (nth p (r_prof r) (nzero, nzero)));
    apply nth_In; lia.
Qed.

Lemma pre_filter L ng m rows q c : fill_pre L ng m rows c -> fill_pre L ng m (filter q rows) c.
Proof.
  assert (G : incl (filter q rows) rows) by (intros x Hx; apply filter_In in Hx; tauto).
  intros [H1 [H2 [H3 [H4 H5]]]]. repeat split; auto.
  - eapply incl_Forall; eauto.
  - destruct H5; [left; auto|right]. eapply incl_Forall; eauto.
Qed.

Lemma c12_nan L ng rows c : fill_pre L ng ExprWeight rows c ->
  (forall r, In r rows -> r_w r = NaN -> finite_profiles r) ->
  exists c1 c2, fill_rows L ng ExprWeight rows c = (c1, None) /\
    fill_rows L ng ExprWeight (filter (fun r => negb (isnan (r_w r))) rows) c = (c2, None) /\ same_cells L c1 c2.
Proof.
  intros H Hfin. pose proof (pre_filter _ _ _ _ (fun r => negb (isnan (r_w r))) _ H) as H'.
  destruct (fill_ok _ _ _ _ _ H) as [c1 [E1 [H1 [V1 _]]]].
  destruct (fill_ok _ _ _ _ _ H') as [c2 [E2 [H2 [V2 _]]]].
  exists c1, c2. repeat split; auto. apply (same_cells_intro L ng); auto. intros ks ss kd Hs Hk.
  rewrite V1, V2 by auto. f_equal. apply nsum_drop_zero. intros r Hr Hq.
  destruct H as [_ [_ [H3 _]]]. rewrite Forall_forall in H3.
  destruct (isnan (r_w r)) eqn:En; [|discriminate].
  eapply zero_weight_adds_nothing; eauto.
  - apply Hfin; auto. destruct (r_w r); try discriminate; auto.
  - cbn [row_weight]. rewrite En. auto.
  - cbn [row_weight2]. rewrite En. auto.
Qed.

Lemma pre_map L ng m rows c (t : row -> row) :
  (forall r, r_keys (t r) = r_keys r /\ r_slots (t r) = r_slots r /\ r_prof (t r) = r_prof r) ->
  fill_pre L ng m rows c -> fill_pre L ng m (map t rows) c.
Proof.
  intros Ht [H1 [H2 [H3 [H4 H5]]]]. repeat split; auto.
  - apply Forall_map. eapply Forall_impl; [|exact H3]. intros r [G1 [G2 [G3 G4]]].
    destruct (Ht r) as [K1 [K2 K3]]. repeat split; rewrite ?K1, ?K2, ?K3; auto.
  - destruct H5 as [H5|H5]; [left; auto|right]. apply Forall_map. eapply Forall_impl; [|exact H5].
    intros r G. unfold unmasked. destruct (Ht r) as [K1 [K2 K3]]. rewrite K2. auto.
Qed.

Lemma filter_map_swap {A B} (p : B -> bool) (t : A -> B) l : filter p (map t l) = map t (filter (fun x => p (t x)) l).
Proof. induction l; simpl; auto. destruct (p (t a)); simpl; congruence. Qed.

Lemma nmul_zero_cases w : nmul nzero w = nzero \/ nmul nzero w = NaN.
Proof. destruct w; simpl; auto. left. unfold nzero. f_equal. qc_eq. Qed.

Lemma c13_filter L ng keep rows c : fill_pre L ng ExprWeight rows c ->
  (forall r, In r rows -> r_w2 r = nmul (r_w r) (r_w r)) ->
  (forall r, In r rows -> keep r = false -> finite_profiles r) ->
  exists c1 c2, fill_rows L ng ExprWeight (map (filtered keep) rows) c = (c1, None) /\
    fill_rows L ng ExprWeight (filter keep rows) c = (c2, None) /\ same_cells L c1 c2.
Proof.
  intros H Hsq Hfin.
  pose proof (pre_filter _ _ _ _ keep _ H) as H'.
  assert (H'' : fill_pre L ng ExprWeight (map (filtered keep) rows) c).
  { apply pre_map; auto. }
  destruct (fill_ok _ _ _ _ _ H'') as [c1 [E1 [H1 [V1 _]]]].
  destruct (fill_ok _ _ _ _ _ H') as [c2 [E2 [H2 [V2 _]]]].
  exists c1, c2. repeat split; auto. apply (same_cells_intro L ng); auto. intros ks ss kd Hs Hk.
  rewrite V1, V2 by auto. f_equal. rewrite filter_map_swap, map_map.
  rewrite (filter_ext _ (in_cell ks ss)) by reflexivity.
  destruct H as [_ [_ [H3 _]]]. rewrite Forall_forall in H3.
  rewrite (nsum_drop_zero (fun x => row_adds ExprWeight kd (filtered keep x)) (in_cell ks ss) keep).
  - f_equal. apply map_ext_in. intros r Hr. apply filter_In in Hr. destruct Hr as [Hr _].
    apply filter_In in Hr. destruct Hr as [Hr Hkp].
    destruct kd; cbn [row_adds row_weight row_weight2 filtered r_w r_w2 r_prof]; rewrite Hkp, ?nmul_1_l, ?(Hsq r Hr); reflexivity.
  - intros r Hr Hkp.
    eapply (zero_weight_adds_nothing L ng).
    + destruct (H3 r Hr) as [G1 [G2 [G3 G4]]]. repeat split; auto.
    + auto.
    + apply (Hfin r Hr Hkp).
    + cbn [row_weight filtered r_w]. rewrite Hkp. destruct (nmul_zero_cases (r_w r)) as [->| ->]; auto.
    + cbn [row_weight2 filtered r_w r_w2]. rewrite Hkp. destruct (nmul_zero_cases (r_w r)) as [->| ->]; auto.
Qed.

Lemma c13_filter_unweighted L ng keep rows : fill_pre L ng ExprWeight rows CNone ->
  (forall r, In r rows -> keep r = false -> finite_profiles r) ->
  exists c1 c2, fill_rows L ng ExprWeight (map (filtered1 keep) rows) CNone = (c1, None) /\
    fill_rows (unweighted L) ng Unweighted (filter keep rows) CNone = (c2, None) /\
    forall ks ss kd, in_shape L ss -> has_column L kd ->
      cell L c1 ks ss (column_of L kd) =
      match kd with
      | SumW2 => cell (unweighted L) c2 ks ss (column_of (unweighted L) SumW)
      | _ => cell (unweighted L) c2 ks ss (column_of (unweighted L) kd)
      end.
Proof.
  intros H Hfin.
  assert (H' : fill_pre (unweighted L) ng Unweighted (filter keep rows) CNone).
  { destruct (pre_filter _ _ _ _ keep _ H) as [G1 [G2 [G3 [G4 G5]]]]. repeat split; auto. left; auto. }
  assert (H'' : fill_pre L ng ExprWeight (map (filtered1 keep) rows) CNone) by (apply pre_map; auto).
  destruct (fill_ok _ _ _ _ _ H'') as [c1 [E1 [H1 [V1 _]]]].
  destruct (fill_ok _ _ _ _ _ H') as [c2 [E2 [H2 [V2 _]]]].
  exists c1, c2. repeat split; auto. intros ks ss kd Hs Hk.
  rewrite V1 by auto.
  assert (Z : forall L j, cell L CNone ks ss j = nzero) by (intros; unfold cell; destruct ks; reflexivity).
  rewrite Z, nadd_0_l.
  destruct H as [_ [_ [H3 _]]]. rewrite Forall_forall in H3.
  rewrite filter_map_swap, map_map. rewrite (filter_ext _ (in_cell ks ss)) by reflexivity.
  rewrite (nsum_drop_zero (fun x => row_adds ExprWeight kd (filtered1 keep x)) (in_cell ks ss) keep).
  - destruct kd as [p|p| |]; rewrite V2; auto; try exact I; rewrite Z, nadd_0_l; f_equal; apply map_ext_in;
    intros r Hr; apply filter_In in Hr; destruct Hr as [Hr _]; apply filter_In in Hr; destruct Hr as [Hr Hkp];
    cbn [row_adds row_weight row_weight2 filtered1 r_w r_w2 r_prof]; rewrite Hkp; reflexivity.
  - intros r Hr Hkp.
    eapply (zero_weight_adds_nothing L ng).
    + destruct (H3 r Hr) as [G1 [G2 [G3 G4]]]. repeat split; auto.
    + auto.
    + apply (Hfin r Hr Hkp).
    + cbn [row_weight filtered1 r_w]. rewrite Hkp. auto.
    + cbn [row_weight2 filtered1 r_w r_w2]. rewrite Hkp. reflexivity.
Qed.

(** ** C11 *)
Lemma nsum_cells {C A} (P : C -> A -> bool) (keep : A -> bool) (g : A -> Num) (cells : list C) rows :
  NoDup cells ->
  (forall r, In r rows -> keep r = false -> forall c, In c cells -> P c r = false) ->
  (forall r, In r rows -> keep r = true -> exists c, In c cells /\ P c r = true) ->
  (forall r c c', P c r = true -> P c' r = true -> In c cells -> In c' cells -> c = c') ->
  nsum (map (fun c => nsum (map g (filter (P c) rows))) cells) = nsum (map g (filter keep rows)).
Proof.
  intros Hn. induction rows as [|r rows IH]; intros H1 H2 H3; simpl.
  - apply nsum_zero. intros x Hx. apply in_map_iff in Hx. destruct Hx as [c [<- _]]. reflexivity.
  - assert (E : nsum (map (fun c => nsum (map g (if P c r then r :: filter (P c) rows else filter (P c) rows))) cells)
      = nadd (nsum (map (fun c => if P c r then g r else nzero) cells))
             (nsum (map (fun c => nsum (map g (filter (P c) rows))) cells))).
    { rewrite <- nsum_map_add. f_equal. apply map_ext. intros c. destruct (P c r); auto. rewrite nadd_0_l. auto. }
    rewrite E, IH; clear E IH; auto; try (intros; eapply H1; simpl; eauto); try (intros; eapply H2; simpl; eauto).
    assert (E : nsum (map (fun c => if P c r then g r else nzero) cells) = if keep r then g r else nzero).
    { destruct (keep r) eqn:Ek.
      - destruct (H2 r (or_introl eq_refl) Ek) as [c0 [Hc0 Hp0]].
        specialize (H3 r). clear H1 H2.
        induction cells as [|c cells IHc]; [inversion Hc0|]. inversion Hn as [|? ? Hnc Hnd]; subst. cbn [map]. rewrite nsum_cons.
        destruct (P c r) eqn:Epc.
        + rewrite nsum_zero; [apply nadd_0_r|]. intros x Hx. apply in_map_iff in Hx. destruct Hx as [c' [<- Hc']].
          destruct (P c' r) eqn:Epc'; auto. exfalso. apply Hnc.
          rewrite (H3 c c'); simpl; auto.
        + destruct Hc0 as [->|Hc0]; [congruence|]. rewrite IHc; auto; [apply nadd_0_l|].
          intros; apply H3; simpl; auto.
      - apply nsum_zero. intros x Hx. apply in_map_iff in Hx. destruct Hx as [c [<- Hc]].
        rewrite (H1 r) by (simpl; auto). reflexivity. }
    rewrite E. destruct (keep r); simpl; auto. apply nadd_0_l.
Qed.

(** paths of the blocks of a content *)
Fixpoint paths (n : nat) (c : content) : list (list gkey) :=
  match n, c with
  | 0, CArr _ => [[]]
  | S m, CDict l => flat_map (fun kv => map (cons (fst kv)) (paths m (snd kv))) l
  | _, _ => []
  end.
Lemma assoc_of_in {A} k (v : A) l : NoDup (map fst l) -> key_ok k -> In (k, v) l -> assoc k l = Some v.
Proof.
  induction l as [|[k1 v1] l IH]; simpl; intros Hn Hk; [tauto|]. inversion Hn; subst.
  intros [E|Hi].
  - inversion E; subst. rewrite gkey_eqb_refl; auto.
  - rewrite gkey_eqb_neq; auto. intros ->. apply H1. apply in_map_iff. exists (k1, v). auto.
Qed.
Lemma paths_spec L n : forall c ks, content_ok L n c -> In ks (paths n c) <-> block c ks <> None.
Proof.
  induction n as [|n IH]; intros c ks Hc; destruct c as [|d|l]; try contradiction; simpl.
  - destruct ks; simpl; split; auto; try congruence; intros [H|[]]; congruence.
  - destruct Hc as [Hc [Hn Hk]]. rewrite in_flat_map. rewrite Forall_forall in Hc, Hk. split.
    + intros [[k c'] [Hi Hm]]. simpl in Hm. apply in_map_iff in Hm. destruct Hm as [ks' [<- Hp]].
      cbn [block]. rewrite (assoc_of_in k c'); auto.
      * apply (IH c' ks'); auto. apply (Hc _ Hi).
      * apply Hk. apply in_map_iff. exists (k, c'); auto.
    + destruct ks as [|k ks]; simpl; [congruence|]. destruct (assoc k l) as [c'|] eqn:E; [|congruence].
      intros Hb. apply assoc_in in E. exists (k, c'). split; auto. simpl. apply in_map.
      apply IH; auto. apply (Hc _ E).
Qed.
Lemma nodup_app {A} (a b : list A) : NoDup a -> NoDup b -> (forall x, In x a -> ~ In x b) -> NoDup (a ++ b).
Proof.
  induction 1; simpl; auto. intros Hb Hd. constructor.
  - rewrite in_app_iff. intros [?|?]; auto. eapply Hd; simpl; eauto.
  - apply IHNoDup; auto; try (intros; apply Hd; simpl; auto).
Qed.
Lemma paths_nodup L n : forall c, content_ok L n c -> NoDup (paths n c).
Proof.
  induction n as [|n IH]; intros c Hc; destruct c as [|d|l]; try contradiction; simpl.
  - repeat constructor; auto.
  - destruct Hc as [Hc [Hn _]]. induction l as [|[k c'] l IHl]; simpl; [constructor|].
    inversion Hc; subst. inversion Hn; subst. apply nodup_app; auto.
    + apply FinFun.Injective_map_NoDup; [intros x y E; congruence|auto].
    + intros x Hx Hy. apply in_map_iff in Hx. destruct Hx as [ks [<- _]].
      apply in_flat_map in Hy. destruct Hy as [[k2 c2] [Hi Hm]]. apply in_map_iff in Hm. destruct Hm as [ks2 [E _]].
      simpl in E. inversion E; subst. apply H3. apply in_map_iff. exists (k, c2); auto.
Qed.

Definition block_total (L : layout) (j : nat) (c : content) (ks : list gkey) : Num :=
  nsum (map (fun i => bv c ks (i * l_last L + j)) (seq 0 (l_rows L))).
Lemma nsum_flat_map {A} (g : A -> list Num) l : nsum (flat_map g l) = nsum (map (fun x => nsum (g x)) l).
Proof. induction l; simpl; auto. rewrite nsum_app, IHl. reflexivity. Qed.
Lemma map_flat_map {A B C} (h : B -> C) (g : A -> list B) l : map h (flat_map g l) = flat_map (fun x => map h (g x)) l.
Proof. induction l; simpl; auto. rewrite map_app, IHl. reflexivity. Qed.
Lemma total_paths L j n : forall c, content_ok L n c ->
  total L n j c = nsum (map (block_total L j c) (paths n c)).
Proof.
  induction n as [|n IH]; intros c Hc; destruct c as [|d|l]; try contradiction; simpl.
  - rewrite nadd_0_r. reflexivity.
  - destruct Hc as [Hc [Hn Hk]]. rewrite Forall_forall in Hc, Hk.
    rewrite map_flat_map, nsum_flat_map. f_equal. apply map_ext_in. intros [k c'] Hi. simpl.
    rewrite map_map. rewrite IH by (apply (Hc _ Hi)). f_equal. apply map_ext. intros ks.
    unfold block_total. f_equal. apply map_ext. intros i. unfold bv. cbn [block].
    rewrite (assoc_of_in k c'); auto. apply Hk. apply in_map_iff. exists (k, c'); auto.
Qed.
Lemma nsum_incl {A} (g : A -> Num) (dec : forall x y : A, {x = y} + {x <> y}) l l' :
  NoDup l -> NoDup l' -> incl l l' -> (forall x, In x l' -> ~ In x l -> g x = nzero) ->
  nsum (map g l) = nsum (map g l').
Proof.
  revert l'. induction l as [|a l IH]; intros l' Hn Hn' Hi Hz.
  - simpl. symmetry. apply nsum_zero. intros x Hx. apply in_map_iff in Hx. destruct Hx as [y [<- Hy]]. apply Hz; auto.
  - assert (Ha : In a l') by (apply Hi; simpl; auto).
    apply in_split in Ha. destruct Ha as [l1 [l2 ->]].
    inversion Hn; subst.
    rewrite (nsum_perm (map g (l1 ++ a :: l2)) (map g (a :: l1 ++ l2))) by (apply Permutation_map, Permutation_sym, Permutation_middle).
    cbn [map]. rewrite !nsum_cons. f_equal. apply IH; auto.
    + eapply NoDup_remove_1; eauto.
    + intros x Hx. assert (In x (l1 ++ a :: l2)) by (apply Hi; simpl; auto).
      apply in_app_iff in H. simpl in H. apply in_app_iff. destruct H as [?|[->|?]]; auto. contradiction.
    + intros x Hx Hnx. apply Hz.
      * apply in_app_iff in Hx. apply in_app_iff. simpl. tauto.
      * intros [->|Hx2]; auto. eapply NoDup_remove_2; eauto.
Qed.
Lemma gkey_dec (x y : gkey) : {x = y} + {x <> y}.
Proof.
  decide equality; [|apply String.string_dec]. decide equality. apply Qc_eq_dec.
Qed.

Lemma all_some {A} (l : list (option A)) :
  forallb (fun o => match o with Some _ => true | None => false end) l = true -> exists l', l = map Some l'.
Proof.
  induction l as [|[x|] l IH]; simpl; intros H; [exists []; auto| |discriminate].
  destruct (IH H) as [l' ->]. exists (x :: l'). auto.
Qed.
Lemma keys_match_spec ks rk : (forall k, In (Some k) rk -> key_ok k) -> keys_match ks rk = true <-> rk = map Some ks.
Proof.
  revert rk; induction ks as [|k ks IH]; intros [|[k'|] rk] Hk; simpl; try (split; congruence).
  rewrite andb_true_iff, IH by (intros; apply Hk; simpl; auto). rewrite gkey_eqb_iff. split.
  - intros [[-> _] ->]. auto.
  - intros E; inversion E; subst. repeat split; auto. apply Hk; simpl; auto.
Qed.

Lemma c11_total L ng m rows c kd : fill_pre L ng m rows c -> has_column L kd ->
  exists c', fill_rows L ng m rows c = (c', None) /\
    total L ng (column_of L kd) c' =
    nadd (total L ng (column_of L kd) c) (nsum (map (row_adds m kd) (filter kept rows))).
Proof.
  intros H Hk. destruct (fill_ok _ _ _ _ _ H) as [c' [E [Hc' [V B]]]]. exists c'. split; auto.
  destruct H as [HL [Hm [Hr [Hc Hnm]]]]. rewrite Forall_forall in Hr.
  assert (Hp : content_ok L ng (prefill L ng c)) by (apply prefill_ok; auto).
  assert (Et : total L ng (column_of L kd) c = total L ng (column_of L kd) (prefill L ng c)).
  { destruct Hc as [->|Hc].
    - destruct ng; simpl; auto. symmetry. apply nsum_zero. intros x Hx. apply in_map_iff in Hx.
      destruct Hx as [i [<- _]]. apply nth_repeat_zero.
    - unfold prefill. destruct c; auto. destruct ng; contradiction. }
  rewrite Et, !(total_paths L _ ng) by auto.
  rewrite (nsum_incl (block_total L (column_of L kd) (prefill L ng c)) (list_eq_dec gkey_dec) (paths ng (prefill L ng c)) (paths ng c')).
  2: { eapply paths_nodup; eauto. } 2: { eapply paths_nodup; eauto. }
  2: { intros ks Hks. apply (paths_spec L ng c' ks Hc'). apply B. left. apply (paths_spec L ng _ ks Hp); auto. }
  2: { intros ks _ Hks. unfold block_total. apply nsum_zero. intros x Hx. apply in_map_iff in Hx.
       destruct Hx as [i [<- _]]. unfold bv. destruct (block (prefill L ng c) ks) eqn:Eb; auto.
       exfalso. apply Hks. apply (paths_spec L ng _ ks Hp). congruence. }
  assert (Hcell : forall ks i, i < l_rows L -> bv c' ks (i * l_last L + column_of L kd) =
     nadd (bv (prefill L ng c) ks (i * l_last L + column_of L kd))
          (nsum (map (row_adds m kd) (filter (fun r => keys_match ks (r_keys r) && hit i (flat_row (l_tots L) (r_slots r))) rows)))).
  { intros ks i Hi. destruct (ravel_surj (l_tots L) i Hi) as [ss [Hs <-]].
    specialize (V ks ss kd Hs Hk). unfold cell in V. unfold bv at 1. rewrite V. rewrite prefill_bv. unfold bv.
    do 3 f_equal. apply filter_ext_in. intros r Hir. unfold in_cell. rewrite hit_flat; auto. apply Hr; auto. }
  set (P := fun (x : list gkey * nat) r => keys_match (fst x) (r_keys r) && hit (snd x) (flat_row (l_tots L) (r_slots r))).
  assert (E2 : nsum (map (block_total L (column_of L kd) c') (paths ng c')) =
    nadd (nsum (map (block_total L (column_of L kd) (prefill L ng c)) (paths ng c')))
         (nsum (map (fun x => nsum (map (row_adds m kd) (filter (P x) rows))) (list_prod (paths ng c') (seq 0 (l_rows L)))))).
  { assert (Elp : forall K, nsum (map (fun x => nsum (map (row_adds m kd) (filter (P x) rows))) (list_prod K (seq 0 (l_rows L)))) =
       nsum (map (fun ks => nsum (map (fun i => nsum (map (row_adds m kd) (filter (P (ks, i)) rows))) (seq 0 (l_rows L)))) K)).
    { induction K as [|ks K IHK]; simpl; auto. rewrite map_app, nsum_app, IHK, map_map. reflexivity. }
    rewrite Elp, <- nsum_map_add. f_equal. apply map_ext. intros ks. unfold block_total.
    rewrite <- nsum_map_add. f_equal. apply map_ext_in. intros i Hi. apply in_seq in Hi.
    apply Hcell. lia. }
  rewrite E2. f_equal. apply nsum_cells.
  - assert (Gp : forall (K : list (list gkey)) (I : list nat), NoDup K -> NoDup I -> NoDup (list_prod K I)).
    { clear. induction 1 as [|k K Hk HK IH]; intros HI; simpl; [constructor|]. apply nodup_app; auto.
      - apply FinFun.Injective_map_NoDup; auto. intros x y E; congruence.
      - intros [x y] Hx Hy. apply in_map_iff in Hx. destruct Hx as [z [E _]]. inversion E; subst.
        apply in_prod_iff in Hy. tauto. }
    apply Gp; [eapply paths_nodup; eauto|apply seq_NoDup].
  - intros r Hir Hkp [ks i] Hci. unfold P; simpl. destruct (Hr r Hir) as [G1 [G2 [G3 G4]]].
    destruct (keys_match ks (r_keys r)) eqn:Em; auto. simpl. apply keys_match_spec in Em; auto.
    destruct (flat_row (l_tots L) (r_slots r)) as [z|] eqn:Ef; auto. exfalso.
    assert (Hn : ~ In None (r_slots r)).
    { intros Hn. apply (flat_row_none (l_tots L)) in Hn; auto. congruence. }
    unfold kept in Hkp. rewrite Em in Hkp. apply andb_false_iff in Hkp. destruct Hkp as [Hkp|Hkp].
    + clear - Hkp. induction ks; simpl in *; congruence.
    + clear - Hkp Hn. induction (r_slots r) as [|[x|] l IH]; simpl in *; try congruence; try tauto.
      all: apply IH; auto.
  - intros r Hir Hkp. destruct (Hr r Hir) as [G1 [G2 [G3 G4]]].
    unfold kept in Hkp. apply andb_true_iff in Hkp. destruct Hkp as [K1 K2].
    apply all_some in K1. destruct K1 as [ks Eks].
    assert (Hn : ~ In None (r_slots r)).
    { apply all_some in K2. destruct K2 as [l' ->]. intros Hn. apply in_map_iff in Hn. destruct Hn as [x [? _]]. discriminate. }
    destruct (flat_row (l_tots L) (r_slots r)) as [z|] eqn:Ef.
    2: { exfalso. apply Hn. apply (flat_row_none (l_tots L)); auto. }
    pose proof (flat_row_range _ _ _ G3 HL Ef) as Hz. change (prod (l_tots L)) with (l_rows L) in Hz.
    exists (ks, Z.to_nat z). split.
    + apply in_prod_iff. split; [|apply in_seq; lia].
      apply (paths_spec L ng c' ks Hc'). apply B. right.
      rewrite <- G1, Eks. clear - Eks Hir.
      assert (G : forall k a, (forall j x, nth_error k j = Some x -> nth (a + j) (r_keys r) None = Some x) ->
         Forall2 (fun k j => exists r, In r rows /\ nth j (r_keys r) None = Some k) k (seq a (length k))).
      { induction k as [|x k IHk]; intros a Ha; simpl; constructor.
        - exists r. split; auto. rewrite <- (Ha 0 x eq_refl). f_equal. lia.
        - apply IHk. intros j y Hj. replace (S a + j) with (a + S j) by lia. apply Ha. auto. }
      rewrite map_length. apply G. intros j x Hj. rewrite Eks. simpl. erewrite nth_error_nth; [reflexivity|].
      rewrite nth_error_map, Hj. reflexivity.
    + unfold P. cbn [fst snd]. rewrite Ef. apply andb_true_iff. split.
      * apply keys_match_spec; auto.
      * cbn [hit]. apply Z.eqb_eq. lia.
  - intros r [ks i] [ks' i'] P1 P2 C1 C2. unfold P in *. cbn [fst snd] in *.
    apply andb_true_iff in P1. apply andb_true_iff in P2. destruct P1 as [A1 B1], P2 as [A2 B2].
    f_equal.
    + clear - A1 A2. revert ks ks' A1 A2. induction (r_keys r) as [|[k|] l IH]; intros [|x ks] [|y ks']; simpl; try congruence.
      rewrite !andb_true_iff, !gkey_eqb_iff. intros [[-> _] H1] [[-> _] H2]. f_equal; auto.
    + destruct (flat_row (l_tots L) (r_slots r)); simpl in *; try discriminate. lia.
Qed.
