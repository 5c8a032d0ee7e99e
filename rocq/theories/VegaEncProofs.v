(** The labels of the data and the order of the colours *)
From Coq Require Import String Sorted Permutation Lia Lqa.
From Verif Require Import Base Num NumFacts Axis AxisSpec AxisProofs Calc Content Fill FillSpec Tree Order Expr HistAlg HistAlgMain CompareProofs Nd Proj Select Table Pandas Vega VegaProofs VegaAxis VegaEnc.
Local Open Scope list_scope.
Local Open Scope nat_scope.

Definition is_intbin (a : axis) : bool := match a with AIntbin _ _ _ _ _ => true | _ => false end.
Lemma mapM_in {A B} (f : A -> res B) l : forall rs, mapM f l = Ok rs -> forall r, In r rs -> exists x, In x l /\ f x = Ok r.
Proof.
  induction l as [|x l IH]; intros rs E r Hr; cbn [mapM] in E.
  - injection E as <-. contradiction.
  - destruct (f x) as [y|] eqn:Ef; [|discriminate]. cbn [bind] in E. destruct (mapM f l) as [ys|] eqn:Em; [|discriminate]. cbn [bind] in E. injection E as <-.
    destruct Hr as [<-|Hr]; [exists x; split; [left|]; auto|]. destruct (IH ys eq_refl r Hr) as (z & Hz & Ez). exists z. split; [right|]; auto.
Qed.
(** The keys that the recursion meets are those it puts into the domains, unless the axis counts integers. *)
Lemma items_listed a c ks is k x : keys_of a c = Ok ks -> items (as_bin a) c = Ok is -> is_intbin a = false -> In (k, x) is -> In k ks.
Proof.
  intros Ek Ei Hn Hin. destruct a; try discriminate; cbn [as_bin] in *; cbn [keys_of] in Ek.
  - rewrite Ei in Ek. injection Ek as <-. apply (in_map fst) in Hin. exact Hin.
  - rewrite Ei in Ek. injection Ek as <-. apply (in_map fst) in Hin. exact Hin.
  - injection Ek as <-. cbn [items] in Ei. destruct (parts c) as [ps|]; [|discriminate]. cbn [bind] in Ei. destruct (Nat.eqb _ _); [|discriminate]. assert (Ei' := f_equal (fun r => match r with Ok y => y | Err _ => [] end) Ei); cbn beta iota in Ei'; rewrite <- Ei' in Hin; apply in_combine_l in Hin; exact Hin.
  - injection Ek as <-. cbn [items] in Ei. destruct (parts c) as [ps|]; [|discriminate]. cbn [bind] in Ei. destruct (Nat.eqb _ _); [|discriminate]. assert (Ei' := f_equal (fun r => match r with Ok y => y | Err _ => [] end) Ei); cbn beta iota in Ei'; rewrite <- Ei' in Hin; apply in_combine_l in Hin; exact Hin.
  - injection Ek as <-. cbn [items] in Ei. destruct (parts c) as [ps|]; [|discriminate]. cbn [bind] in Ei. destruct (Nat.eqb _ _); [|discriminate]. assert (Ei' := f_equal (fun r => match r with Ok y => y | Err _ => [] end) Ei); cbn beta iota in Ei'; rewrite <- Ei' in Hin; apply in_combine_l in Hin; exact Hin.
  - injection Ek as <-. cbn [items] in Ei. destruct (parts c) as [ps|]; [|discriminate]. cbn [bind] in Ei. destruct (Nat.eqb _ _); [|discriminate]. assert (Ei' := f_equal (fun r => match r with Ok y => y | Err _ => [] end) Ei); cbn beta iota in Ei'; rewrite <- Ei' in Hin; apply in_combine_l in Hin; exact Hin.
Qed.
Lemma items_intbin a c is k x : items (as_bin a) c = Ok is -> is_intbin a = true -> In (k, x) is -> In k (map DBin (keys (as_bin a))).
Proof.
  intros Ei Hn Hin. destruct a; try discriminate. cbn [as_bin items] in Ei. destruct (parts c) as [ps|]; [|discriminate]. cbn [bind] in Ei. destruct (Nat.eqb _ _); [|discriminate]. assert (Ei' := f_equal (fun r => match r with Ok y => y | Err _ => [] end) Ei); cbn beta iota in Ei'; rewrite <- Ei' in Hin; apply in_combine_l in Hin; exact Hin.
Qed.

(** A cell of a row: a label of its axis, or a number if it is the plotted axis. *)
Definition cell_of (l : last1d) (lastj : nat) (ds : list (axis * list dkey)) (i : nat) (a : axis) (c : vcell) : Prop :=
  match c with
  | VNumber _ => i = lastj /\ quantitative l = true
  | VText t => exists k, t = text_of k /\ if is_intbin a then In k (map DBin (keys (as_bin a))) else exists ks, In (a, ks) ds /\ In k ks
  end.
Lemma cell_mono l lastj ds ds' i a c : (forall x, In x ds -> In x ds') -> cell_of l lastj ds i a c -> cell_of l lastj ds' i a c.
Proof.
  intros H. unfold cell_of. destruct c; auto. intros (k & E & Hk). exists k. split; auto. destruct (is_intbin a); auto. destruct Hk as (ks & H1 & H2). exists ks. auto.
Qed.
Definition row_of (l : last1d) (lastj : nat) (ds : list (axis * list dkey)) (j : nat) (axes : list axis) (row r : list vcell) : Prop :=
  exists cs ns, r = row ++ cs ++ map VNumber ns /\ length cs = length axes /\
    forall i a c, nth_error axes i = Some a -> nth_error cs i = Some c -> cell_of l lastj ds (j + i) a c.
Lemma row_cons l lastj ds ds' j a axes row c r : cell_of l lastj ds' j a c -> (forall x, In x ds -> In x ds') ->
  row_of l lastj ds (S j) axes (row ++ [c]) r -> row_of l lastj ds' j (a :: axes) row r.
Proof.
  intros Hc Hd (cs & ns & -> & Hl & H). exists (c :: cs), ns. split; [rewrite <- app_assoc; reflexivity|]. split; [cbn; lia|]. intros [|i] b c' H1 H2; cbn in H1, H2.
  - injection H1 as <-. injection H2 as <-. rewrite Nat.add_0_r. exact Hc.
  - apply (cell_mono _ _ ds); auto. replace (j + S i) with (S j + i) by lia. apply H; auto.
Qed.
Lemma outs_domains_in os o x : In o os -> In x (w_domains o) -> In x (w_domains (outs os)).
Proof. intros H1 H2. rewrite outs_domains. apply in_flat_map. eauto. Qed.
Lemma recurse_rows l lastj : forall axes j content row base o, recurse l lastj j axes content row base = Ok o ->
  (forall r, In r (w_rows o) -> row_of l lastj (w_domains o) j axes row r) /\
  (forall a ks, In (a, ks) (w_domains o) -> In a axes /\ exists c, keys_of a c = Ok ks).
Proof.
  induction axes as [|a0 axes IH]; intros j content row base o E; cbn [recurse] in E.
  - destruct (if base then _ else _) as [ns|]; [|discriminate]. cbn [bind] in E. destruct ns as [|y ns]; [discriminate|]. injection E as <-. cbn [out_rows w_rows w_domains]. split; [|contradiction].
    intros r Hr. destruct (keeps l y); [|contradiction]. destruct Hr as [<-|[]]. exists [], (y :: ns). split; [reflexivity|]. split; [reflexivity|]. intros [|i] ? ? H; discriminate.
  - destruct (keys_of a0 content) as [ks0|] eqn:Ek; [|discriminate]. cbn [bind] in E. destruct (items (as_bin a0) content) as [is|] eqn:Ei; [|discriminate]. cbn [bind] in E.
    match type of E with context [mapM ?f is] => destruct (mapM f is) as [rs|] eqn:Em; [|discriminate]; pose proof (mapM_in f is rs Em) as HM end. cbn [bind] in E. injection E as <-.
    set (O := outs (out_domain a0 ks0 :: rs)).
    assert (Hd0 : In (a0, ks0) (w_domains O)) by (apply (outs_domains_in _ (out_domain a0 ks0)); [left|left]; auto).
    assert (Htext : forall k x, In (k, x) is -> cell_of l lastj (w_domains O) j a0 (VText (text_of k))).
    { intros k x Hkx. exists k. split; auto. destruct (is_intbin a0) eqn:En; [eapply items_intbin; eauto|]. exists ks0. split; auto. eapply items_listed; eauto. }
    (* one item *)
    assert (Hone : forall r0 k x, In (k, x) is -> In r0 rs -> recurse l lastj (S j) axes x (row ++ [VText (text_of k)]) base = Ok r0 ->
      (forall r, In r (w_rows r0) -> row_of l lastj (w_domains O) j (a0 :: axes) row r) /\ (forall a ks, In (a, ks) (w_domains r0) -> In a (a0 :: axes) /\ exists c, keys_of a c = Ok ks)).
    { intros r0 k x Hkx Hr0 Er. destruct (IH _ _ _ _ _ Er) as (I1 & I2). split.
      - intros r Hr. apply (row_cons l lastj (w_domains r0) (w_domains O) j a0 axes row (VText (text_of k))); [eapply Htext; eauto| |auto]. intros y Hy. apply (outs_domains_in _ r0); [right|]; auto.
      - intros a ks Ha. destruct (I2 a ks Ha). split; [right|]; auto. }
    assert (Hnone : (forall r, In r (w_rows out_none) -> row_of l lastj (w_domains O) j (a0 :: axes) row r) /\ (forall a ks, In (a, ks) (w_domains out_none) -> In a (a0 :: axes) /\ exists c, keys_of a c = Ok ks)) by (split; cbn; contradiction).
    assert (Hpart : forall r0, In r0 rs -> (forall r, In r (w_rows r0) -> row_of l lastj (w_domains O) j (a0 :: axes) row r) /\ (forall a ks, In (a, ks) (w_domains r0) -> In a (a0 :: axes) /\ exists c, keys_of a c = Ok ks)).
    { intros r0 Hr0. destruct (HM r0 Hr0) as ([k x] & Hkx & Er). destruct k as [g|[lo hi c1 c2| |z|b]]; try (eapply Hone; eauto; fail).
      - destruct (Nat.eqb j lastj && quantitative l) eqn:Eq; [|eapply Hone; eauto].
        apply andb_true_iff in Eq. destruct Eq as (Eq1 & Eq2). apply Nat.eqb_eq in Eq1.
        destruct (isfin lo && isfin hi); [|injection Er as <-; exact Hnone].
        assert (Hnum : forall v b r1, (forall y, In y (w_domains r1) -> In y (w_domains r0)) -> recurse l lastj (S j) axes x (row ++ [VNumber v]) b = Ok r1 ->
          (forall r, In r (w_rows r1) -> row_of l lastj (w_domains O) j (a0 :: axes) row r) /\ (forall a ks, In (a, ks) (w_domains r1) -> In a (a0 :: axes) /\ exists c, keys_of a c = Ok ks)).
        { intros v b r1 Hsub E1. destruct (IH _ _ _ _ _ E1) as (I1 & I2). split.
          - intros r Hr. apply (row_cons l lastj (w_domains r1) (w_domains O) j a0 axes row (VNumber v)); [split; auto| |auto]. intros y Hy. apply (outs_domains_in _ r0); [right|]; auto.
          - intros a ks Ha. destruct (I2 a ks Ha). split; [right|]; auto. }
        cbn zeta in Er.
        match type of Er with bind (if ?c then _ else _) _ = _ => set (st := c) in * end.
        destruct (if st then _ else _) as [r1|] eqn:E1; [|discriminate]. cbn [bind] in Er.
        match type of Er with bind (recurse _ _ _ _ _ (_ ++ [VNumber ?v]) _) _ = _ => set (low := v) in * end.
        destruct (recurse l lastj (S j) axes x (row ++ [VNumber low]) base) as [r2|] eqn:E2; [|discriminate]. cbn [bind] in Er.
        match type of Er with bind (if ?c then _ else _) _ = _ => set (en := c) in * end.
        destruct (if en then _ else _) as [r4|] eqn:E4; [|discriminate]. cbn [bind] in Er.
        match type of Er with Ok (outs [_; _; ?s; _]) = _ => set (r3 := s) in * end.
        assert (Er' : outs [r1; r2; r3; r4] = r0) by congruence. clear Er. rename Er' into Er.
        assert (D3 : w_rows r3 = [] /\ w_domains r3 = []) by (unfold r3; destruct (c_error l && is_baseline (c_kind l)); split; reflexivity). destruct D3 as (D3 & D3').
        assert (S1 : forall y, In y (w_domains r1) -> In y (w_domains r0)) by (intros y Hy; rewrite <- Er; apply (outs_domains_in _ r1); [left|]; auto).
        assert (S2 : forall y, In y (w_domains r2) -> In y (w_domains r0)) by (intros y Hy; rewrite <- Er; apply (outs_domains_in _ r2); [right; left|]; auto).
        assert (S4 : forall y, In y (w_domains r4) -> In y (w_domains r0)) by (intros y Hy; rewrite <- Er; apply (outs_domains_in _ r4); [right; right; right; left|]; auto).
        assert (P1 : (forall r, In r (w_rows r1) -> row_of l lastj (w_domains O) j (a0 :: axes) row r) /\ (forall a ks, In (a, ks) (w_domains r1) -> In a (a0 :: axes) /\ exists c, keys_of a c = Ok ks)).
        { destruct st; [eapply Hnum; eauto|injection E1 as <-; exact Hnone]. }
        assert (P4 : (forall r, In r (w_rows r4) -> row_of l lastj (w_domains O) j (a0 :: axes) row r) /\ (forall a ks, In (a, ks) (w_domains r4) -> In a (a0 :: axes) /\ exists c, keys_of a c = Ok ks)).
        { destruct en; [eapply Hnum; eauto|injection E4 as <-; exact Hnone]. }
        destruct P1 as (P1 & Q1). destruct P4 as (P4 & Q4). destruct (Hnum low base r2 S2 E2) as (P2 & Q2).
        split.
        + intros r Hr. rewrite <- Er, outs_rows in Hr. cbn [flat_map] in Hr. rewrite D3 in Hr. rewrite !in_app_iff in Hr. destruct Hr as [Hr|[Hr|[[]|[Hr|[]]]]]; auto.
        + intros a ks Hr. rewrite <- Er, outs_domains in Hr. cbn [flat_map] in Hr. rewrite D3' in Hr. rewrite !in_app_iff in Hr. destruct Hr as [Hr|[Hr|[[]|[Hr|[]]]]]; auto.
      - destruct (Nat.eqb j lastj && quantitative l); [injection Er as <-; exact Hnone|eapply Hone; eauto]. }
    change (out_app (out_domain a0 ks0) (outs rs)) with O. split.
    + intros r Hr. unfold O in Hr. rewrite outs_rows in Hr. cbn [flat_map out_domain w_rows app] in Hr. apply in_flat_map in Hr. destruct Hr as (r0 & Hr0 & Hr). apply (Hpart r0 Hr0). auto.
    + intros a ks Hr. unfold O in Hr. rewrite outs_domains in Hr. cbn [flat_map out_domain w_domains app] in Hr. destruct Hr as [Hr|Hr]; [injection Hr as <- <-; split; [left; auto|eauto]|].
      apply in_flat_map in Hr. destruct Hr as (r0 & Hr0 & Hr). apply (Hpart r0 Hr0). auto.
Qed.

(** The words of the keys of an axis *)
Lemma keys_words a c ks k : keys_of a c = Ok ks -> In k ks ->
  match a with
  | ACut _ => exists b, str_of k = WBool b
  | AIntbin _ mn mx _ _ => (exists z, str_of k = WInt z) \/ str_of k = WText (XBin (KIv NInf (nz mn) true false)) \/ str_of k = WText (XBin (KIv (nz mx) PInf false true))
  | _ => str_of k = WText (text_of k)
  end.
Proof.
  intros E H. destruct a; cbn [keys_of] in E; try discriminate.
  - destruct (items _ c) as [is|] eqn:Ei; [|discriminate]. injection E as <-. apply in_map_iff in H. destruct H as ([k' x] & <- & H). cbn [items] in Ei. destruct c as [| |lc|]; try discriminate. destruct (py_sorted _) as [gs|]; [|discriminate]. cbn [bind] in Ei.
    apply (mapM_in _ _ _ Ei) in H. destruct H as (g & _ & H). destruct (lookup g lc); [|discriminate]. cbn [bind] in H. injection H as <- _. reflexivity.
  - destruct (items _ c) as [is|] eqn:Ei; [|discriminate]. injection E as <-. apply in_map_iff in H. destruct H as ([k' x] & <- & H). cbn [items] in Ei. destruct c as [| |lc|]; try discriminate. destruct (py_sorted _) as [gs|]; [|discriminate]. cbn [bind] in Ei.
    apply (mapM_in _ _ _ Ei) in H. destruct H as (g & _ & H). destruct (lookup g lc); [|discriminate]. cbn [bind] in H. destruct g; [|discriminate]. injection H as <- _. reflexivity.
  - injection E as <-. apply in_map_iff in H. destruct H as (k' & <- & H). cbn [keys] in H. unfold keys_bin in H. rewrite !in_app_iff, in_map_iff in H.
    destruct H as [H|[(i & <- & _)|[H|H]]]; try reflexivity; match type of H with context [if ?b then _ else _] => destruct b end; try contradiction; destruct H as [<-|[]]; reflexivity.
  - injection E as <-. apply in_map_iff in H. destruct H as (k' & <- & H). cbn [keys] in H. unfold keys_intbin in H. rewrite !in_app_iff, in_map_iff in H.
    destruct H as [H|[(i & <- & _)|H]]; [|left; eexists; reflexivity|]; match type of H with context [if ?b then _ else _] => destruct b end; try contradiction; destruct H as [<-|[]]; auto.
  - injection E as <-. apply in_map_iff in H. destruct H as (k' & <- & H). cbn [keys] in H. unfold keys_split in H. rewrite !in_app_iff, in_map_iff in H.
    destruct H as [H|[(i & <- & _)|[H|H]]]; try reflexivity; match type of H with context [if ?b then _ else _] => destruct b end; try contradiction; destruct H as [<-|[]]; reflexivity.
  - injection E as <-. cbn in H. destruct H as [<-|[<-|[]]]; eexists; reflexivity.
  - injection E as <-. contradiction.
Qed.
Lemma intbin_labels_differ e mn mx u o k : In k (keys (as_bin (AIntbin e mn mx u o))) -> (mn <= mx)%Z ->
  exists lo hi ch, k = KIv lo hi true ch /\ k <> KIv NInf (nz mn) true false.
Proof.
  intros H Hm. cbn [as_bin keys] in H. unfold keys_bin in H. rewrite app_nil_r, !in_app_iff, in_map_iff in H. destruct H as [H|[(i & <- & Hi)|H]].
  - destruct u; [|contradiction]. destruct H as [<-|[]]. do 3 eexists. split; [reflexivity|]. intros E.
    assert (X : nz mn = nsub (nz mn) half) by (apply (f_equal (fun k => match k with KIv _ hi _ _ => hi | _ => NaN end)) in E; symmetry; exact E). exact (half_not mn mn X).
  - apply in_seq in Hi. do 3 eexists. split; [reflexivity|]. rewrite intbin_edge by lia. discriminate.
  - destruct o; [|contradiction]. destruct H as [<-|[]]. do 3 eexists. split; [reflexivity|]. discriminate.
Qed.
