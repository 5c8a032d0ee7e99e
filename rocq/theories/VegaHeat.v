(** The data of a heat map *)
From Coq Require Import String Sorted Permutation Lia.
From Verif Require Import Base Num NumFacts Axis AxisSpec AxisProofs AxisMain Calc Content Fill FillSpec FillProofs FillProofs2 FillProofs3 FillMain
  Tree Order Expr ExprFacts InstrSpec Elem HistFill HistSpec KeySpec HistAlg AlgSpec HistAlgProofs HistAlgMain CompareProofs
  Nd NdProofs Proj ProjSpec ProjProofs ProjMain Select Table TableSpec TableProofs Pandas PandasSpec PandasProofs PandasMain Vega VegaSpec VegaProofs VegaGroups VegaAxis VegaMain VegaData VegaHeatSpec.
Local Open Scope list_scope.
Local Open Scope nat_scope.

Section Cells.
  Variables (jx jy : nat).
  (** The cell of a key, if it is drawn *)
  Definition hc (j : nat) (k : dkey) : option vcell :=
    if is_heat jx jy j then
      match k with
      | DBin (KIv lo hi _ _) => if isfin lo && isfin hi then Some (VNumber (middle lo hi)) else None
      | DBin KNaN => None
      | _ => Some (VText (text_of k))
      end
    else Some (VText (text_of k)).
  Fixpoint hrow (j : nat) (ks : list dkey) : option (list vcell) :=
    match ks with
    | [] => Some []
    | k :: ks' => match hc j k, hrow (S j) ks' with Some c, Some cs => Some (c :: cs) | _, _ => None end
    end.
  Lemma hrow_app : forall a b j, hrow j (a ++ b) = match hrow j a, hrow (j + length a) b with Some x, Some y => Some (x ++ y) | _, _ => None end.
  Proof.
    induction a as [|k a IH]; intros b j; cbn [app hrow length].
    - rewrite Nat.add_0_r. destruct (hrow j b); reflexivity.
    - rewrite IH. replace (j + S (length a)) with (S j + length a) by lia. destruct (hc j k), (hrow (S j) a), (hrow (S j + length a) b); reflexivity.
  Qed.
  Lemma hrow_nth : forall ks j cs, hrow j ks = Some cs -> length cs = length ks /\ forall i k c, nth_error ks i = Some k -> nth_error cs i = Some c -> hc (j + i) k = Some c.
  Proof.
    induction ks as [|k ks IH]; intros j cs E; cbn [hrow] in E.
    - injection E as <-. split; auto. intros [|i]; discriminate.
    - destruct (hc j k) as [c|] eqn:Ec; [|discriminate]. destruct (hrow (S j) ks) as [cs'|] eqn:Er; [|discriminate]. injection E as <-. destruct (IH _ _ Er) as (L & H). split; [cbn; auto|].
      intros [|i] k' c' H1 H2; cbn in H1, H2; [rewrite Nat.add_0_r; congruence|]. replace (j + S i) with (S j + i) by lia. eauto.
  Qed.
  Lemma hrow_some : forall ks j, (forall i k, nth_error ks i = Some k -> hc (j + i) k <> None) -> hrow j ks <> None.
  Proof.
    induction ks as [|k ks IH]; intros j H; cbn [hrow]; [discriminate|]. pose proof (H 0 k eq_refl) as H0. rewrite Nat.add_0_r in H0. destruct (hc j k); [|congruence].
    specialize (IH (S j)). destruct (hrow (S j) ks); [discriminate|]. apply IH. intros i k' Hi. replace (S j + i) with (j + S i) by lia. apply H. auto.
  Qed.
  Lemma hrow_none : forall ks j i k, nth_error ks i = Some k -> hc (j + i) k = None -> hrow j ks = None.
  Proof.
    induction ks as [|k0 ks IH]; intros j [|i] k H E; try discriminate; cbn [hrow].
    - cbn in H. injection H as ->. rewrite Nat.add_0_r in E. rewrite E. reflexivity.
    - replace (j + S i) with (S j + i) in E by lia. rewrite (IH (S j) i k H E). destruct (hc j k0); reflexivity.
  Qed.
  Definition dks (F : list axis) (ss : list nat) : list dkey := map (fun p => dk (fst p) (snd p)) (combine F ss).
  Definition gds (G : list axis) (ks : list gkey) : list dkey := map (fun p => gkey_d (fst p) (snd p)) (combine G ks).
End Cells.

Section Fixed.
  Variables (jx jy k : nat).
  Hypothesis Hk : 0 < k.
  Definition hrows (j : nat) (F : list axis) (row : list vcell) (d : list Num) (ss : list nat) : list (list vcell) :=
    match hrow jx jy j (dks F ss) with Some cs => [(row ++ cs) ++ map VNumber (nums k (tots_of F) d ss)] | None => [] end.
  Lemma nums_all d : length d = k -> nums k [] d [] = d.
  Proof.
    intros Hd. unfold nums. cbn [app]. apply nth_ext with nzero nzero; [rewrite map_length, seq_length; auto|]. intros q Hq. rewrite map_length, seq_length in Hq.
    rewrite nth_indep with (d' := aget [k] d [0]) by (rewrite map_length, seq_length; auto).
    rewrite (map_nth (fun q => aget [k] d [q]) (seq 0 k) 0 q). rewrite seq_nth by auto. unfold aget. cbn [ravel fold_right plus]. f_equal. lia.
  Qed.
  Lemma heat_fixed F : Forall listed F -> forall j d row, length d = prodn (tots_of F ++ [k]) ->
    exists o, recurse2 jx jy j F (PArr (tots_of F ++ [k]) d) row = Ok o /\ w_rows o = flat_map (hrows j F row d) (indices (tots_of F)).
  Proof.
    induction 1 as [|a F Ha HF IH]; intros j d row Hd.
    - cbn [tots_of map app recurse2 numbers_of bind] in *. eexists. split; [reflexivity|]. cbn [indices flat_map out_rows w_rows]. unfold hrows. cbn [dks combine map hrow tots_of]. rewrite nums_all by (cbn in Hd; lia). rewrite !app_nil_r. reflexivity.
    - cbn [tots_of map app recurse2]. fold (tots_of F). rewrite listed_keys by auto. cbn [bind]. rewrite listed_items by auto. cbn [bind].
      set (m := prodn (tots_of F ++ [k])). set (sl := fun i => firstn m (skipn (i * m) d)).
      assert (Hsl : forall i, i < totbins a -> length (sl i) = prodn (tots_of F ++ [k])).
      { intros i Hi. apply (slice_length d (totbins a)); auto. }
      set (g := fun i => match hc jx jy j (dk a i) with
        | Some c => match recurse2 jx jy (S j) F (PArr (tots_of F ++ [k]) (sl i)) (row ++ [c]) with Ok o => o | Err _ => out_none end
        | None => out_none end).
      assert (Hg : forall i, i < totbins a ->
        w_rows (g i) = flat_map (fun ss => hrows j (a :: F) row d (i :: ss)) (indices (tots_of F)) /\
        forall c, hc jx jy j (dk a i) = Some c -> recurse2 jx jy (S j) F (PArr (tots_of F ++ [k]) (sl i)) (row ++ [c]) = Ok (g i)).
      { intros i Hi. unfold g. destruct (hc jx jy j (dk a i)) as [c|] eqn:Ec.
        - destruct (IH (S j) (sl i) (row ++ [c]) (Hsl i Hi)) as (o & E & H2). rewrite E. split; [|intros c' X; injection X as <-; exact E]. rewrite H2. apply flat_map_ext_in. intros ss Hss. apply in_indices in Hss.
          unfold hrows. cbn [dks combine map fst snd hrow]. rewrite Ec. fold (dks F ss). destruct (hrow jx jy (S j) (dks F ss)) as [cs|]; [|reflexivity]. cbn [tots_of map]. rewrite nums_slice by auto. rewrite <- !app_assoc. reflexivity.
        - split; [|discriminate]. cbn [out_none w_rows]. symmetry. apply flat_map_nil. intros ss _. unfold hrows. cbn [dks combine map fst snd hrow]. rewrite Ec. reflexivity. }
      destruct (Ha) as (_ & _ & Hlen).
      rewrite (mapM_pairs _ g (DBin KNaN) (fun i => PArr (tots_of F ++ [k]) (firstn m (skipn (i * m) d)))).
      2:{ intros i Hi. rewrite map_length in Hi. rewrite map_nth. cbn [plus]. destruct (Hg i) as (_ & E); [lia|]. assert (Eg : hc jx jy j (dk a i) = None -> g i = out_none) by (intros X; unfold g; rewrite X; reflexivity). clearbody g. unfold hc, dk, is_heat in E, Eg. revert E Eg.
          destruct (nth i (keys (as_bin a)) KNaN) as [lo hi c1 c2| |z|b]; cbn beta iota; destruct (Nat.eqb j jx || Nat.eqb j jy); try (destruct (isfin lo && isfin hi)); intros E Eg; try (apply E; reflexivity); rewrite Eg by reflexivity; reflexivity. }
      cbn [bind]. rewrite map_length, Hlen. eexists. split; [reflexivity|].
      rewrite outs_rows. cbn [flat_map]. rewrite flat_map_map. cbn [out_domain w_rows app indices]. rewrite flat_map_flat_map.
      apply flat_map_ext_in. intros i Hi. apply in_seq in Hi. destruct (Hg i) as (-> & _); [lia|]. rewrite flat_map_map. reflexivity.
  Qed.
End Fixed.

Section Groups.
  Variables (jx jy : nat) (L : layout) (sh : list nat) (g : list Num -> list Num) (F : list axis) (j0 : nat).
  Hypothesis Hg : forall d, length (g d) = prodn sh.
  Definition hrun (row : list vcell) (d : list Num) : out := match recurse2 jx jy j0 F (PArr sh d) row with Ok o => o | Err _ => out_none end.
  Hypothesis Hrun : forall row d, length d = prodn sh -> recurse2 jx jy j0 F (PArr sh d) row = Ok (hrun row d).

  Definition hgroup (j : nat) (G : list axis) (c : content) (row : list vcell) (ks : list gkey) : list (list vcell) :=
    match hrow jx jy j (gds G ks) with Some cs => w_rows (hrun (row ++ cs) (g (block_data c ks))) | None => [] end.
  Definition heat_out (j : nat) (G : list axis) (c : content) (row : list vcell) (o : out) (gs : list (list gkey)) : Prop :=
    StronglySorted keys_before gs /\ (forall ks, In ks gs <-> block c ks <> None) /\ Forall (fun ks => length ks = length G) gs /\
    w_rows o = flat_map (hgroup j G c row) gs.
  (** What one key contributes *)
  Definition heat_part (j : nat) (a : axis) (G : list axis) (lc : list (gkey * content)) (row : list vcell) (k : gkey) (o : out) : Prop :=
    exists x gs, assoc k lc = Some x /\ StronglySorted keys_before gs /\ (forall ks, In ks gs <-> block x ks <> None) /\ Forall (fun ks => length ks = length G) gs /\
      w_rows o = flat_map (fun ks => hgroup j (a :: G) (CDict lc) row (k :: ks)) gs.

  Lemma join_heat j a G row (lc : list (gkey * content)) : forall ks os,
    StronglySorted (fun x y => gkey_ltb x y = true) ks -> Forall2 (heat_part j a G lc row) ks os ->
    exists gs, StronglySorted keys_before gs /\ (forall p, In p gs <-> exists k p', p = k :: p' /\ In k ks /\ block (CDict lc) p <> None) /\
      Forall (fun ks => length ks = length (a :: G)) gs /\ w_rows (outs os) = flat_map (hgroup j (a :: G) (CDict lc) row) gs.
  Proof.
    intros ks os Hs R. induction R as [|k o ks os (x & gs & Ex & E1 & E2 & E3 & E4) R IH].
    - exists []. split; [constructor|]. split; [|split; [constructor|reflexivity]]. intros p. split; [contradiction|]. intros (? & ? & _ & [] & _).
    - inversion Hs as [|? ? Hs' Hk]; subst. destruct (IH Hs') as (gs' & F1 & F2 & F3 & F4). clear IH.
      assert (EB : forall p, block (CDict lc) (k :: p) = block x p) by (intros p; cbn; rewrite Ex; reflexivity).
      exists (map (cons k) gs ++ gs'). split; [|split; [|split]].
      + apply sorted_app; auto.
        * apply (sorted_map keys_before); auto. intros; apply keys_before_cons; auto.
        * intros p q Hp Hq. apply in_map_iff in Hp. destruct Hp as (p' & <- & _). apply F2 in Hq. destruct Hq as (k' & q' & -> & Hk' & _).
          exists [], k, k', p', q'. split; auto. split; auto. rewrite Forall_forall in Hk. auto.
      + intros p. rewrite in_app_iff, in_map_iff, F2. split.
        * intros [(p' & <- & Hp)|(k' & p' & -> & Hk' & Hb)].
          -- exists k, p'. split; auto. split; [left; auto|]. rewrite EB. apply E2. auto.
          -- exists k', p'. split; auto. split; auto. right. auto.
        * intros (k' & p' & -> & [<-|Hk'] & Hb).
          -- left. exists p'. split; auto. apply E2. rewrite <- EB. auto.
          -- right. eauto.
      + apply Forall_app. split; auto. apply Forall_map. eapply Forall_impl; [|exact E3]. cbn. intros; lia.
      + change (outs (o :: os)) with (out_app o (outs os)). cbn [out_app w_rows]. rewrite E4, F4, flat_map_app, flat_map_map. reflexivity.
  Qed.

  Lemma heat_groups G : Forall (fun a => is_group a = true) G -> forall j row c, j + length G = j0 ->
    content_ok L (length G) c -> comparable c -> number_keys G c ->
    exists o gs, recurse2 jx jy j (G ++ F) (tmap sh g c) row = Ok o /\ heat_out j G c row o gs.
  Proof.
    induction 1 as [|a G Ha HG IH]; intros j row c Hj Hc Hcmp Hnk.
    - destruct c as [|d|lc]; try contradiction. cbn [tmap app length] in *. rewrite Nat.add_0_r in Hj.
      exists (hrun row (g d)), [[]]. split; [rewrite Hj; apply Hrun; auto|]. split; [repeat constructor|]. split; [|split; [repeat constructor|]].
      + intros [|k ks]; cbn; split; auto; try congruence. intros [X|[]]; discriminate.
      + cbn [flat_map]. unfold hgroup, gds. cbn [combine map hrow block_data block]. rewrite !app_nil_r. auto.
    - destruct c as [|d|lc]; try contradiction. cbn [length content_ok] in Hc. destruct Hc as (Hc & Hnd & Hok).
      assert (Hkeys : forall k, In k (map fst lc) -> key_at (CDict lc) [] k) by (intros k Hk; exists lc; auto).
      assert (Hsame : forall x y, In x (map fst lc) -> In y (map fst lc) -> is_str x = is_str y) by (intros x y Hx Hy; apply (Hcmp []); auto).
      rewrite tmap_dict. cbn [app recurse2]. rewrite group_as_bin by auto.
      destruct (items_group a sh g lc Ha Hnd Hok Hsame) as (ps & E & R).
      { intros e w org nf cl k -> Hk. apply (Hnk [] k e w org nf cl); auto. }
      assert (Ek : keys_of a (PDict (map (fun kv => (fst kv, tmap sh g (snd kv))) lc)) = Ok (map fst ps)).
      { transitivity (rmap (map fst) (items a (PDict (map (fun kv => (fst kv, tmap sh g (snd kv))) lc)))); [destruct a; try discriminate; reflexivity|]. rewrite E. reflexivity. }
      rewrite Ek, E. cbn [bind].
      match goal with |- context [mapM ?f ps] => destruct (mapM_pairing f _ (heat_part j a G lc row) _ _ R) as (os & Em & Fo) end.
      { intros k p Hk (x & Ex & ->).
        assert (X : forall r, exists o gs, recurse2 jx jy (S j) (G ++ F) (tmap sh g x) r = Ok o /\ heat_out (S j) G x r o gs).
        { intros r. apply IH.
          - cbn [length] in Hj. lia.
          - rewrite Forall_forall in Hc. apply assoc_in in Ex. apply (Hc _ Ex).
          - intros p k1 k2 (l1 & S1 & I1) (l2 & S2 & I2). apply (Hcmp (k :: p)); [exists l1|exists l2]; rewrite (sub_assoc _ _ _ _ Ex); auto.
          - intros p k1 e w org nf cl (l1 & S1 & I1) Hn. apply (Hnk (k :: p) k1 e w org nf cl); auto. exists l1. rewrite (sub_assoc _ _ _ _ Ex). auto. }
        assert (EB : forall p, block_data (CDict lc) (k :: p) = block_data x p) by (intros p; unfold block_data; cbn; rewrite Ex; reflexivity).
        destruct (hc jx jy j (gkey_d a k)) as [c|] eqn:Ec.
        - destruct (X (row ++ [c])) as (o & gs & Er & H1 & H2 & H3 & H4). exists o. split.
          + unfold hc, is_heat in Ec. revert Ec. destruct (gkey_d a k) as [gk|[lo hi c1 c2| |z|b]]; cbn beta iota; destruct (Nat.eqb j jx || Nat.eqb j jy); try (destruct (isfin lo && isfin hi)); try discriminate; intros Ec; injection Ec as <-; exact Er.
          + exists x, gs. repeat (split; auto). rewrite H4. apply flat_map_ext. intros ks. unfold hgroup. cbn [gds combine map fst snd hrow]. rewrite Ec. fold (gds G ks). destruct (hrow jx jy (S j) (gds G ks)); [|reflexivity]. rewrite EB, <- app_assoc. reflexivity.
        - destruct (X row) as (o & gs & _ & H1 & H2 & H3 & _). exists out_none. split.
          + unfold hc, is_heat in Ec. revert Ec. destruct (gkey_d a k) as [gk|[lo hi c1 c2| |z|b]]; cbn beta iota; destruct (Nat.eqb j jx || Nat.eqb j jy); try (destruct (isfin lo && isfin hi)); try discriminate; intros _; reflexivity.
          + exists x, gs. repeat (split; auto). cbn [out_none w_rows]. symmetry. apply flat_map_nil. intros ks _. unfold hgroup. cbn [gds combine map fst snd hrow]. rewrite Ec. reflexivity. }
      rewrite Em. cbn [bind]. destruct (join_heat j a G row lc (sort_keys (map fst lc)) os) as (gs & F1 & F2 & F3 & F4); auto.
      { apply sort_keys_sorted; auto. }
      eexists _, gs. split; [reflexivity|]. split; [exact F1|]. split; [|split; [exact F3|exact F4]].
      intros p. rewrite F2. split; [intros (k & p' & -> & _ & H); auto|]. intros Hb. destruct p as [|k p]; [cbn in Hb; congruence|]. exists k, p. split; auto. split; auto.
      apply (Permutation_in _ (Permutation_sym (sort_keys_perm (map fst lc)))). cbn in Hb. destruct (assoc k lc) as [x|] eqn:Ex; [|congruence]. apply assoc_in in Ex. apply (in_map fst) in Ex. exact Ex.
  Qed.
End Groups.

(** ** Cells *)
Lemma hc_group jx jy j a k : is_group a = true -> (forall e w org nf cl, a = AGroupbin e w org nf cl -> exists x, k = GNum x) ->
  hc jx jy j (gkey_d a k) = if is_heat jx jy j && is_groupbin a then option_map (fun e => VNumber (middle (fst e) (snd e))) (group_ends a k) else Some (VText (text_of (gkey_d a k))).
Proof.
  intros Hg Hn. unfold hc. destruct a as [e|e w org nf cl| | | | | |]; try discriminate; cbn [is_groupbin].
  - rewrite andb_false_r. cbn [gkey_d]. destruct (is_heat jx jy j); reflexivity.
  - destruct (Hn _ _ _ _ _ eq_refl) as (x & ->). cbn [gkey_d group_ends]. rewrite andb_true_r. destruct (is_heat jx jy j); [|reflexivity]. destruct (isfin x && isfin (nadd x w)); reflexivity.
Qed.
Lemma number_bin_key a s : is_number_axis a = true -> s < length (keys (as_bin a)) ->
  exists lo hi c1 c2, nth s (keys (as_bin a)) KNaN = KIv lo hi c1 c2 \/ nth s (keys (as_bin a)) KNaN = KNaN.
Proof.
  intros Hnum Hs. assert (Hin : In (nth s (keys (as_bin a)) KNaN) (keys (as_bin a))) by (apply nth_In; lia). revert Hin. generalize (nth s (keys (as_bin a)) KNaN). intros k0 Hin.
  destruct a; try discriminate; cbn [as_bin keys] in Hin; unfold keys_bin, keys_split in Hin; rewrite !in_app_iff in Hin;
  repeat (destruct Hin as [Hin|Hin]); try (apply in_map_iff in Hin; destruct Hin as (z & <- & _); repeat eexists; left; reflexivity);
  match type of Hin with In _ (if ?b then _ else _) => destruct b; [|contradiction] | In _ [] => contradiction end;
  destruct Hin as [<-|[]]; try (repeat eexists; left; reflexivity); exists NaN, NaN, true, true; right; reflexivity.
Qed.
Lemma hc_bin jx jy j a s : axis_fine a -> is_fixed a = true -> s < totbins a ->
  hc jx jy j (dk a s) = if is_heat jx jy j && is_number_axis a then option_map (fun e => VNumber (middle (fst e) (snd e))) (bin_ends a s) else Some (txt a s).
Proof.
  intros Ha Hf Hs. destruct (fine_listed a Ha Hf) as (_ & Hn & Hl). unfold hc. destruct (is_heat jx jy j); cbn [andb]; [|reflexivity]. destruct (is_number_axis a) eqn:Hnum.
  - rewrite <- iends_eq by auto. unfold iends. destruct (number_bin_key a s Hnum ltac:(lia)) as (lo & hi & c1 & c2 & H). unfold dk. destruct H as [-> | ->]; [|reflexivity]. destruct (isfin lo && isfin hi); reflexivity.
  - destruct a; try discriminate; try contradiction. unfold txt, dk. cbn [as_bin keys] in *. unfold keys_cut in *. destruct s as [|[|s]]; [reflexivity|reflexivity|cbn [as_bin keys totbins length] in *; lia].
Qed.
Lemma gds_nth G ks i a k : nth_error G i = Some a -> nth_error ks i = Some k -> nth_error (gds G ks) i = Some (gkey_d a k).
Proof.
  unfold gds. revert ks i. induction G as [|b G IH]; intros ks i H1 H2; [destruct i; discriminate|]. destruct ks as [|k' ks]; [destruct i; discriminate|].
  destruct i as [|i]; cbn in *; [injection H1 as ->; injection H2 as ->; reflexivity|]. apply IH; auto.
Qed.
Lemma gds_inv G ks i d : nth_error (gds G ks) i = Some d -> exists a k, nth_error G i = Some a /\ nth_error ks i = Some k /\ d = gkey_d a k.
Proof.
  unfold gds. revert ks i. induction G as [|b G IH]; intros ks i H; [destruct i; discriminate|]. destruct ks as [|k' ks]; [destruct i; discriminate|].
  destruct i as [|i]; cbn in *; [injection H as <-; eauto|]. apply IH; auto.
Qed.
Lemma dks_nth F ss i a s : nth_error F i = Some a -> nth_error ss i = Some s -> nth_error (dks F ss) i = Some (dk a s).
Proof.
  unfold dks. revert ss i. induction F as [|b F IH]; intros ss i H1 H2; [destruct i; discriminate|]. destruct ss as [|k' ss]; [destruct i; discriminate|].
  destruct i as [|i]; cbn in *; [injection H1 as ->; injection H2 as ->; reflexivity|]. apply IH; auto.
Qed.
Lemma dks_inv F ss i d : nth_error (dks F ss) i = Some d -> exists a s, nth_error F i = Some a /\ nth_error ss i = Some s /\ d = dk a s.
Proof.
  unfold dks. revert ss i. induction F as [|b F IH]; intros ss i H; [destruct i; discriminate|]. destruct ss as [|k' ss]; [destruct i; discriminate|].
  destruct i as [|i]; cbn in *; [injection H as <-; eauto|]. apply IH; auto.
Qed.
Lemma gds_length G ks : length ks = length G -> length (gds G ks) = length G.
Proof. intros H. unfold gds. rewrite map_length, combine_length. lia. Qed.
Lemma dks_length F ss : Forall2 lt ss (tots_of F) -> length (dks F ss) = length F.
Proof. intros H. apply Forall2_length in H. unfold dks, tots_of in *. rewrite map_length in *. rewrite combine_length. lia. Qed.
Lemma forall2_filter_flat {A B C} (R : A -> C -> Prop) (b : A -> bool) (f : A -> list B) (m : B -> C) l :
  (forall x, In x l -> if b x then exists y, f x = [y] /\ R x (m y) else f x = []) -> Forall2 R (filter b l) (map m (flat_map f l)).
Proof.
  induction l as [|x l IH]; intros H; [constructor|]. pose proof (H x (or_introl eq_refl)) as Hx. assert (HR : Forall2 R (filter b l) (map m (flat_map f l))) by (apply IH; intros y Hy; apply H; right; auto).
  cbn [filter flat_map]. destruct (b x).
  - destruct Hx as (y & -> & Hy). cbn [app map]. constructor; auto.
  - rewrite Hx. exact HR.
Qed.

Section Rows.
  Variables (h : hobj) (id : option string) (T : pv) (k : nat) (g : list Num -> list Num) (numbers : place -> list Num) (jx jy : nat).
  Let G := o_group h.
  Let F := o_fixed h.
  Let tots := tots_of F.
  Hypothesis Hok : hobj_ok h.
  Hypothesis HG : Forall axis_fine G.
  Hypothesis HF : Forall axis_fine F.
  Hypothesis Hcmp : comparable (o_content h).
  Hypothesis Hre : real_groups G (o_content h).
  Hypothesis Hnk : number_keys G (o_content h).
  Hypothesis Hk : 0 < k.
  Hypothesis HT : T = tmap (tots ++ [k]) g (started h).
  Hypothesis Hg : forall d, length (g d) = prodn (tots ++ [k]).
  Hypothesis Hrow : forall ks ss, has_group h ks -> Forall2 lt ss tots -> bin_row T ks ss = Some (numbers (ks, ss)).
  Hypothesis Hjx : jx < length (G ++ F).
  Hypothesis Hjy : jy < length (G ++ F).
  Definition hmake (row : list vcell) : datum := {| d_id := id; d_row := row; d_centre := None |}.
  Definition hplace (p : place) : list (list vcell) :=
    match hrow jx jy 0 (gds G (fst p)), hrow jx jy (length G) (dks F (snd p)) with
    | Some x, Some y => [(x ++ y) ++ map VNumber (numbers p)]
    | _, _ => []
    end.
  (** A place: its cells *)
  Lemma place_cells ks ss : keys_fine G ks -> (forall i e w org nf cl kk, nth_error G i = Some (AGroupbin e w org nf cl) -> nth_error ks i = Some kk -> exists x, kk = GNum x) -> Forall2 lt ss tots ->
    if in_heatmap G F jx jy (ks, ss) then exists y, hplace (ks, ss) = [y] /\ heat_datum G F id jx jy numbers (ks, ss) (hmake y) else hplace (ks, ss) = [].
  Proof.
    intros (Hl & Hn) Hnum Hss. pose proof (Forall2_length _ _ _ Hss) as Hls. unfold tots, tots_of in Hls. rewrite map_length in Hls.
    assert (Hgc : forall i a kk j, nth_error G i = Some a -> nth_error ks i = Some kk -> hc jx jy j (gkey_d a kk) =
      if is_heat jx jy j && is_groupbin a then option_map (fun e => VNumber (middle (fst e) (snd e))) (group_ends a kk) else Some (VText (text_of (gkey_d a kk)))).
    { intros i a kk j H1 H2. apply hc_group.
      - pose proof (groups_are h Hok) as X. rewrite Forall_forall in X. apply X. eapply nth_error_In; eauto.
      - intros e w org nf cl ->. eapply Hnum; eauto. }
    assert (Hbc : forall i a s j, nth_error F i = Some a -> nth_error ss i = Some s -> hc jx jy j (dk a s) =
      if is_heat jx jy j && is_number_axis a then option_map (fun e => VNumber (middle (fst e) (snd e))) (bin_ends a s) else Some (txt a s)).
    { intros i a s j H1 H2. apply hc_bin.
      - rewrite Forall_forall in HF. apply HF. eapply nth_error_In; eauto.
      - pose proof (fixed_is h Hok) as X. rewrite Forall_forall in X. apply X. eapply nth_error_In; eauto.
      - eapply (slot_lt F); eauto. }
    assert (Hplaced : forall j, has_place G F (ks, ss) j = false -> is_heat jx jy j = true -> hplace (ks, ss) = []).
    { intros j Hj Hh. unfold has_place in Hj. cbn [fst snd] in Hj. unfold hplace. cbn [fst snd].
      destruct (Nat.lt_ge_cases j (length G)) as [Hlt|Hge].
      - destruct (nth_error G j) as [a|] eqn:Ea; [|apply nth_error_None in Ea; lia]. destruct (nth_error ks j) as [kk|] eqn:Ek; [|apply nth_error_None in Ek; lia].
        apply orb_false_iff in Hj. destruct Hj as (H1 & H2). apply negb_false_iff in H1. rewrite (hrow_none jx jy (gds G ks) 0 j (gkey_d a kk)); auto; [apply gds_nth; auto|].
        cbn [plus]. rewrite (Hgc j) by auto. rewrite Hh, H1. destruct (group_ends a kk); [discriminate|reflexivity].
      - destruct (nth_error G j) as [a|] eqn:Ea; [assert (j < length G) by (apply nth_error_Some; congruence); lia|].
        assert (Hlt : j - length G < length F) by (unfold is_heat in Hh; apply orb_true_iff in Hh; rewrite app_length in Hjx, Hjy; destruct Hh as [Hh|Hh]; apply Nat.eqb_eq in Hh; lia).
        destruct (nth_error F (j - length G)) as [a|] eqn:Eb; [|apply nth_error_None in Eb; lia]. destruct (nth_error ss (j - length G)) as [s|] eqn:Es; [|apply nth_error_None in Es; lia].
        apply orb_false_iff in Hj. destruct Hj as (H1 & H2). apply negb_false_iff in H1. rewrite (hrow_none jx jy (dks F ss) (length G) (j - length G) (dk a s)); [destruct (hrow jx jy 0 (gds G ks)); reflexivity|apply dks_nth; auto|].
        replace (length G + (j - length G)) with j by lia. rewrite (Hbc (j - length G)) by auto. rewrite Hh, H1. destruct (bin_ends a s); [discriminate|reflexivity]. }
    unfold in_heatmap. destruct (has_place G F (ks, ss) jx) eqn:Ex; cbn [andb]; [|apply (Hplaced jx); auto; unfold is_heat; rewrite Nat.eqb_refl; reflexivity].
    destruct (has_place G F (ks, ss) jy) eqn:Ey; cbn [andb]; [|apply (Hplaced jy); auto; unfold is_heat; rewrite Nat.eqb_refl; apply orb_true_r].
    assert (Hpl : forall j, is_heat jx jy j = true -> has_place G F (ks, ss) j = true).
    { intros j Hj. unfold is_heat in Hj. apply orb_true_iff in Hj. destruct Hj as [Hj|Hj]; apply Nat.eqb_eq in Hj; subst; auto. }
    unfold hplace. cbn [fst snd].
    destruct (hrow jx jy 0 (gds G ks)) as [x|] eqn:E1.
    2:{ exfalso. revert E1. apply hrow_some. intros i d Hd. apply gds_inv in Hd. destruct Hd as (a & kk & H1 & H2 & ->). cbn [plus]. rewrite (Hgc i) by auto.
        destruct (is_heat jx jy i && is_groupbin a) eqn:B; [|discriminate]. apply andb_true_iff in B. destruct B as (B1 & B2). specialize (Hpl i B1). unfold has_place in Hpl. cbn [fst snd] in Hpl. rewrite H1, H2, B2 in Hpl. destruct (group_ends a kk); discriminate. }
    destruct (hrow jx jy (length G) (dks F ss)) as [y|] eqn:E2.
    2:{ exfalso. revert E2. apply hrow_some. intros i d Hd. apply dks_inv in Hd. destruct Hd as (a & s & H1 & H2 & ->). rewrite (Hbc i) by auto.
        destruct (is_heat jx jy (length G + i) && is_number_axis a) eqn:B; [|discriminate]. apply andb_true_iff in B. destruct B as (B1 & B2). specialize (Hpl _ B1). unfold has_place in Hpl. cbn [fst snd] in Hpl.
        assert (X : nth_error G (length G + i) = None) by (apply nth_error_None; lia). rewrite X in Hpl. replace (length G + i - length G) with i in Hpl by lia. rewrite H1, H2, B2 in Hpl. destruct (bin_ends a s); discriminate. }
    eexists. split; [reflexivity|]. apply hrow_nth in E1, E2. destruct E1 as (L1 & N1). destruct E2 as (L2 & N2). rewrite gds_length in L1 by auto. rewrite dks_length in L2 by auto.
    exists x, y. split; [reflexivity|]. split; [cbn [hmake d_row]; rewrite <- app_assoc; reflexivity|]. split; [reflexivity|]. split; auto. split; auto. split.
    - intros j a kk c H1 H2 H3. cbn [fst] in H2. specialize (N1 j (gkey_d a kk) c (gds_nth _ _ _ _ _ H1 H2) H3). cbn [plus] in N1. rewrite (Hgc j) in N1 by auto. unfold group_cell.
      destruct (is_heat jx jy j && is_groupbin a).
      + destruct (group_ends a kk) as [[lo hi]|]; [|discriminate]. injection N1 as <-. exists lo, hi. auto.
      + injection N1 as <-. eexists. split; [reflexivity|]. apply (Hn j); auto.
    - intros j a s c H1 H2 H3. cbn [snd] in H2. specialize (N2 j (dk a s) c (dks_nth _ _ _ _ _ H1 H2) H3). rewrite (Hbc j) in N2 by auto. unfold bin_cell.
      destruct (is_heat jx jy (length G + j) && is_number_axis a).
      + destruct (bin_ends a s) as [[lo hi]|]; [|discriminate]. injection N2 as <-. exists lo, hi. auto.
      + injection N2 as <-. eexists. split; [reflexivity|]. apply names_bin_ok.
        * rewrite Forall_forall in HF. apply HF. eapply nth_error_In; eauto.
        * pose proof (fixed_is h Hok) as X. rewrite Forall_forall in X. apply X. eapply nth_error_In; eauto.
        * eapply (slot_lt F); eauto.
  Qed.
  Lemma heat_rows : exists o, recurse2 jx jy 0 (G ++ F) T [] = Ok o /\ heat_data G F id jx jy numbers (has_group h) (map hmake (w_rows o)).
  Proof.
    assert (Hplain : forall row d, length d = prodn (tots ++ [k]) -> exists o, recurse2 jx jy (length G) F (PArr (tots ++ [k]) d) row = Ok o /\ w_rows o = flat_map (hrows jx jy k (length G) F row d) (indices tots)).
    { intros row d Hd. apply (heat_fixed jx jy k Hk F (all_listed h Hok HF) (length G) d row); auto. }
    destruct (heat_groups jx jy (o_layout h) (tots ++ [k]) g F (length G) Hg) with (G := G) (j := 0) (row := @nil vcell) (c := started h) as (o & gs & E & H1 & H2 & H3 & H4).
    - intros row d Hd. unfold hrun. destruct (Hplain row d Hd) as (o & -> & _). reflexivity.
    - apply groups_are; auto.
    - reflexivity.
    - apply started_ok; auto.
    - apply started_comparable; auto.
    - apply started_numbers; auto.
    - exists o. rewrite HT. split; [exact E|]. set (P := places_of tots gs).
      assert (HPin : forall ks ss, In (ks, ss) P -> has_group h ks /\ keys_fine G ks /\ Forall2 lt ss tots) by (intros ks ss; apply (places_fine h Hok HG Hre Hnk gs ks ss H1 H2 H3)).
      assert (ER : w_rows o = flat_map hplace P).
      { rewrite H4. unfold P, places_of. rewrite flat_map_flat_map. apply flat_map_ext_in. intros ks Hks. rewrite flat_map_map. unfold hgroup, hplace. cbn [fst snd app].
        destruct (hrow jx jy 0 (gds G ks)) as [x|]; [|symmetry; apply flat_map_nil; auto]. unfold hrun. destruct (Hplain x (g (block_data (started h) ks)) (Hg _)) as (o' & -> & ->).
        apply flat_map_ext_in. intros ss Hss. apply in_indices in Hss. unfold hrows. destruct (hrow jx jy (length G) (dks F ss)) as [y|]; [|reflexivity].
        assert (Hp : In (ks, ss) P) by (apply places_in; auto). destruct (HPin ks ss Hp) as (X1 & X2 & X3). fold tots. rewrite (number_row h T k g numbers) by auto. reflexivity. }
      rewrite ER. exists P. split; [apply places_all; auto|]. apply forall2_filter_flat. intros [ks ss] Hp. destruct (HPin ks ss Hp) as (X1 & X2 & X3). apply place_cells; auto.
      intros i e w org nf cl kk Hi Hkk. apply started_group in X1; auto. pose proof (block_key (started h) ks X1 i kk Hkk) as K. apply (started_numbers h Hnk (firstn i ks) kk e w org nf cl K).
      assert (i < length ks) by (apply nth_error_Some; congruence). rewrite firstn_length, Nat.min_l by lia. exact Hi.
  Qed.
End Rows.

Section Data.
  Variables (sqrt : Num -> Num) (bin_width : nat -> Num -> Num -> Num).
  Lemma data2d_ok h g p id is : hobj_ok h -> project (view h) (map ch_axis (p2_chain p) ++ [c_xaxis (p2_last p); c_yaxis (p2_last p)]) = Ok (view g) ->
    hobj_ok g -> Forall axis_fine (o_group g) -> Forall axis_fine (o_fixed g) ->
    comparable (o_content g) -> real_groups (o_group g) (o_content g) -> number_keys (o_group g) (o_content g) ->
    Forall2 (profile_number g) (profiles (c_profile2 (p2_last p))) is ->
    let l := p2_last p in
    let numbers := fun pl : place => expected_row sqrt g (fst pl) (snd pl) (no_profile (c_profile2 l)) false false is in
    exists data domains jx jy, data2d sqrt bin_width (view h) p id = Ok (o_group g ++ o_fixed g, data, domains) /\
      nth_error (o_group g ++ o_fixed g) jx = Some (c_xaxis l) /\ nth_error (o_group g ++ o_fixed g) jy = Some (c_yaxis l) /\
      heat_data (o_group g) (o_fixed g) id jx jy numbers (has_group g) data.
  Proof.
    intros Hokh EP Hok HG HF Hcmp Hre Hnk HPr l numbers. subst l. unfold data2d. rewrite EP. cbn [bind]. set (l := p2_last p) in *.
    set (o := {| t_count := no_profile (c_profile2 l); t_effcount := false; t_error := false; t_normalized := false; t_recarray := false |}).
    destruct (table_ok_shape sqrt bin_width g o (profiles (c_profile2 l)) is Hok HPr eq_refl ltac:(discriminate)) as (T & ET & (gf & ETm & Hgf) & _ & Hrow).
    rewrite ET. cbn [bind fst]. change (o_group (p_head (view g))) with (o_group g). change (o_fixed (p_head (view g))) with (o_fixed g).
    set (axes := map ch_axis (p2_chain p) ++ [c_xaxis l; c_yaxis l]) in *.
    assert (Hpos : forall x, In x axes -> exists j, position x (o_group g ++ o_fixed g) = Ok j /\ nth_error (o_group g ++ o_fixed g) j = Some x).
    { intros x Hx. destruct (projected_axis h g axes x EP Hokh Hx) as (Hin & Hnan). destruct (index_of_in _ _ Hin Hnan) as (j & Ej & Hj). exists j. unfold position. rewrite Ej. auto. }
    destruct (Hpos (c_xaxis l)) as (jx & Ejx & Hjx); [unfold axes; apply in_or_app; right; left; auto|]. destruct (Hpos (c_yaxis l)) as (jy & Ejy & Hjy); [unfold axes; apply in_or_app; right; right; left; auto|].
    rewrite Ejx, Ejy. cbn [bind].
    set (k := length (table_columns o (profiles (c_profile2 l)))) in *.
    assert (Hk : 0 < k).
    { unfold k, table_columns, o. cbn [t_count t_effcount t_error]. destruct (c_profile2 l); cbn [no_profile profiles]; cbn; lia. }
    assert (Hg : forall d, length (gf d) = prodn (tots_of (o_fixed g) ++ [k])).
    { intros d. rewrite Hgf, prod_app1. reflexivity. }
    assert (Hrow' : forall ks ss, has_group g ks -> Forall2 lt ss (tots_of (o_fixed g)) -> bin_row T ks ss = Some (numbers (ks, ss))).
    { intros ks ss H1 H2. apply Hrow; auto. }
    destruct (heat_rows g id T k gf numbers jx jy Hok HG HF Hcmp Hre Hnk Hk ETm Hg Hrow') as (r & Er & Hd); try (apply nth_error_Some; congruence).
    rewrite Er. cbn [bind]. eexists _, _, jx, jy. split; [reflexivity|]. auto.
  Qed.
End Data.
