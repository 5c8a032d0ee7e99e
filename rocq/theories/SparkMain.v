(** A Spark fill adds to each cell what its rows add (C52). *)
From Coq Require Import String Lia Permutation.
From Verif Require Import Base Num NumFacts Axis Calc Content Fill FillSpec FillProofs FillProofs2 FillProofs3 FillMain Tree Elem HistFill HistSpec HistFillProofs Spark SparkSpec SparkProofs.
Local Open Scope nat_scope.
Local Open Scope list_scope.

(** * Grouping *)
Lemma s_eqb_iff x y : s_eqb x y = true <-> x = y.
Proof.
  unfold s_eqb. rewrite orb_true_iff, andb_true_iff, neqb_iff. destruct x, y; cbn [isnan]; split; intros H; try tauto; try discriminate; try (left; split; [exact H|reflexivity]).
  all: destruct H as [(H & _)|(H & H')]; try exact H; discriminate.
Qed.
Lemma sidx_eqb_iff a b : sidx_eqb a b = true <-> a = b.
Proof.
  destruct a as [[[x|s]|]|x], b as [[[y|t]|]|y]; cbn [sidx_eqb]; try (split; [discriminate|congruence]); try (split; reflexivity).
  - rewrite s_eqb_iff. split; [congruence|]. intros H. inversion H. reflexivity.
  - rewrite String.eqb_eq. split; congruence.
  - rewrite Z.eqb_eq. split; congruence.
Qed.
Lemma index_eqb_iff a : forall b, index_eqb a b = true <-> a = b.
Proof.
  induction a as [|x a IH]; intros [|y b]; cbn [index_eqb]; try (split; [discriminate|congruence]); [split; reflexivity|].
  rewrite andb_true_iff, sidx_eqb_iff, IH. split; [intros (-> & ->); reflexivity|]. intros H. inversion H. auto.
Qed.
Lemma index_dec (a b : list sidx) : {a = b} + {a <> b}.
Proof. destruct (index_eqb a b) eqn:E; [left; apply index_eqb_iff; auto|right; intros ->; rewrite (proj2 (index_eqb_iff b b) eq_refl) in E; discriminate]. Qed.
Lemma distinct_in l x : In x (distinct l) <-> In x l.
Proof.
  induction l as [|y l IH]; cbn [distinct]; [reflexivity|]. cbn [In]. rewrite filter_In, IH.
  destruct (index_dec y x) as [E|E]; [tauto|]. destruct (index_eqb y x) eqn:Eq; [apply index_eqb_iff in Eq; tauto|]. cbn. tauto.
Qed.
Lemma distinct_nodup l : NoDup (distinct l).
Proof.
  induction l as [|y l IH]; cbn [distinct]; [constructor|]. constructor; [|apply NoDup_filter; auto].
  rewrite filter_In. intros (_ & H). rewrite (proj2 (index_eqb_iff y y) eq_refl) in H. discriminate.
Qed.

(** * Adding one row of sums to an array *)
Lemma nth_upd_in {A} (f : A -> A) i j l d : j < length l -> nth i (upd f j l) d = if Nat.eqb j i then f (nth i l d) else nth i l d.
Proof. revert i j. induction l as [|x l IH]; intros i j H; cbn [length] in H; [lia|]. destruct j, i; cbn [upd nth Nat.eqb]; auto. apply IH. lia. Qed.
Lemma nth_add_row base : forall vs a d q, base + a + length vs <= length d ->
  nth q (fold_left (fun d p => upd (fun x => nadd x (snd p)) (base + fst p) d) (combine (seq a (length vs)) vs) d) nzero
  = nadd (nth q d nzero) (if (base + a <=? q) && (q <? base + a + length vs) then nth (q - (base + a)) vs nzero else nzero).
Proof.
  induction vs as [|v vs IH]; intros a d q H; cbn [length seq combine fold_left] in *.
  - rewrite Nat.add_0_r. destruct (Nat.leb_spec (base + a) q), (Nat.ltb_spec q (base + a)); cbn [andb]; try lia; rewrite nadd_0_r; reflexivity.
  - rewrite IH by (rewrite upd_length; lia). cbn [fst snd]. rewrite nth_upd_in by lia.
    destruct (Nat.eqb_spec (base + a) q) as [E|E].
    + subst q. rewrite Nat.leb_refl, Nat.sub_diag. cbn [nth]. replace (base + S a <=? base + a) with false by (symmetry; apply Nat.leb_gt; lia). replace (base + a <? base + a + S (length vs)) with true by (symmetry; apply Nat.ltb_lt; lia). cbn [andb]. apply nadd_0_r.
    + f_equal. destruct (Nat.leb_spec (base + S a) q), (Nat.leb_spec (base + a) q), (Nat.ltb_spec q (base + S a + length vs)), (Nat.ltb_spec q (base + a + S (length vs))); cbn [andb]; try lia; try reflexivity.
      replace (q - (base + a)) with (S (q - (base + S a))) by lia. reflexivity.
Qed.
Lemma add_row_length base vs : forall a d, length (fold_left (fun d p => upd (fun x => nadd x (snd p)) (base + fst p) d) (combine (seq a (length vs)) vs) d) = length d.
Proof. induction vs as [|v vs IH]; intros a d; cbn [length seq combine fold_left]; auto. rewrite IH, upd_length. reflexivity. Qed.
Lemma catopts_some {A} (l : list A) : catopts (map Some l) = l.
Proof. unfold catopts. induction l; simpl; congruence. Qed.
Lemma add_row_ok k pos vs d : length vs = k -> pos * k + k <= length d ->
  exists d', add_row k pos (map Some vs) d = Ok d' /\ length d' = length d /\
    forall i j, j < k -> nth (i * k + j) d' nzero = nadd (nth (i * k + j) d nzero) (if Nat.eqb i pos then nth j vs nzero else nzero).
Proof.
  intros Hl Hd. unfold add_row. replace (existsb is_none (map Some vs)) with false by (clear; induction vs; simpl; auto). rewrite catopts_some. subst k. rewrite broadcast_exact. eexists. split; [reflexivity|].
  split; [apply add_row_length|]. intros i j Hj. rewrite nth_add_row by lia. f_equal. rewrite !Nat.add_0_r.
  destruct (Nat.eqb_spec i pos) as [->|E].
  - replace (_ && _) with true by (symmetry; apply andb_true_iff; split; [apply Nat.leb_le|apply Nat.ltb_lt]; lia). f_equal. lia.
  - replace (_ && _) with false; auto. symmetry. apply andb_false_iff. destruct (Nat.lt_ge_cases i pos); [left; apply Nat.leb_gt|right; apply Nat.ltb_ge]; nia.
Qed.

Section Main.
  Variable h : hist.
  Notation L := (hist_layout h).
  Notation ng := (length (h_group h)).
  Notation fixed := (map fst (h_fixed h)).
  Notation m := (hist_mode h).
  Variable weight : bool.
  Hypothesis Hweight : weight = match h_weight h with Some _ => true | None => false end.

  (** What a row adds to column [j]. *)
  Definition adds (j : nat) (r : row) : Num :=
    if j <? 2 * length (h_prof h)
    then nmul ((if Nat.even j then fst else snd) (nth (j / 2) (r_prof r) (nzero, nzero))) (row_weight m r)
    else if Nat.eqb j (2 * length (h_prof h)) then row_weight m r else row_weight2 m r.
  Lemma adds_column kd r : has_column L kd -> adds (column_of L kd) r = row_adds m kd r.
  Proof.
    unfold adds. destruct kd as [p|p| |]; cbn [has_column column_of row_adds l_nprof hist_layout]; intros H.
    - replace (2 * p <? 2 * length (h_prof h)) with true by (symmetry; apply Nat.ltb_lt; lia). rewrite even_2p, div_2p. reflexivity.
    - replace (2 * p + 1 <? 2 * length (h_prof h)) with true by (symmetry; apply Nat.ltb_lt; lia). rewrite even_2p1, div_2p1. reflexivity.
    - rewrite Nat.ltb_irrefl, Nat.eqb_refl. reflexivity.
    - replace (_ <? _) with false by (symmetry; apply Nat.ltb_ge; lia). replace (Nat.eqb _ _) with false by (symmetry; apply Nat.eqb_neq; lia). reflexivity.
  Qed.

  (** A row of the data frame after the index columns have been computed. *)
  Definition rel (sr : sparkrow) (r : row) : Prop :=
    exists ks zs, fst sr = map (fun k => IKey (Some k)) ks ++ map INum zs /\ r_keys r = map Some ks /\ length ks = ng /\
      length zs = length fixed /\
      Forall2 (fun az s => spark_slot (fst az) (snd az) = Ok (option_map Z.to_nat s) /\ slot_ok (totbins (fst az)) s) (combine fixed zs) (r_slots r) /\
      snd sr = map (fun j => Some (adds j r)) (seq 0 (ncolumns h weight)).

  Lemma map_key_inj a : forall b za zb, length a = length b -> map (fun k => IKey (Some k)) a ++ map INum za = map (fun k => IKey (Some k)) b ++ map INum zb -> a = b /\ za = zb.
  Proof.
    induction a as [|x a IH]; intros [|y b] za zb Hl E; try discriminate Hl; cbn [map app] in E.
    - split; auto. clear - E. revert zb E. induction za as [|z za IH]; intros [|z' zb] E; try discriminate; auto. inversion E. f_equal. auto.
    - inversion E; subst. destruct (IH b za zb) as (-> & ->); auto.
  Qed.
  Lemma rel_same sr sr' r r' : rel sr r -> rel sr' r' -> fst sr = fst sr' -> r_keys r = r_keys r' /\ r_slots r = r_slots r'.
  Proof.
    intros (ks & zs & E1 & K1 & L1 & Z1 & F1 & _) (ks' & zs' & E2 & K2 & L2 & Z2 & F2 & _) E. rewrite E1, E2 in E. apply map_key_inj in E; [|congruence]. destruct E as (-> & ->).
    split; [congruence|]. clear - F1 F2. revert F2. generalize (r_slots r'). induction F1 as [|az s l ss (H1 & O1) F IH]; intros ss' F2; inversion F2 as [|az' s' l' ss'' (H2 & O2) F' A B]; subst; auto. f_equal; [|apply IH; auto].
    rewrite H1 in H2. inversion H2 as [E]. destruct s as [s|], s' as [s'|]; cbn in E; try discriminate; auto. inversion E. cbn in O1, O2. f_equal. lia.
  Qed.

  (** ** The sums of one group *)
  Lemma sum_nulls_some l : l <> [] -> sum_nulls (map Some l) = Some (nsum l).
  Proof. intros H. unfold sum_nulls. rewrite catopts_some. destruct l; [congruence|reflexivity]. Qed.
  Lemma aggregate_ok G R : Forall2 rel G R -> G <> [] ->
    aggregate h weight G = map Some (map (fun j => nsum (map (adds j) R)) (seq 0 (l_last L))).
  Proof.
    intros F Hne. unfold aggregate.
    assert (E : map (fun j => sum_nulls (map (fun r => nth j (snd r) None) G)) (seq 0 (ncolumns h weight)) = map (fun j => Some (nsum (map (adds j) R))) (seq 0 (ncolumns h weight))).
    { apply map_ext_in. intros j Hj. apply in_seq in Hj.
      rewrite <- sum_nulls_some by (inversion F; subst; [congruence|discriminate]). f_equal. clear Hne. induction F as [|sr r G R Hr F IH]; auto. cbn [map]. f_equal; auto.
      destruct Hr as (_ & _ & _ & _ & _ & _ & _ & ->). rewrite (nth_indep _ None (Some (adds 0 r))) by (rewrite map_length, seq_length; lia). rewrite (map_nth (fun j => Some (adds j r))). f_equal. f_equal. rewrite seq_nth by lia. reflexivity. }
    rewrite E. rewrite map_map. unfold l_last, ncolumns. cbn [l_nprof l_weighted hist_layout]. rewrite Hweight. destruct (h_weight h) eqn:Ew; [rewrite app_nil_r; reflexivity|].
    rewrite (Nat.add_1_r (2 * length (h_prof h))), Nat.add_0_r, seq_S, map_app. cbn [Nat.add map]. do 3 f_equal.
    rewrite (Forall2_len _ _ _ F), <- nsum_map_one. f_equal. apply map_ext. intros r. unfold adds. rewrite Nat.ltb_irrefl, Nat.eqb_refl. unfold row_weight, hist_mode. rewrite Ew. reflexivity.
  Qed.

  (** ** The position of the slots *)
  Fixpoint all_slots (l : list (option Z)) : option (list nat) :=
    match l with
    | [] => Some []
    | Some z :: l' => option_map (cons (Z.to_nat z)) (all_slots l')
    | None :: _ => None
    end.
  Notation slot_rel := (fun az s => spark_slot (fst az) (snd az) = Ok (option_map Z.to_nat s) /\ slot_ok (totbins (fst az)) s).
  Lemma spark_pos_ok axes : forall zs slots acc, length zs = length axes -> Forall2 slot_rel (combine axes zs) slots ->
    spark_pos axes (map INum zs) acc = Ok (option_map (fun ss => acc * prod (map totbins axes) + ravel (map totbins axes) ss) (all_slots slots)).
  Proof.
    induction axes as [|a axes IH]; intros zs slots acc Hl F.
    - destruct zs; [|discriminate]. inversion F; subst. cbn. f_equal. f_equal. lia.
    - destruct zs as [|z zs]; [discriminate|]. cbn [combine] in F. inversion F as [|? s ? slots' (H1 & H2) F']; subst. cbn [map spark_pos fst snd] in *. rewrite H1. cbn [bind].
      destruct s as [s|]; cbn [option_map all_slots]; [|reflexivity]. rewrite (IH zs slots') by (auto; cbn [length] in Hl; lia). f_equal. destruct (all_slots slots') as [ss|]; cbn [option_map]; auto. f_equal. cbn [ravel prod fold_right]. fold (prod (map totbins axes)). unfold prod. nia.
  Qed.
  Lemma all_slots_in axes zs slots ss : length zs = length axes -> Forall2 slot_rel (combine axes zs) slots -> all_slots slots = Some ss -> Forall2 lt ss (map totbins axes).
  Proof.
    revert zs slots ss. induction axes as [|a axes IH]; intros zs slots ss Hl F E.
    - destruct zs; [|discriminate]. inversion F; subst. inversion E. constructor.
    - destruct zs as [|z zs]; [discriminate|]. cbn [combine] in F. inversion F as [|? s ? slots' (H1 & H2) F']; subst. destruct s as [s|]; [|discriminate]. cbn [all_slots] in E. destruct (all_slots slots') as [ss'|] eqn:E'; inversion E; subst. cbn [map]. constructor; [|eapply IH; eauto].
      cbn [slot_ok fst] in H2. lia.
  Qed.
  Lemma slots_match_iff ss : forall slots, Forall (fun s => forall z, s = Some z -> (0 <= z)%Z) slots -> slots_match ss slots = true <-> all_slots slots = Some ss.
  Proof.
    induction ss as [|x ss IH]; intros [|s slots] F; cbn [slots_match all_slots].
    - tauto.
    - split; [discriminate|]. destruct s; [destruct (all_slots slots)|]; discriminate.
    - split; discriminate.
    - inversion F as [|? ? F1 F2]; subst. destruct s as [z|]; [|split; discriminate]. specialize (F1 z eq_refl). rewrite andb_true_iff, Z.eqb_eq, IH by auto. destruct (all_slots slots) as [l|]; cbn [option_map].
      + split; [intros (E & E')|intros E]; inversion E; subst; [inversion E'; subst; rewrite Nat2Z.id; reflexivity|]. split; [lia|reflexivity].
      + split; [intros (_ & E)|intros E]; discriminate E.
  Qed.

  (** ** recurse *)
  Lemma recurse_ok vs zs slots : length vs = l_last L -> length zs = length fixed -> Forall2 slot_rel (combine fixed zs) slots ->
    forall n ks c d, length ks = n -> content_ok L n c -> block c ks = Some d ->
    exists c', recurse L fixed n (map (fun k => IKey (Some k)) ks ++ map INum zs) (map Some vs) c = (c', None) /\ content_ok L n c' /\
      (forall ks', block c' ks' <> None <-> block c ks' <> None) /\
      forall ks' ss j, in_shape L ss -> j < l_last L ->
        cell L c' ks' ss j = nadd (cell L c ks' ss j) (if keys_match ks' (map Some ks) && slots_match ss slots then nth j vs nzero else nzero).
  Proof.
    intros Hv Hz F. induction n as [|n IH]; intros ks c d Hk Hc Hb.
    - destruct ks; [|discriminate]. destruct c as [|dd|]; try (destruct Hc; fail). cbn [content_ok] in Hc. cbn [map app recurse].
      rewrite (spark_pos_ok fixed zs slots 0) by auto. cbn [Nat.add Nat.mul].
      assert (Nn : Forall (fun s => forall z, s = Some z -> (0 <= z)%Z) slots).
      { clear - F. induction F as [|az s l l' (H1 & H2) F IH]; constructor; auto. intros z ->. cbn [slot_ok] in H2. lia. }
      assert (M : forall ss, slots_match ss slots = true <-> all_slots slots = Some ss) by (intros ss; apply slots_match_iff; auto).
      destruct (all_slots slots) as [ss0|] eqn:Es; cbn [option_map].
      + assert (I0 : in_shape L ss0). { unfold in_shape. cbn [l_tots hist_layout]. rewrite <- (map_map fst totbins). eapply all_slots_in; eauto. }
        assert (R0 := ravel_lt _ _ I0). assert (P0 : ravel (map totbins fixed) ss0 < l_rows L) by (unfold l_rows; cbn [l_tots hist_layout] in *; rewrite <- (map_map fst totbins) in *; exact R0).
        assert (LR : length dd = l_rows L * l_last L) by exact Hc.
        destruct (add_row_ok (l_last L) (ravel (map totbins fixed) ss0) vs dd Hv) as (d' & E & Ld & Vd); [rewrite LR; nia|]. rewrite E. eexists. split; [reflexivity|]. split; [cbn [content_ok]; congruence|]. split.
        * intros [|k ks']; cbn [block]; split; congruence.
        * intros [|k ks'] ss j Hss Hj; unfold cell; cbn [block keys_match map]; [|cbn [andb]; rewrite nadd_0_r; reflexivity]. rewrite Vd by auto. f_equal. cbn [andb].
          destruct (slots_match ss slots) eqn:Em.
          -- apply M in Em. inversion Em; subst. replace (l_tots L) with (map totbins fixed) by (cbn [l_tots hist_layout]; rewrite map_map; reflexivity). rewrite Nat.eqb_refl. reflexivity.
          -- replace (Nat.eqb _ _) with false; auto. symmetry. apply Nat.eqb_neq. intros Er. assert (ss = ss0). { apply (ravel_inj _ _ (l_tots L)); auto. rewrite Er. cbn [l_tots hist_layout]. rewrite map_map. reflexivity. }
             subst ss0. rewrite (proj2 (M ss) eq_refl) in Em. discriminate.
      + eexists. split; [reflexivity|]. split; [exact Hc|]. split; [tauto|]. intros ks' ss j _ _. replace (slots_match ss slots) with false; [rewrite andb_false_r, nadd_0_r; reflexivity|]. destruct (slots_match ss slots) eqn:Em; auto. apply M in Em. discriminate.
    - destruct ks as [|k ks]; [discriminate|]. destruct c as [| |l]; try (destruct Hc; fail). destruct Hc as (Hl & Hn & Hok). cbn [block] in Hb. destruct (assoc k l) as [c1|] eqn:Ea; [|discriminate].
      assert (Kk : key_ok k) by (destruct (key_ok_dec k) as [H|H]; auto; rewrite assoc_not_ok in Ea by auto; discriminate).
      assert (H1 : content_ok L n c1). { rewrite Forall_forall in Hl. apply (Hl (k, c1)). apply assoc_in, Ea. }
      destruct (IH ks c1 d ltac:(cbn [length] in Hk; lia) H1 Hb) as (c1' & E & Ok1 & B1 & V1). cbn [map app recurse]. rewrite Ea, E. eexists. split; [reflexivity|]. split; [|split].
      + cbn [content_ok]. split; [apply assoc_set_forall; auto|]. split; [apply assoc_set_nodup; auto|apply assoc_set_ok; auto].
      + intros [|k' ks']; cbn [block]; [tauto|]. destruct (gkey_eqb k' k) eqn:Eq.
        * apply gkey_eqb_iff in Eq. destruct Eq as (-> & _). rewrite assoc_set_same, Ea by auto. apply B1.
        * rewrite assoc_set_other by auto. tauto.
      + intros [|k' ks'] ss j Hss Hj; [unfold cell; cbn [block keys_match map andb]; rewrite nadd_0_r; reflexivity|].
        assert (V := V1 ks' ss j Hss Hj). unfold cell in *. cbn [block keys_match map]. destruct (gkey_eqb k' k) eqn:Eq; cbn [andb].
        * apply gkey_eqb_iff in Eq. destruct Eq as (-> & _). rewrite assoc_set_same, Ea by auto. exact V.
        * rewrite assoc_set_other by auto. rewrite nadd_0_r. reflexivity.
  Qed.

  (** ** All groups *)
  Variable P : list (sparkrow * row).
  Hypothesis HP : Forall (fun x => rel (fst x) (snd x)) P.
  Definition grp (ix : list sidx) : list (sparkrow * row) := filter (fun x => index_eqb ix (fst (fst x))) P.
  Lemma wait_ok gs : forall c, (forall ix, In ix gs -> grp ix <> []) ->
    content_ok L ng c -> (forall r, In r (map snd P) -> exists ks d, r_keys r = map Some ks /\ block c ks = Some d) ->
    exists c', wait L fixed ng (map (fun ix => (ix, aggregate h weight (map fst (grp ix)))) gs) c = (c', None) /\ content_ok L ng c' /\
      (forall ks, block c' ks <> None <-> block c ks <> None) /\
      forall ks ss kd, in_shape L ss -> has_column L kd ->
        cell L c' ks ss (column_of L kd) = nadd (cell L c ks ss (column_of L kd))
          (nsum (map (fun ix => nsum (map (row_adds m kd) (filter (in_cell ks ss) (map snd (grp ix))))) gs)).
  Proof.
    induction gs as [|ix gs IH]; intros c Hne Hc Hr.
    - exists c. cbn [map wait]. split; auto. split; auto. split; [tauto|]. intros. cbn. rewrite nadd_0_r. reflexivity.
    - cbn [map wait].
      assert (Hg := Hne ix (or_introl eq_refl)). assert (FG : Forall (fun x => rel (fst x) (snd x)) (grp ix)) by (apply incl_Forall with (l1 := P); auto; intros x Hx; apply filter_In in Hx; tauto).
      assert (F2 : Forall2 rel (map fst (grp ix)) (map snd (grp ix))) by (clear - FG; induction FG; cbn [map]; constructor; auto).
      rewrite (aggregate_ok (map fst (grp ix)) (map snd (grp ix)) F2) by (destruct (grp ix); [congruence|discriminate]).
      destruct (grp ix) as [|x0 G] eqn:EG; [congruence|]. rewrite <- EG in *.
      assert (Hx0 : In x0 (grp ix)) by (rewrite EG; left; reflexivity).
      assert (Hrel := proj1 (Forall_forall _ _) FG x0 Hx0). cbv beta in Hrel. pose proof Hrel as (ks & zs & E1 & K1 & L1 & Z1 & S1 & _).
      assert (Ei : ix = fst (fst x0)) by (apply filter_In in Hx0; apply index_eqb_iff, Hx0).
      destruct (Hr (snd x0)) as (ks' & d & Ek & Eb). { apply in_map. apply filter_In in Hx0. tauto. }
      assert (ks' = ks). { rewrite K1 in Ek. clear - Ek. revert ks' Ek. induction ks as [|k ks IH]; intros [|k' ks'] E; try discriminate; auto. inversion E. f_equal. auto. } subst ks'.
      destruct (recurse_ok (map (fun j => nsum (map (adds j) (map snd (grp ix)))) (seq 0 (l_last L))) zs (r_slots (snd x0))) with (n := ng) (ks := ks) (c := c) (d := d) as (c1 & E & O1 & B1 & V1); auto; [rewrite map_length, seq_length; reflexivity|].
      rewrite <- E1, <- Ei in E. rewrite E.
      destruct (IH c1) as (c2 & W & O2 & B2 & V2); auto.
      { intros ix' Hi. apply Hne. right. auto. }
      { intros r Hr'. destruct (Hr r Hr') as (k & d' & H1 & H2). assert (N : block c1 k <> None) by (apply B1; congruence). destruct (block c1 k) as [d1|] eqn:Eq; [|congruence]. eauto. }
      exists c2. split; [exact W|]. split; auto. split; [intros k; rewrite B2; apply B1|].
      intros k ss kd Hss Hkd. rewrite V2, V1 by (auto; apply column_lt; auto). rewrite <- nadd_assoc. f_equal. cbn [map]. rewrite nsum_cons. f_equal.
      rewrite (nth_indep _ nzero (nsum (map (adds 0) (map snd (grp ix))))) by (rewrite map_length, seq_length; apply column_lt; auto).
      rewrite (map_nth (fun j => nsum (map (adds j) (map snd (grp ix))))). rewrite seq_nth by (apply column_lt; auto). cbn [Nat.add].
      assert (Same : forall r, In r (map snd (grp ix)) -> in_cell k ss r = (keys_match k (map Some ks) && slots_match ss (r_slots (snd x0)))).
      { intros r Hin. apply in_map_iff in Hin. destruct Hin as (x & <- & Hx). assert (Rx := proj1 (Forall_forall _ _) FG x Hx). cbv beta in Rx.
        assert (Ex : ix = fst (fst x)) by (apply filter_In in Hx; apply index_eqb_iff, Hx).
        destruct (rel_same _ _ _ _ Rx Hrel ltac:(congruence)) as (Q1 & Q2). unfold in_cell. rewrite Q1, Q2, K1. reflexivity. }
      destruct (keys_match k (map Some ks) && slots_match ss (r_slots (snd x0))).
      + rewrite filter_all by exact Same. f_equal. apply map_ext. intros r. apply adds_column; auto.
      + rewrite filter_none by exact Same. reflexivity.
  Qed.

  Lemma query_ok collect c : (forall l, Permutation (collect l) l) ->
    content_ok L ng c -> (forall r, In r (map snd P) -> exists ks d, r_keys r = map Some ks /\ block c ks = Some d) ->
    exists c', wait L fixed ng (collect (query h weight (map fst P))) c = (c', None) /\ content_ok L ng c' /\
      (forall ks, block c' ks <> None <-> block c ks <> None) /\
      forall ks ss kd, in_shape L ss -> has_column L kd ->
        cell L c' ks ss (column_of L kd) = nadd (cell L c ks ss (column_of L kd))
          (nsum (map (row_adds m kd) (filter (in_cell ks ss) (map snd P)))).
  Proof.
    intros Hp Hc Hr. unfold query.
    assert (Hq := Hp (map (fun ix => (ix, aggregate h weight (filter (fun r => index_eqb ix (fst r)) (map fst P)))) (distinct (map fst (map fst P))))).
    apply Permutation_map_inv in Hq. destruct Hq as (gs & -> & Hg).
    rewrite map_ext with (g := fun ix => (ix, aggregate h weight (map fst (grp ix)))) by (intros ix; rewrite filter_map_swap; reflexivity).
    assert (Hin : forall ix, In ix gs <-> exists x, In x P /\ fst (fst x) = ix).
    { intros ix. rewrite <- (Permutation_in' eq_refl Hg), distinct_in, map_map, in_map_iff. split; intros (x & A & B); exists x; auto. }
    destruct (wait_ok gs c) as (c' & W & O & B & V); auto.
    { intros ix Hi. apply Hin in Hi. destruct Hi as (x & Hx & <-). intros E. assert (In x (grp (fst (fst x)))) by (apply filter_In; split; auto; apply index_eqb_iff; reflexivity). rewrite E in H. destruct H. }
    exists c'. split; auto. split; auto. split; auto. intros ks ss kd Hss Hkd. rewrite V by auto. f_equal.
    rewrite filter_map_swap, map_map.
    rewrite <- (@nsum_cells (list sidx) (sparkrow * row) (fun ix x => index_eqb ix (fst (fst x)) && in_cell ks ss (snd x)) (fun x => in_cell ks ss (snd x)) (fun x => row_adds m kd (snd x)) gs P).
    - f_equal. apply map_ext. intros ix. unfold grp. rewrite filter_map_swap, map_map, filter_filter. reflexivity.
    - eapply Permutation_NoDup; [exact Hg|apply distinct_nodup].
    - intros r _ -> ix _. apply andb_false_r.
    - intros r Hr' ->. exists (fst (fst r)). split; [apply Hin; eauto|]. rewrite (proj2 (index_eqb_iff _ _) eq_refl). reflexivity.
    - intros r a b Ha Hb _ _. apply andb_true_iff in Ha, Hb. destruct Ha as (Ha & _), Hb as (Hb & _). apply index_eqb_iff in Ha, Hb. congruence.
  Qed.
End Main.

(** * From the data frame to its rows *)
Lemma Ok_inj {A} (x y : A) : Ok x = Ok y -> x = y.
Proof. intros H. inversion H. reflexivity. Qed.
Lemma mapM_app {A B} (f : A -> res B) l l' ys ys' : mapM f l = Ok ys -> mapM f l' = Ok ys' -> mapM f (l ++ l') = Ok (ys ++ ys').
Proof. intros H H'. apply mapM_ok. apply mapM_ok in H, H'. apply Forall2_app; auto. Qed.
Lemma flat_pairs {A B} (f g : A -> B) d l : flat_map (fun x => [f x; g x]) l = map (fun j => if Nat.even j then f (nth (j / 2) l d) else g (nth (j / 2) l d)) (seq 0 (2 * length l)).
Proof.
  induction l as [|x l IH] using rev_ind; [reflexivity|]. rewrite flat_map_app, app_length. cbn [length]. replace (2 * (length l + 1)) with (2 * length l + 2) by lia. rewrite seq_app, map_app. f_equal.
  - rewrite IH. apply map_ext_in. intros j Hj. apply in_seq in Hj. rewrite app_nth1; auto. apply Nat.div_lt_upper_bound; lia.
  - cbn [seq map flat_map app Nat.add]. rewrite even_2p, div_2p. replace (S (2 * length l)) with (2 * length l + 1) by lia. rewrite even_2p1, div_2p1. rewrite nth_middle. reflexivity.
Qed.

Section Frame.
  Variable cast : Num -> Z.
  Variable user : string -> list arg -> res val.
  Variable sfun : string -> list sval -> res sval.
  Variable h : hist.
  Variable weight : bool.
  Hypothesis Hcast : cast_good cast.
  Hypothesis Hweight : weight = match h_weight h with Some _ => true | None => false end.
  Hypothesis Hmade : forall p, In p (h_group h ++ h_fixed h) -> made (fst p).
  Variable field : string -> res val.
  Hypothesis Hsame : forall t, In t (hist_exprs h) -> same_in_spark user field t.
  Hypothesis Hfits : forall p v, In p (h_group h ++ h_fixed h) -> value user field (snd p) = Ok v -> fits (fst p) v.

  Lemma row_keys ps : incl ps (h_group h) -> forall ks, mapM (fun p => do v <- value user field (snd p); key_of Fin (fst p) v) ps = Ok ks ->
    exists ks', ks = map Some ks' /\ mapM (fun p => do v <- scol sfun field (snd p); spark_index Fin (fst p) v) ps = Ok (map (fun k => IKey (Some k)) ks').
  Proof.
    induction ps as [|p ps IH]; intros Hi ks E; cbn [mapM] in *; [inversion E; exists []; split; reflexivity|].
    apply bind_ok in E. destruct E as (k & Ek & E). apply bind_ok in E. destruct E as (ks1 & E1 & E). inversion E; subst.
    apply bind_ok in Ek. destruct Ek as (v & Ev & Ek). assert (Hp : In p (h_group h)) by (apply Hi; left; reflexivity).
    destruct (IH (fun x H => Hi x (or_intror H)) _ E1) as (ks' & -> & M).
    destruct (spark_index_key (fst p) v k) as (k' & -> & S1); auto.
    { destruct (fst p); try discriminate Ek; reflexivity. } { apply Hmade, in_or_app; auto. } { apply Hfits; auto. apply in_or_app; auto. }
    exists (k' :: ks'). split; [reflexivity|]. rewrite (same_value sfun user field (snd p)) with (v := v); auto; [|apply Hsame; unfold hist_exprs; apply in_or_app; left; apply in_map; auto]. cbn [bind]. rewrite S1. cbn [bind]. rewrite M. reflexivity.
  Qed.
  Lemma row_slots ps : incl ps (h_fixed h) -> forall ss, mapM (fun p => do v <- value user field (snd p); HistFill.slot_of cast Fin (fst p) v) ps = Ok ss ->
    exists zs, length zs = length (map fst ps) /\ mapM (fun p => do v <- scol sfun field (snd p); spark_index Fin (fst p) v) ps = Ok (map INum zs) /\
      Forall2 (fun az s => spark_slot (fst az) (snd az) = Ok (option_map Z.to_nat s) /\ slot_ok (totbins (fst az)) s) (combine (map fst ps) zs) ss.
  Proof.
    induction ps as [|p ps IH]; intros Hi ss E; cbn [mapM] in *; [inversion E; exists []; split; [reflexivity|split; [reflexivity|constructor]]|].
    apply bind_ok in E. destruct E as (s & Es & E). apply bind_ok in E. destruct E as (ss1 & E1 & E). inversion E; subst.
    apply bind_ok in Es. destruct Es as (v & Ev & Es). assert (Hp : In p (h_fixed h)) by (apply Hi; left; reflexivity).
    destruct (IH (fun x H => Hi x (or_intror H)) _ E1) as (zs & Lz & M & F).
    destruct (spark_index_slot cast (fst p) v s) as (z & S1 & S2 & S3); auto.
    { destruct (fst p); try discriminate Es; reflexivity. } { apply Hmade, in_or_app; auto. } { apply Hfits; auto. apply in_or_app; auto. }
    exists (z :: zs). split; [cbn [length map]; congruence|]. split; [|cbn [map combine]; constructor; auto].
    rewrite (same_value sfun user field (snd p)) with (v := v); auto; [|apply Hsame; unfold hist_exprs; apply in_or_app; right; apply in_or_app; left; apply in_map; auto]. cbn [bind]. rewrite S1. cbn [bind]. rewrite M. reflexivity.
  Qed.
  Lemma number_spark t x : In t (hist_exprs h) -> number user field t = Ok x -> (do v <- scol sfun field t; snum v) = Ok (Some x).
  Proof.
    intros Hi E. unfold number in E. apply bind_ok in E. destruct E as (v & Ev & E). destruct v; inversion E; subst. rewrite (same_value sfun user field t (Hsame t Hi) _ Ev). reflexivity.
  Qed.
  Lemma row_profs ts : incl ts (h_prof h) -> forall ps, mapM (fun t => do x <- number user field t; Ok (x, nmul x x)) ts = Ok ps ->
    mapM (fun t => do v <- scol sfun field t; snum v) ts = Ok (map (fun p => Some (fst p)) ps) /\ Forall (fun p => snd p = nmul (fst p) (fst p)) ps /\ length ps = length ts.
  Proof.
    induction ts as [|t ts IH]; intros Hi ps E; cbn [mapM] in *; [inversion E; split; [reflexivity|split; [constructor|reflexivity]]|].
    apply bind_ok in E. destruct E as (p & Ep & E). apply bind_ok in E. destruct E as (ps1 & E1 & E). inversion E; subst. apply bind_ok in Ep. destruct Ep as (x & Ex & Ep). inversion Ep; subst.
    destruct (IH (fun y H => Hi y (or_intror H)) _ E1) as (M & F & Ln). rewrite (number_spark t x); auto.
    - cbn [bind]. rewrite M. cbn [bind]. split; [reflexivity|split; [constructor; auto|cbn [length]; congruence]].
    - unfold hist_exprs. apply in_or_app; right. apply in_or_app; right. apply in_or_app; left. apply Hi. left. reflexivity.
  Qed.

  Lemma spark_row_rel r : row_of cast Fin user h field = Ok r -> r_w r <> NaN -> exists sr, spark_row Fin sfun h weight field = Ok sr /\ rel h weight sr r.
  Proof.
    unfold row_of. intros E Hw. apply bind_ok in E. destruct E as (ks & Ek & E). apply bind_ok in E. destruct E as (ss & Es & E). apply bind_ok in E. destruct E as (ps & Ep & E). apply bind_ok in E. destruct E as (w & Ew & E). apply Ok_inj in E. subst r. cbn [r_w] in Hw.
    destruct (row_keys (h_group h) (incl_refl _) ks Ek) as (ks' & -> & Mk). destruct (row_slots (h_fixed h) (incl_refl _) ss Es) as (zs & Lz & Ms & F). destruct (row_profs (h_prof h) (incl_refl _) ps Ep) as (Mp & Fp & Lp).
    assert (Lk : length ks' = length (h_group h)). { apply mapM_ok, Forall2_len in Mk. rewrite map_length in Mk. auto. }
    unfold spark_row. rewrite (mapM_app _ _ _ _ _ Mk Ms). cbn [bind]. rewrite Mp. cbn [bind].
    set (r := {| r_keys := map Some ks'; r_slots := ss; r_prof := ps; r_w := w; r_w2 := nmul w w |}).
    assert (Fl : forall (f : Num * Num -> Num), forall j, j < 2 * length (h_prof h) -> nth (j / 2) ps (nzero, nzero) = nth (j / 2) (r_prof r) (nzero, nzero)) by reflexivity.
    assert (Pr : forall wt, (forall x, In x ps -> nmul (fst x) wt = nmul (fst x) wt) -> flat_map (fun x => [mul_null x (Some wt); mul_null (mul_null x x) (Some wt)]) (map (fun p => Some (fst p)) ps) = map (fun j => Some (nmul ((if Nat.even j then fst else snd) (nth (j / 2) ps (nzero, nzero))) wt)) (seq 0 (2 * length ps))).
    { intros wt _. rewrite flat_map_concat_map, map_map, <- flat_map_concat_map. rewrite (flat_pairs _ _ (nzero, nzero)). apply map_ext_in. intros j Hj. apply in_seq in Hj. cbn [mul_null].
      destruct (Nat.even j); auto. rewrite (proj1 (Forall_forall _ _) Fp); auto. apply nth_In. apply Nat.div_lt_upper_bound; lia. }
    assert (Ad : forall c, (if c <? 2 * length (h_prof h) then Some (adds h c r) else None) = (if c <? 2 * length (h_prof h) then Some (nmul ((if Nat.even c then fst else snd) (nth (c / 2) ps (nzero, nzero))) (row_weight (hist_mode h) r)) else None)).
    { intros c. unfold adds. destruct (c <? 2 * length (h_prof h)); reflexivity. }
    assert (Ad' : forall c, c < 2 * length (h_prof h) -> adds h c r = nmul ((if Nat.even c then fst else snd) (nth (c / 2) ps (nzero, nzero))) (row_weight (hist_mode h) r)).
    { intros c Hc. unfold adds. replace (c <? _) with true by (symmetry; apply Nat.ltb_lt; auto). reflexivity. }
    assert (T1 : adds h (2 * length (h_prof h)) r = row_weight (hist_mode h) r) by (unfold adds; rewrite Nat.ltb_irrefl, Nat.eqb_refl; reflexivity).
    assert (T2 : adds h (S (2 * length (h_prof h))) r = row_weight2 (hist_mode h) r) by (unfold adds; replace (_ <? _) with false by (symmetry; apply Nat.ltb_ge; lia); replace (Nat.eqb _ _) with false by (symmetry; apply Nat.eqb_neq; lia); reflexivity).
    assert (Nw : isnan w = false) by (apply isnan_false; auto).
    assert (Fin' : forall cols, cols = map (fun j => Some (adds h j r)) (seq 0 (ncolumns h weight)) -> rel h weight (map (fun k => IKey (Some k)) ks' ++ map INum zs, cols) r).
    { intros cols ->. exists ks', zs. cbn [fst snd]. split; [reflexivity|]. split; [reflexivity|]. split; [exact Lk|]. split; [exact Lz|]. split; [exact F|reflexivity]. }
    unfold ncolumns in Fin'.
    destruct weight eqn:Hwt.
    - destruct (h_weight h) as [wx|] eqn:Eh; [|discriminate]. 
      assert (W : (do v <- scol sfun field (weight_tree h); snum v) = Ok (Some w)).
      { unfold weight_tree. rewrite Eh. destruct wx as [v|t]; [inversion Ew; reflexivity|]. apply number_spark; auto. unfold hist_exprs. rewrite Eh. do 3 (apply in_or_app; right). left. reflexivity. }
      rewrite W. cbn [bind]. eexists. split; [reflexivity|]. apply Fin'. rewrite Pr by auto. rewrite seq_app, map_app, Lp. cbn [seq map Nat.add mul_null]. rewrite T1, T2.
      assert (Rw : row_weight (hist_mode h) r = w) by (unfold row_weight, hist_mode; rewrite Eh; destruct wx; [inversion Ew; reflexivity|unfold r; cbn [r_w]; rewrite Nw; reflexivity]).
      assert (Rw2 : row_weight2 (hist_mode h) r = nmul w w) by (unfold row_weight2, hist_mode; rewrite Eh; destruct wx; [inversion Ew; reflexivity|unfold r; cbn [r_w r_w2]; rewrite Nw; reflexivity]).
      rewrite Rw, Rw2. f_equal. apply map_ext_in. intros j Hj. apply in_seq in Hj. rewrite Ad' by lia. rewrite Rw. reflexivity.
    - destruct (h_weight h) as [wx|] eqn:Eh; [discriminate|]. eexists. split; [reflexivity|]. apply Fin'. rewrite Nat.add_0_r.
      assert (Rw : row_weight (hist_mode h) r = none1) by (unfold row_weight, hist_mode; rewrite Eh; reflexivity).
      transitivity (flat_map (fun x => [mul_null x (Some none1); mul_null (mul_null x x) (Some none1)]) (map (fun p => Some (fst p)) ps)).
      + clear. induction ps as [|p ps IH]; auto. cbn [map flat_map mul_null]. rewrite IH, !nmul_1_r. reflexivity.
      + rewrite Pr by auto. rewrite Lp. apply map_ext_in. intros j Hj. apply in_seq in Hj. rewrite Ad' by lia. rewrite Rw. reflexivity.
  Qed.
End Frame.

Lemma frame_rel cast user sfun h weight frame rows : cast_good cast ->
  weight = match h_weight h with Some _ => true | None => false end ->
  (forall p, In p (h_group h ++ h_fixed h) -> made (fst p)) ->
  (forall field t, In field frame -> In t (hist_exprs h) -> same_in_spark user field t) ->
  (forall field p v, In field frame -> In p (h_group h ++ h_fixed h) -> value user field (snd p) = Ok v -> fits (fst p) v) ->
  mapM (row_of cast Fin user h) frame = Ok rows -> (forall r, In r rows -> r_w r <> NaN) ->
  exists P, mapM (spark_row Fin sfun h weight) frame = Ok (map fst P) /\ rows = map snd P /\ Forall (fun x => rel h weight (fst x) (snd x)) P.
Proof.
  intros Hc Hw Hm. revert rows. induction frame as [|field frame IH]; intros rows Hs Hf E Hn; cbn [mapM] in *.
  - inversion E. exists []. repeat split; constructor.
  - apply bind_ok in E. destruct E as (r & Er & E). apply bind_ok in E. destruct E as (rs & Ers & E). inversion E; subst.
    destruct (spark_row_rel cast user sfun h _ Hc eq_refl Hm field (fun t => Hs field t (or_introl eq_refl)) (fun p v => Hf field p v (or_introl eq_refl)) r Er) as (sr & Sr & Rr); [apply Hn; left; reflexivity|].
    destruct (IH rs) as (P & M & -> & F); auto; try (intros; apply Hs; auto; right; auto); try (intros; eapply Hf; eauto; right; auto); try (intros; apply Hn; right; auto).
    exists ((sr, r) :: P). rewrite Sr, M. cbn [bind map fst snd]. repeat split. constructor; auto.
Qed.

(** ** The theorem *)
Theorem spark_fill_ok cast user sfun collect h weight frame rows c : cast_good cast ->
  (forall l, Permutation (collect l) l) -> spark_ready cast Fin user h weight frame rows c ->
  exists c', spark_fill Fin sfun collect h weight frame c = (c', None) /\ content_ok (hist_layout h) (length (h_group h)) c' /\
    (forall ks, block c' ks <> None <-> block (prefill (hist_layout h) (length (h_group h)) c) ks <> None) /\
    forall ks ss kd, in_shape (hist_layout h) ss -> has_column (hist_layout h) kd ->
      cell (hist_layout h) c' ks ss (column_of (hist_layout h) kd) =
      nadd (cell (hist_layout h) c ks ss (column_of (hist_layout h) kd))
           (nsum (map (row_adds (hist_mode h) kd) (filter (in_cell ks ss) rows))).
Proof.
  intros Hc Hp [R1 R2 R3 R4 R5 R6 R7 R8]. destruct (frame_rel cast user sfun h weight frame rows) as (P & M & -> & F); auto.
  unfold spark_fill. rewrite M. assert (Hok := prefill_ok _ _ _ R8).
  destruct (query_ok h weight R5 P F collect (prefill (hist_layout h) (length (h_group h)) c) Hp Hok) as (c' & W & O & B & V).
  { intros r Hr. destruct (R7 r Hr) as [E|(ks & d & Ek & Eb)].
    - apply in_map_iff in Hr. destruct Hr as (x & <- & Hx). assert (Rx := proj1 (Forall_forall _ _) F x Hx). cbv beta in Rx. destruct Rx as (ks & zs & _ & K & Lk & _). rewrite E in *. destruct ks; [|discriminate Lk].
      exists []. destruct (prefill (hist_layout h) (length (@nil (axis * tree))) c) as [|d|] eqn:Ep; try (destruct Hok; fail). exists d. split; [exact K|]. reflexivity.
    - exists ks, d. split; auto. unfold prefill. destruct c; auto. destruct ks; discriminate Eb. }
  exists c'. split; [exact W|]. split; auto. split; auto. intros ks ss kd Hss Hkd. rewrite V by auto. f_equal. apply prefill_bv.
Qed.
