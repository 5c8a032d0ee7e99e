(** The fill with any arithmetic: every cell is changed by adding its rows to it, in their order.
    The proofs follow FillProofs.v, FillProofs2.v and FillProofs3.v. *)
From Coq Require Import String Permutation.
From Verif Require Import Base Num NumFacts Axis Calc Content Fill FillSpec AxisProofs2 FillProofs FillProofs2 FillProofs3 FillMain FillR FillRSpec.

Section Arith.
Variables add mul : Num -> Num -> Num.

Lemma add_pairsR_length k c ps data : length (add_pairsR add k c data ps) = length data.
Proof.
  unfold add_pairsR. revert data; induction ps; intros; simpl; auto.
  rewrite IHps, upd_length; auto.
Qed.

Lemma nth_add_pairsR k c ps data pos : pos < length data ->
  nth pos (add_pairsR add k c data ps) nzero =
  running add (nth pos data nzero) (map snd (filter (fun p => Nat.eqb (fst p * k + c) pos) ps)).
Proof.
  unfold add_pairsR. revert data; induction ps as [|[i v] ps IH]; intros data H; simpl.
  - reflexivity.
  - rewrite IH by (rewrite upd_length; auto). rewrite nth_upd by auto.
    destruct (Nat.eqb (i * k + c) pos); simpl; auto.
Qed.

Section AddAt.
Context {A : Type} (f : A -> option Z) (n k : nat).
Lemma combine_sumR (g : A -> Num) sub i :
  (forall a z, In a sub -> f a = Some z -> (0 <= z < Z.of_nat n)%Z) ->
  (map snd (filter (fun p => Nat.eqb (fst p) i)
    (combine (map Z.to_nat (compressed (map f sub))) (map g (filter (fun a => some_b (f a)) sub))))) =
  (map g (filter (fun a => hit i (f a)) sub)).
Proof.
  unfold compressed, catopts. induction sub as [|a sub IH]; simpl; intros H; auto.
  specialize (IH (fun a z h => H a z (or_intror h))).
  destruct (f a) as [z|] eqn:E; simpl; auto.
  specialize (H a z (or_introl eq_refl) E).
  destruct (Nat.eqb_spec (Z.to_nat z) i), (Z.eqb_spec (Z.of_nat i) z); simpl; try lia; auto.
  rewrite IH; auto.
Qed.

Lemma add_atR_ok (g : A -> Num) vals sub c data :
  length data = n * k -> c < k ->
  (forall a z, In a sub -> f a = Some z -> (0 <= z < Z.of_nat n)%Z) ->
  broadcast (length (filter (fun a => some_b (f a)) sub)) vals =
    Some (map g (filter (fun a => some_b (f a)) sub)) ->
  exists d', add_atR add k c data (compressed (map f sub)) vals = Ok d' /\
    length d' = length data /\
    forall i c', i < n -> c' < k ->
      nth (i * k + c') d' nzero =
      if Nat.eqb c c' then running add (nth (i * k + c') data nzero) (map g (filter (fun a => hit i (f a)) sub))
      else nth (i * k + c') data nzero.
Proof.
  intros HL Hc Hf Hb. unfold add_atR.
  rewrite HL, Nat.div_mul by lia. rewrite norm_indexes_ok by auto.
  rewrite map_length, compressed_length, Hb.
  eexists; split; [reflexivity|]. split; [rewrite <- HL; apply add_pairsR_length|].
  intros i c' Hi Hc'. rewrite nth_add_pairsR by nia.
  destruct (Nat.eqb_spec c c') as [->|Hne].
  - rewrite <- (combine_sumR g sub i Hf). do 2 f_equal. apply filter_ext.
    intros [a b]; simpl. rewrite pos_eqb by auto. rewrite Nat.eqb_refl. apply andb_true_r.
  - rewrite filter_none; [reflexivity|].
    intros [a b] _; simpl. rewrite pos_eqb by auto.
    apply Nat.eqb_neq in Hne. rewrite Hne. apply andb_false_r.
Qed.
End AddAt.

Lemma mul_weightR_none {A} (x : A -> Num) (sub : list A) :
  mul_weightR mul (map x sub) None = Ok (map (fun a => mul (x a) none1) sub).
Proof. unfold mul_weightR. rewrite map_map. reflexivity. Qed.
Lemma mul_weightR_some {A} (x w : A -> Num) w2 (sub : list A) :
  mul_weightR mul (map x sub) (Some (map w sub, w2)) = Ok (map (fun a => mul (x a) (w a)) sub).
Proof. unfold mul_weightR. rewrite !map_length, Nat.eqb_refl, map2_map. reflexivity. Qed.

Definition ws_ofR (m : wmode) (sub : list row) : option (list Num * list Num) :=
  match m with
  | Unweighted => None
  | _ => Some (map (row_weightR mul m) sub, map (row_weight2R mul m) sub)
  end.
Lemma mul_weightR_ok m x sub :
  mul_weightR mul (map x sub) (ws_ofR m sub) = Ok (map (fun r => mul (x r) (row_weightR mul m r)) sub).
Proof. destruct m; simpl ws_ofR; [apply mul_weightR_none|apply mul_weightR_some|apply mul_weightR_some]. Qed.

Section Block.
Variables (L : layout) (m : wmode) (f : row -> option Z) (sub : list row).
Hypothesis Hm : mode_ok L m.
Hypothesis Hf : forall r z, In r sub -> f r = Some z -> (0 <= z < Z.of_nat (l_rows L))%Z.

Definition profile_addedR (a n : nat) (data d' : list Num) : Prop :=
  length d' = length data /\
  forall i c, i < l_rows L -> c < l_last L ->
    nth (i * l_last L + c) d' nzero =
    if (a <=? c / 2) && (c / 2 <? a + n)
    then running add (nth (i * l_last L + c) data nzero)
              (map (row_addsR mul m (if Nat.even c then SumWX (c / 2) else SumWX2 (c / 2)))
                         (filter (fun r => hit i (f r)) sub))
    else nth (i * l_last L + c) data nzero.

Lemma fill_profilesR_ok n : forall a data idx,
  idx_of idx f sub ->
  a + n <= l_nprof L ->
  (forall r, n <> 0 -> In r sub -> f r <> None) ->
  length data = l_size L ->
  exists d' idx', fill_profilesR add mul (l_last L) a data idx (ws_ofR m sub) (profs_of a n sub) =
      (d', Ok (idx', ws_ofR m sub)) /\
    idx_of idx' f sub /\ (n = 0 -> idx' = idx) /\ (n <> 0 -> idx' <> None) /\ profile_addedR a n data d'.
Proof.
  induction n as [|n IH]; intros a data idx Hi Ha Hnm Hd; simpl.
  - exists data, idx. repeat split; auto; try congruence.
    intros i c _ _. destruct (a <=? c / 2) eqn:E1, (c / 2 <? a + 0) eqn:E2; auto.
    apply Nat.leb_le in E1. apply Nat.ltb_lt in E2. lia.
  - assert (Hnm' : forall r, In r sub -> f r <> None) by (intros; apply Hnm; auto).
    assert (Ei : (match idx with Some i => i | None => zeros_col (map (fun r => fst (pval a r)) sub) end) = map f sub).
    { destruct Hi as [->|[-> Hz]]; auto. apply zeros_col_map; auto. apply map_length. }
    rewrite Ei.
    assert (Ew : match ws_ofR m sub with
           | None => Ok None
           | Some (w, w2) => do w' <- mask_select (map f sub) w; do w2' <- mask_select (map f sub) w2; Ok (Some (w', w2'))
           end = Ok (ws_ofR m sub)).
    { destruct m; simpl; auto; rewrite !mask_select_nomask by auto; reflexivity. }
    rewrite Ew.
    assert (Hlast : 2 * a + 1 < l_last L) by (unfold l_last; destruct (l_weighted L); lia).
    assert (Hall : filter (fun r => some_b (f r)) sub = sub).
    { apply filter_all. intros r Hr. specialize (Hnm' r Hr). unfold some_b. destruct (f r); auto. }
    rewrite mul_weightR_ok. simpl bind.
    destruct (add_atR_ok f (l_rows L) (l_last L) (row_addsR mul m (SumWX a))
      (map (fun r => mul (fst (pval a r)) (row_weightR mul m r)) sub) sub (2 * a) data) as [d1 [E1 [HL1 N1]]]; auto; try lia.
    { rewrite Hall. apply broadcast_map. }
    change (a + (a + 0)) with (2 * a). rewrite E1.
    rewrite mul_weightR_ok. simpl bind.
    destruct (add_atR_ok f (l_rows L) (l_last L) (row_addsR mul m (SumWX2 a))
      (map (fun r => mul (snd (pval a r)) (row_weightR mul m r)) sub) sub (2 * a + 1) d1) as [d2 [E2 [HL2 N2]]]; auto; try lia.
    { rewrite HL1; auto. }
    { rewrite Hall. apply broadcast_map. }
    change (a + (a + 0) + 1) with (2 * a + 1). rewrite E2.
    destruct (IH (S a) d2 (Some (map f sub))) as [d' [idx' [E3 [Hi' [_ [Hne [HL3 N3]]]]]]].
    { left; auto. } { lia. } { intros; auto. } { congruence. }
    exists d', idx'. split; [exact E3|]. split; auto. split; [lia|]. split.
    { intros _. destruct n; [|apply Hne; lia]. simpl in E3. inversion E3. congruence. }
    split; [congruence|].
    intros i c Hi1 Hc. rewrite N3 by auto. rewrite N2 by auto. rewrite !N1 by auto.
    destruct (even_odd_cases c) as [[Ec Ev]|[Ec Ev]]; rewrite Ev; set (q := c / 2) in *.
    + replace (Nat.eqb (2 * a + 1) c) with false by (symmetry; apply Nat.eqb_neq; lia).
      destruct (Nat.eqb_spec (2 * a) c).
      * assert (q = a) by lia.
        replace ((S a <=? q) && (q <? S a + n)) with false by (symmetry; apply andb_false_iff; left; apply Nat.leb_gt; lia).
        replace ((a <=? q) && (q <? a + S n)) with true by (symmetry; apply andb_true_iff; split; [apply Nat.leb_le|apply Nat.ltb_lt]; lia).
        rewrite H. reflexivity.
      * replace ((S a <=? q) && (q <? S a + n)) with ((a <=? q) && (q <? a + S n)); auto.
        apply eq_true_iff_eq; rewrite !andb_true_iff, !Nat.leb_le, !Nat.ltb_lt. lia.
    + replace (Nat.eqb (2 * a) c) with false by (symmetry; apply Nat.eqb_neq; lia).
      destruct (Nat.eqb_spec (2 * a + 1) c).
      * assert (q = a) by lia.
        replace ((S a <=? q) && (q <? S a + n)) with false by (symmetry; apply andb_false_iff; left; apply Nat.leb_gt; lia).
        replace ((a <=? q) && (q <? a + S n)) with true by (symmetry; apply andb_true_iff; split; [apply Nat.leb_le|apply Nat.ltb_lt]; lia).
        rewrite H. reflexivity.
      * replace ((S a <=? q) && (q <? S a + n)) with ((a <=? q) && (q <? a + S n)); auto.
        apply eq_true_iff_eq; rewrite !andb_true_iff, !Nat.leb_le, !Nat.ltb_lt. lia.
Qed.

(** What a whole block fill does. *)
Definition block_addedR (data d' : list Num) : Prop :=
  length d' = length data /\
  forall i kd, i < l_rows L -> has_column L kd ->
    nth (i * l_last L + column_of L kd) d' nzero =
    running add (nth (i * l_last L + column_of L kd) data nzero)
         (map (row_addsR mul m kd) (filter (fun r => hit i (f r)) sub)).

Lemma fillblockR_ok len data idx :
  idx_of idx f sub ->
  (idx = None -> l_nprof L = 0 -> m <> Unweighted) ->
  l_nprof L = 0 \/ (forall r, In r sub -> f r <> None) ->
  length data = l_size L ->
  exists d', fillblockR add mul L len data idx (ws_ofR m sub) (profs_of 0 (l_nprof L) sub) = (d', None) /\
    block_addedR data d'.
Proof.
  intros Hi Hlen Hnm Hd. unfold fillblockR.
  destruct (fill_profilesR_ok (l_nprof L) 0 data idx) as [d1 [idx' [E [Hi' [He [Hne0 [HL1 N1]]]]]]]; auto.
  { intros r Hn. destruct Hnm; [lia|auto]. }
  rewrite E.
  assert (Hp : forall i kd, i < l_rows L -> has_column L kd ->
     nth (i * l_last L + column_of L kd) d1 nzero =
     match kd with
     | SumWX _ | SumWX2 _ => running add (nth (i * l_last L + column_of L kd) data nzero)
         (map (row_addsR mul m kd) (filter (fun r => hit i (f r)) sub))
     | _ => nth (i * l_last L + column_of L kd) data nzero
     end).
  { intros i kd Hi1 Hk. rewrite N1 by (auto using column_lt).
    destruct kd; cbn [column_of has_column] in *.
    - rewrite div_2p, even_2p.
      replace ((0 <=? p) && (p <? 0 + l_nprof L)) with true; auto.
      symmetry; apply andb_true_iff; split; [apply Nat.leb_le|apply Nat.ltb_lt]; lia.
    - rewrite div_2p1, even_2p1.
      replace ((0 <=? p) && (p <? 0 + l_nprof L)) with true; auto.
      symmetry; apply andb_true_iff; split; [apply Nat.leb_le|apply Nat.ltb_lt]; lia.
    - rewrite div_2p.
      replace ((0 <=? l_nprof L) && (l_nprof L <? 0 + l_nprof L)) with false; auto.
      symmetry; apply andb_false_iff; right; apply Nat.ltb_ge; lia.
    - rewrite div_2p1.
      replace ((0 <=? l_nprof L) && (l_nprof L <? 0 + l_nprof L)) with false; auto.
      symmetry; apply andb_false_iff; right; apply Nat.ltb_ge; lia. }
  unfold mode_ok in Hm.
  assert (Hcw : l_sumw L < l_last L) by (unfold l_sumw, l_last; destruct (l_weighted L); lia).
  destruct (ws_ofR m sub) as [[w w2]|] eqn:Ews.
  - (* weighted *)
    assert (Hw : l_weighted L = true) by (rewrite Hm; destruct m; simpl in Ews; congruence).
    assert (Eww : w = map (row_weightR mul m) sub /\ w2 = map (row_weight2R mul m) sub)
      by (destruct m; simpl in Ews; inversion Ews; auto).
    destruct Eww as [-> ->].
    assert (Ei : match idx' with None => zeros_col (map (row_weightR mul m) sub) | Some i => i end = map f sub).
    { destruct Hi' as [->|[-> Hz]]; auto. apply zeros_col_map; auto. apply map_length. }
    rewrite Ei, !mask_select_map. simpl bind.
    destruct (add_atR_ok f (l_rows L) (l_last L) (row_weightR mul m)
      (map (row_weightR mul m) (filter (fun r => some_b (f r)) sub)) sub (l_sumw L) d1) as [d2 [E2 [HL2 N2]]]; auto; try lia.
    { rewrite HL1; auto. } { apply broadcast_map. }
    rewrite E2.
    assert (Hcw2 : l_sumw2 L < l_last L) by (unfold l_sumw2, l_last; rewrite Hw; lia).
    destruct (add_atR_ok f (l_rows L) (l_last L) (row_weight2R mul m)
      (map (row_weight2R mul m) (filter (fun r => some_b (f r)) sub)) sub (l_sumw2 L) d2) as [d3 [E3 [HL3 N3]]]; auto; try lia.
    { rewrite HL2, HL1; auto. } { apply broadcast_map. }
    rewrite E3. exists d3. split; auto. split; [congruence|].
    intros i kd Hi1 Hk. rewrite N3, N2 by auto using column_lt. rewrite Hp by auto.
    unfold l_sumw, l_sumw2.
    destruct kd; cbn [column_of has_column] in *;
      repeat match goal with |- context [Nat.eqb ?a ?b] => destruct (Nat.eqb_spec a b); try lia end; auto.
  - (* unweighted *)
    assert (Em : m = Unweighted) by (destruct m; simpl in Ews; congruence).
    unfold block_addedR. rewrite Em in *.
    destruct idx' as [i0|].
    + assert (Ei : i0 = map f sub) by (destruct Hi' as [H|[H _]]; congruence).
      subst i0.
      destruct (add_atR_ok f (l_rows L) (l_last L) (fun _ => none1)
        [none1] sub (l_sumw L) d1) as [d2 [E2 [HL2 N2]]]; auto; try lia.
      { rewrite HL1; auto. } { apply broadcast_one. }
      rewrite E2. exists d2. split; auto. split; [congruence|].
      intros i kd Hi1 Hk. rewrite N2 by auto using column_lt. rewrite Hp by auto.
      unfold l_sumw.
      destruct kd; cbn [column_of has_column] in *;
        repeat match goal with |- context [Nat.eqb ?a ?b] => destruct (Nat.eqb_spec a b); try lia end; auto.
      congruence.
    + destruct Hi' as [H|[_ Hz]]; [congruence|].
      assert (Hid : idx = None).
      { destruct (Nat.eq_dec (l_nprof L) 0) as [H0|H0].
        - rewrite <- He; auto.
        - exfalso. apply (Hne0 H0). reflexivity. }
      exfalso. apply (Hlen Hid); auto. destruct (Nat.eq_dec (l_nprof L) 0) as [H0|H0]; auto. exfalso. apply (Hne0 H0). reflexivity.
Qed.
End Block.

Section FillDict.
Variables (L : layout) (m : wmode) (len : nat) (f : row -> option Z) (rows : list row).
Hypothesis Hm : mode_ok L m.
Hypothesis Hf : forall r z, In r rows -> f r = Some z -> (0 <= z < Z.of_nat (l_rows L))%Z.
Hypothesis Hnm : l_nprof L = 0 \/ (forall r, In r rows -> f r <> None).

Definition all_of (all : option (list bool)) (p : row -> bool) : Prop :=
  all = Some (map p rows) \/ (all = None /\ forall r, p r = true).

Definition addedR (kfs : list (row -> option gkey)) (p : row -> bool) (c c' : content) : Prop :=
  (forall ks i kd, i < l_rows L -> has_column L kd ->
    bv c' ks (i * l_last L + column_of L kd) =
    running add (bv c ks (i * l_last L + column_of L kd))
         (map (row_addsR mul m kd) (filter (fun r => p r && kmatch ks kfs r && hit i (f r)) rows))) /\
  (forall ks, block c' ks <> None <->
     block c ks <> None \/ Forall2 (fun k kf => exists r, In r rows /\ kf r = Some k) ks kfs).

Lemma filldictR_ok kfs : forall c idx p all,
  content_ok L (length kfs) c ->
  Forall (kf_ok rows) kfs ->
  idx_of idx f (filter p rows) ->
  (idx = None -> kfs = [] -> l_nprof L = 0 -> m <> Unweighted) ->
  all_of all p ->
  exists c', filldictR add mul L len (map (fun kf => group_col (map kf rows)) kfs) c idx
      (profs_of 0 (l_nprof L) (filter p rows)) (ws_ofR m (filter p rows)) all = (c', None) /\
    content_ok L (length kfs) c' /\ addedR kfs p c c'.
Proof.
  induction kfs as [|kf kfs IH]; intros c idx p all Hc Hk Hidx Hlen Hall.
  - destruct c as [|data|]; try contradiction. simpl in Hc. simpl.
    destruct (fillblockR_ok L m f (filter p rows) Hm) with (len := len) (data := data) (idx := idx)
      as [d' [E [HL N]]]; auto.
    { intros r z Hr. apply Hf. apply filter_In in Hr; tauto. }
    { destruct Hnm; auto. right. intros r Hr. apply filter_In in Hr. apply H; tauto. }
    rewrite E. exists (CArr d'). split; auto. split; [simpl; congruence|]. split.
    + intros [|k ks] i kd Hi Hkd; unfold bv; cbn [block kmatch].
      * rewrite N by auto. rewrite filter_filter. do 2 f_equal. apply filter_ext. intros r.
        rewrite andb_true_r. reflexivity.
      * rewrite filter_none; [reflexivity|]. intros r _. rewrite andb_false_r. reflexivity.
    + intros [|k ks]; simpl; split; intros H; try (right; constructor); try discriminate.
      * congruence. * destruct H as [H|H]; [congruence|inversion H].
  - destruct c as [| |items]; try contradiction. simpl in Hc. destruct Hc as [Hc [Hnd Hko]].
    inversion Hk as [|? ? Hkf Hkfs]; subst. simpl map.
    rewrite group_col_eq. cbn [filldictR].
    set (u := kuniques kf rows) in *. set (inv := kinv kf rows) in *.
    match goal with |- context [dict_loop ?s ?fr] => set (sub := s); set (fresh := fr) end.
    assert (Efresh : fresh = fresh_of L (length kfs)) by (unfold fresh; destruct kfs; reflexivity).
    assert (Hsub : forall i old, i < length u -> content_ok L (length kfs) old ->
      exists new, sub i old = (new, None) /\ content_ok L (length kfs) new /\
        addedR kfs (fun r => p r && (inv r =? Z.of_nat i)%Z) old new).
    { intros i old Hi Hold. unfold sub.
      set (p' := fun r => p r && (inv r =? Z.of_nat i)%Z).
      assert (Einv : match all with Some a => select a (map inv rows) | None => map inv rows end
                     = map inv (filter p rows)).
      { destruct Hall as [->|[-> Ht]]; [apply select_map|]. rewrite filter_all; auto. }
      rewrite Einv. rewrite map_map.
      assert (Esel : forall {B} (g : row -> B), select (map (fun x => (inv x =? Z.of_nat i)%Z) (filter p rows)) (map g (filter p rows))
                      = map g (filter p' rows)).
      { intros. rewrite select_map, filter_filter. reflexivity. }
      assert (Eall : match all with
            | Some a => map2 (fun b z => b && (z =? Z.of_nat i)%Z) a (map inv rows)
            | None => map (fun x => (inv x =? Z.of_nat i)%Z) (filter p rows) end = map p' rows).
      { destruct Hall as [->|[-> Ht]]; [rewrite map2_map; reflexivity|].
        rewrite filter_all by auto. apply map_ext. intros r. unfold p'. rewrite Ht. reflexivity. }
      rewrite Eall.
      assert (Eidx : match idx with
          | Some c0 => select (map (fun x => (inv x =? Z.of_nat i)%Z) (filter p rows)) c0
          | None => zeros_col (filter (fun b : bool => b) (map (fun x => (inv x =? Z.of_nat i)%Z) (filter p rows))) end
          = map f (filter p' rows)).
      { destruct Hidx as [->|[-> Hz]]; [apply Esel|]. apply zeros_col_map; auto.
        unfold p'. rewrite <- filter_filter. clear.
        induction (filter p rows); simpl; auto. destruct (inv a =? Z.of_nat i)%Z; simpl; auto. }
      rewrite Eidx.
      assert (Ep : map (fun q : list Num * list Num =>
           (select (map (fun x => (inv x =? Z.of_nat i)%Z) (filter p rows)) (fst q),
            select (map (fun x => (inv x =? Z.of_nat i)%Z) (filter p rows)) (snd q)))
          (profs_of 0 (l_nprof L) (filter p rows)) = profs_of 0 (l_nprof L) (filter p' rows)).
      { unfold profs_of. rewrite map_map. apply map_ext. intros q. cbn [fst snd]. rewrite !Esel. reflexivity. }
      rewrite Ep.
      assert (Ew : match ws_ofR m (filter p rows) with
          | Some (w, w2) => Some (select (map (fun x => (inv x =? Z.of_nat i)%Z) (filter p rows)) w,
                                  select (map (fun x => (inv x =? Z.of_nat i)%Z) (filter p rows)) w2)
          | None => None end = ws_ofR m (filter p' rows)).
      { destruct m; simpl; auto; rewrite !Esel; reflexivity. }
      rewrite Ew. apply IH; auto; try discriminate.
      - left; auto. - left; auto. }
    destruct (dict_loop_ok sub fresh (content_ok L (length kfs))
      (fun i old new => addedR kfs (fun r => p r && (inv r =? Z.of_nat i)%Z) old new)) with (u := u) (i := 0) (d := items)
      as [d' [E [Hp' [Hn' [Hk' [Hsame Hnew]]]]]]; auto.
    { rewrite Efresh. apply fresh_ok. }
    { apply kuniques_nodup; auto. } { apply kuniques_ok; auto. }
    rewrite E. exists (CDict d'). split; auto. split; [simpl; auto|].
    assert (Hin : forall k, {i | nth_error u i = Some k} + {~ In k u}).
    { intros k. generalize u. induction u0 as [|x u0 IHu]; [right; auto|].
      destruct (key_ok_dec k) as [Hkk|Hkk].
      - destruct (gkey_eqb k x) eqn:Ek.
        + apply gkey_eqb_iff in Ek. left. exists 0. simpl. destruct Ek as [-> _]; auto.
        + destruct IHu as [[i Hi]|Hni]; [left; exists (S i); auto|right].
          intros [->|]; auto. rewrite gkey_eqb_refl in Ek; auto; discriminate.
      - destruct IHu as [[i Hi]|Hni]; [left; exists (S i); auto|].
        destruct k as [[| | |]|]; try (exfalso; apply Hkk; discriminate).
        destruct x as [[| | |]|]; try (right; intros [H|H]; [discriminate|auto]).
        left. exists 0. reflexivity. }
    split.
    + intros [|k ks] i kd Hi Hkd.
      * unfold bv; cbn [block kmatch]. rewrite filter_none; [reflexivity|].
        intros r _. rewrite andb_false_r. reflexivity.
      * destruct (Hin k) as [[j Hj]|Hni].
        -- destruct (Hnew j k Hj) as [nw [Ea [Hv _]]]. simpl in Hv.
           specialize (Hv ks i kd Hi Hkd).
           assert (E1 : bv (CDict d') (k :: ks) (i * l_last L + column_of L kd) = bv nw ks (i * l_last L + column_of L kd)).
           { unfold bv; simpl. rewrite Ea. reflexivity. }
           assert (E2 : bv (CDict items) (k :: ks) (i * l_last L + column_of L kd) =
              bv (match assoc k items with Some c => c | None => fresh end) ks (i * l_last L + column_of L kd)).
           { unfold bv at 1; simpl. destruct (assoc k items); [reflexivity|]. rewrite Efresh, fresh_bv. reflexivity. }
           rewrite E1, E2, Hv. do 2 f_equal. apply filter_ext_in. intros r Hr. simpl.
           unfold inv. rewrite (kinv_spec kf rows r j k) by auto.
           rewrite !andb_assoc. reflexivity.
        -- rewrite filter_none; [unfold bv; simpl; rewrite Hsame by auto; reflexivity|].
           intros r Hr. simpl. destruct (kf r) as [k'|] eqn:Ek; [|rewrite andb_false_r; reflexivity].
           destruct (gkey_eqb k k') eqn:Ekk; [|rewrite andb_false_r; reflexivity].
           exfalso. apply gkey_eqb_iff in Ekk. destruct Ekk as [-> _]. apply Hni.
           apply kuniques_in; eauto.
    + intros [|k ks].
      * simpl. split; [congruence|]. intros [H|H]; [congruence|inversion H].
      * destruct (Hin k) as [[j Hj]|Hni].
        -- destruct (Hnew j k Hj) as [nw [Ea [_ Hb]]]. specialize (Hb ks). simpl. rewrite Ea, Hb.
           assert (Hex : exists r, In r rows /\ kf r = Some k).
           { apply kuniques_in; auto. eapply nth_error_In; eauto. }
           split; (intros [H|H]; [|right]).
           ++ destruct (assoc k items); [left; auto|].
              rewrite Efresh in H. destruct kfs; destruct ks; simpl in H; try congruence.
              right. constructor; auto.
           ++ constructor; auto.
           ++ destruct (assoc k items); [left; auto|congruence].
           ++ inversion H; auto.
        -- simpl. rewrite Hsame by auto. split; [tauto|]. intros [H|H]; auto.
           exfalso. apply Hni. inversion H; subst. apply kuniques_in; auto.
Qed.
End FillDict.

Lemma weightsR_rows (L : layout) ng m rows : weightsR mul (length rows) (d_weight (dest_of L ng m rows)) = ws_ofR m rows.
Proof.
  destruct m; cbn [dest_of d_weight weightsR ws_ofR zero_nan]; auto.
  - rewrite !repeat_map. reflexivity.
  - rewrite map_map, map2_map. reflexivity.
Qed.

Theorem fill_rowsR_ok L ng m rows c :
  layout_ok L -> mode_ok L m -> Forall (row_ok L ng) rows -> hist_ok L ng c -> no_masked_profile L rows ->
  ~ counts_at_once L ng m ->
  exists c', fill_rowsR add mul L ng m rows c = (c', None) /\ content_ok L ng c' /\
    (forall ks ss kd, in_shape L ss -> has_column L kd ->
       cell L c' ks ss (column_of L kd) =
       running add (cell L c ks ss (column_of L kd))
            (map (row_addsR mul m kd) (filter (in_cell ks ss) rows))) /\
    (forall ks, block c' ks <> None <-> block (prefill L ng c) ks <> None \/
       Forall2 (fun k j => exists r, In r rows /\ nth j (r_keys r) None = Some k) ks (seq 0 ng)).
Proof.
  intros HL Hm Hr Hc Hnm Hco. unfold layout_ok in HL. change (l_rows L) with (prod (l_tots L)) in HL.
  assert (Hr' : forall r, In r rows -> row_ok L ng r) by (apply Forall_forall; auto).
  unfold fill_rowsR, postfillR.
  assert (E : flat_indexes (combine (l_tots L) (d_fixed (dest_of L ng m rows))) =
    Ok (match l_tots L with [] => None | _ => Some (map (fun r => flat_row (l_tots L) (r_slots r)) rows) end)).
  { apply flat_indexes_rows. intros r H. destruct (Hr' r H) as [_ [_ [H1 _]]]. symmetry. eapply Forall2_length; eauto. }
  rewrite E. clear E. rewrite weightsR_rows.
  set (f := fun r => flat_row (l_tots L) (r_slots r)).
  set (kfs := map (fun j r => nth j (r_keys r) None) (seq 0 ng)).
  assert (Ek : d_group (dest_of L ng m rows) = map (fun kf => group_col (map kf rows)) kfs).
  { unfold kfs. rewrite map_map. reflexivity. }
  assert (Ep : d_prof (dest_of L ng m rows) = profs_of 0 (l_nprof L) (filter (fun _ => true) rows)).
  { unfold profs_of. cbn [dest_of d_prof]. apply map_ext. intros p. unfold column. rewrite !map_map.
    rewrite filter_all by auto. reflexivity. }
  assert (Hlk : length kfs = ng) by (unfold kfs; rewrite map_length, seq_length; auto).
  rewrite Ek, Ep.
  assert (Ew : ws_ofR m rows = ws_ofR m (filter (fun _ => true) rows)) by (rewrite filter_all by auto; auto).
  rewrite Ew.
  destruct (filldictR_ok L m (length rows) f rows Hm) with
    (kfs := kfs) (c := prefill L ng c) (p := fun _ : row => true) (all := @None (list bool))
    (idx := match l_tots L with [] => None | _ => Some (map f rows) end) as [c' [E [Hc' [Hv Hb]]]].
  { intros r z Hri Hfz. unfold f in Hfz. apply (flat_row_range (l_tots L) (r_slots r)); auto. apply Hr'; auto. }
  { destruct Hnm as [H|H]; auto. right. intros r Hri HN. rewrite Forall_forall in H. apply (H r Hri).
    apply (flat_row_none (l_tots L)); auto. apply Hr'; auto. }
  { rewrite Hlk. apply prefill_ok; auto. }
  { eapply key_columns_ok; eauto. }
  { unfold idx_of. rewrite filter_all by auto. destruct (l_tots L) eqn:Et; auto. }
  { intros H Hkn Hp0 Hmu. apply Hco. unfold counts_at_once. rewrite Hkn in Hlk. destruct (l_tots L); [auto|discriminate]. }
  { right; auto. }
  rewrite E. exists c'. rewrite Hlk in Hc'. split; auto. split; auto. split.
  - intros ks ss kd Hss Hk. unfold cell.
    change (match block c' ks with Some d => nth (ravel (l_tots L) ss * l_last L + column_of L kd) d nzero | None => nzero end)
      with (bv c' ks (ravel (l_tots L) ss * l_last L + column_of L kd)).
    rewrite Hv; auto; [|apply (ravel_lt _ _ Hss)]. rewrite prefill_bv. unfold bv at 1. do 2 f_equal.
    apply filter_ext_in. intros r Hri. unfold in_cell. destruct (Hr' r Hri) as [H1 [H2 [H3 H4]]].
    unfold f. rewrite hit_flat by auto. rewrite (keys_match_kmatch ng) by auto. reflexivity.
  - intros ks. rewrite Hb. clear. unfold kfs.
    assert (forall l, Forall2 (fun k kf => exists r : row, In r rows /\ kf r = Some k) ks (map (fun (j : nat) (r : row) => nth j (r_keys r) None) l)
        <-> Forall2 (fun (k : gkey) (j : nat) => exists r : row, In r rows /\ nth j (r_keys r) None = Some k) ks l).
    { induction ks as [|k ks IH]; intros [|j l]; simpl; split; intros H; try constructor; inversion H; subst; auto; apply IH; auto. }
    rewrite H. reflexivity.
Qed.
End Arith.

(** Fill.v is the instance with exact arithmetic. *)
Lemma postfillR_exact L len d c : postfillR nadd nmul L len d c = postfill L len d c.
Proof. reflexivity. Qed.
