(** Proofs about fillblock and filldict. *)
From Coq Require Import String Permutation.
From Verif Require Import Base Num NumFacts Axis Calc Content Fill FillSpec.

(** ** Lists *)
Lemma upd_length {A} (f : A -> A) i l : length (upd f i l) = length l.
Proof. revert i; induction l; destruct i; simpl; congruence. Qed.

Lemma nth_upd {A} (f : A -> A) i j l d : i < length l ->
  nth i (upd f j l) d = if Nat.eqb j i then f (nth i l d) else nth i l d.
Proof.
  revert i j; induction l; intros i j H; simpl in *; [lia|].
  destruct j, i; simpl; auto. apply IHl; lia.
Qed.

Lemma filter_all {A} (p : A -> bool) l : (forall x, In x l -> p x = true) -> filter p l = l.
Proof.
  induction l as [|a l IH]; simpl; intros H; auto.
  rewrite (H a) by auto. f_equal. apply IH; auto.
Qed.
Lemma filter_none {A} (p : A -> bool) l : (forall x, In x l -> p x = false) -> filter p l = [].
Proof.
  induction l as [|a l IH]; simpl; intros H; auto.
  rewrite (H a) by auto. apply IH; auto.
Qed.
Lemma filter_filter {A} (p q : A -> bool) l : filter q (filter p l) = filter (fun x => p x && q x) l.
Proof.
  induction l as [|a l IH]; simpl; auto.
  destruct (p a); simpl; [destruct (q a)|]; simpl; rewrite IH; auto.
Qed.
Lemma select_map {A B} (p : A -> bool) (g : A -> B) l : select (map p l) (map g l) = map g (filter p l).
Proof. induction l; simpl; auto. destruct (p a); simpl; congruence. Qed.
Lemma map2_map {A B C D} (f : B -> C -> D) (g : A -> B) (h : A -> C) l :
  map2 f (map g l) (map h l) = map (fun x => f (g x) (h x)) l.
Proof. induction l; simpl; congruence. Qed.
Lemma nth_ext_num (l m : list Num) : length l = length m -> (forall i, i < length l -> nth i l nzero = nth i m nzero) -> l = m.
Proof. intros H1 H2. eapply nth_ext; eauto. Qed.
Lemma repeat_map {A B} (x : B) (l : list A) : repeat x (length l) = map (fun _ => x) l.
Proof. induction l; simpl; congruence. Qed.

(** ** add_at *)
Lemma add_pairs_length k c ps data : length (add_pairs k c data ps) = length data.
Proof.
  unfold add_pairs. revert data; induction ps; intros; simpl; auto.
  rewrite IHps, upd_length; auto.
Qed.

Lemma nth_add_pairs k c ps data pos : pos < length data ->
  nth pos (add_pairs k c data ps) nzero =
  nadd (nth pos data nzero) (nsum (map snd (filter (fun p => Nat.eqb (fst p * k + c) pos) ps))).
Proof.
  unfold add_pairs. revert data; induction ps as [|[i v] ps IH]; intros data H; simpl.
  - symmetry; apply nadd_0_r.
  - rewrite IH by (rewrite upd_length; auto). rewrite nth_upd by auto.
    destruct (Nat.eqb (i * k + c) pos); simpl; auto.
    rewrite nadd_assoc. reflexivity.
Qed.

Lemma pos_eqb i i' k c c' : c < k -> c' < k ->
  Nat.eqb (i * k + c) (i' * k + c') = Nat.eqb i i' && Nat.eqb c c'.
Proof.
  intros H H'. destruct (Nat.eqb_spec i i'), (Nat.eqb_spec c c'); subst; simpl;
    try apply Nat.eqb_refl; apply Nat.eqb_neq; try lia.
  all: intros E; assert (i = i') by nia; lia.
Qed.

Definition hit (i : nat) (o : option Z) : bool :=
  match o with Some z => (Z.of_nat i =? z)%Z | None => false end.
Definition some_b {A} (o : option A) : bool := negb (is_none o).

Section AddAt.
Context {A : Type} (f : A -> option Z) (n k : nat).

Lemma norm_indexes_ok sub :
  (forall a z, In a sub -> f a = Some z -> (0 <= z < Z.of_nat n)%Z) ->
  norm_indexes n (compressed (map f sub)) = Some (map Z.to_nat (compressed (map f sub))).
Proof.
  unfold compressed, catopts. induction sub as [|a sub IH]; simpl; intros H; auto.
  destruct (f a) as [z|] eqn:E; simpl; [|apply IH; intros; eapply H; eauto].
  rewrite IH by (intros; eapply H; eauto).
  specialize (H a z (or_introl eq_refl) E). unfold norm_index.
  replace ((0 <=? z) && (z <? Z.of_nat n))%Z with true; auto.
  symmetry. apply andb_true_iff. lia.
Qed.

Lemma compressed_length sub : length (compressed (map f sub)) = length (filter (fun a => some_b (f a)) sub).
Proof.
  unfold compressed, catopts. induction sub as [|a sub IH]; simpl; auto.
  destruct (f a); simpl; auto.
Qed.

Lemma combine_sum g sub i :
  (forall a z, In a sub -> f a = Some z -> (0 <= z < Z.of_nat n)%Z) ->
  nsum (map snd (filter (fun p => Nat.eqb (fst p) i)
    (combine (map Z.to_nat (compressed (map f sub))) (map g (filter (fun a => some_b (f a)) sub))))) =
  nsum (map g (filter (fun a => hit i (f a)) sub)).
Proof.
  unfold compressed, catopts. induction sub as [|a sub IH]; simpl; intros H; auto.
  specialize (IH (fun a z h => H a z (or_intror h))).
  destruct (f a) as [z|] eqn:E; simpl; auto.
  specialize (H a z (or_introl eq_refl) E).
  destruct (Nat.eqb_spec (Z.to_nat z) i), (Z.eqb_spec (Z.of_nat i) z); simpl; try lia; auto.
  rewrite IH; auto.
Qed.

Lemma add_at_ok g vals sub c data :
  length data = n * k -> c < k ->
  (forall a z, In a sub -> f a = Some z -> (0 <= z < Z.of_nat n)%Z) ->
  broadcast (length (filter (fun a => some_b (f a)) sub)) vals =
    Some (map g (filter (fun a => some_b (f a)) sub)) ->
  exists d', add_at k c data (compressed (map f sub)) vals = Ok d' /\
    length d' = length data /\
    forall i c', i < n -> c' < k ->
      nth (i * k + c') d' nzero =
      if Nat.eqb c c' then nadd (nth (i * k + c') data nzero) (nsum (map g (filter (fun a => hit i (f a)) sub)))
      else nth (i * k + c') data nzero.
Proof.
  intros HL Hc Hf Hb. unfold add_at.
  rewrite HL, Nat.div_mul by lia. rewrite norm_indexes_ok by auto.
  rewrite map_length, compressed_length, Hb.
  eexists; split; [reflexivity|]. split; [rewrite <- HL; apply add_pairs_length|].
  intros i c' Hi Hc'. rewrite nth_add_pairs by nia.
  destruct (Nat.eqb_spec c c') as [->|Hne].
  - rewrite <- (combine_sum g sub i Hf). do 3 f_equal. apply filter_ext.
    intros [a b]; simpl. rewrite pos_eqb by auto. rewrite Nat.eqb_refl. apply andb_true_r.
  - rewrite filter_none; [apply nadd_0_r|].
    intros [a b] _; simpl. rewrite pos_eqb by auto.
    apply Nat.eqb_neq in Hne. rewrite Hne. apply andb_false_r.
Qed.
End AddAt.

Lemma broadcast_exact l : broadcast (length l) l = Some l.
Proof. unfold broadcast. rewrite Nat.eqb_refl. reflexivity. Qed.
Lemma broadcast_map {A} (g : A -> Num) l : broadcast (length l) (map g l) = Some (map g l).
Proof. rewrite <- (map_length g l). apply broadcast_exact. Qed.
Lemma broadcast_one {A} v (l : list A) : broadcast (length l) [v] = Some (map (fun _ => v) l).
Proof.
  unfold broadcast. rewrite <- repeat_map. simpl.
  destruct (length l) as [|[|m]]; reflexivity.
Qed.

(** ** Masks *)
Lemma mask_select_nomask {A B} (f : A -> option Z) (sub : list A) (w : list B) :
  (forall a, In a sub -> f a <> None) -> mask_select (map f sub) w = Ok w.
Proof.
  intros H. unfold mask_select.
  replace (existsb is_none (map f sub)) with false; auto.
  symmetry. apply Bool.not_true_is_false. rewrite existsb_exists. intros [o [Hi Ho]].
  apply in_map_iff in Hi. destruct Hi as [a [<- Ha]]. specialize (H a Ha).
  destruct (f a); simpl in *; congruence.
Qed.

Lemma mask_select_map {A B} (f : A -> option Z) (w : A -> B) (sub : list A) :
  mask_select (map f sub) (map w sub) = Ok (map w (filter (fun a => some_b (f a)) sub)).
Proof.
  unfold mask_select. destruct (existsb is_none (map f sub)) eqn:E.
  - rewrite !map_length, Nat.eqb_refl. rewrite map_map.
    rewrite (select_map (fun a => negb (is_none (f a))) w). reflexivity.
  - rewrite filter_all; auto. intros a Ha.
    unfold some_b. destruct (is_none (f a)) eqn:En; auto.
    exfalso. rewrite <- Bool.not_true_iff_false in E. apply E.
    apply existsb_exists. exists (f a). split; auto. apply in_map; auto.
Qed.

Lemma mul_weight_none {A} (x : A -> Num) (sub : list A) :
  mul_weight (map x sub) None = Ok (map (fun a => nmul (x a) none1) sub).
Proof. unfold mul_weight. rewrite map_map. reflexivity. Qed.
Lemma mul_weight_some {A} (x w : A -> Num) w2 (sub : list A) :
  mul_weight (map x sub) (Some (map w sub, w2)) = Ok (map (fun a => nmul (x a) (w a)) sub).
Proof. unfold mul_weight. rewrite !map_length, Nat.eqb_refl, map2_map. reflexivity. Qed.

(** ** fillblock *)
Definition pval (p : nat) (r : row) : Num * Num := nth p (r_prof r) (nzero, nzero).
Definition ws_of (m : wmode) (sub : list row) : option (list Num * list Num) :=
  match m with
  | Unweighted => None
  | _ => Some (map (row_weight m) sub, map (row_weight2 m) sub)
  end.
Definition profs_of (a n : nat) (sub : list row) : list (list Num * list Num) :=
  map (fun p => (map (fun r => fst (pval p r)) sub, map (fun r => snd (pval p r)) sub)) (seq a n).
Definition idx_of (idx : option col) (f : row -> option Z) (sub : list row) : Prop :=
  idx = Some (map f sub) \/ (idx = None /\ forall r, f r = Some 0%Z).

Lemma mul_weight_ok m x sub :
  mul_weight (map x sub) (ws_of m sub) = Ok (map (fun r => nmul (x r) (row_weight m r)) sub).
Proof. destruct m; simpl ws_of; [apply mul_weight_none|apply mul_weight_some|apply mul_weight_some]. Qed.

Lemma zeros_col_map {A B} (l : list B) (sub : list A) f : length l = length sub ->
  (forall r, f r = Some 0%Z) -> zeros_col l = map f sub.
Proof.
  intros HL Hf. unfold zeros_col. rewrite (map_ext f (fun _ => Some 0%Z)) by auto.
  rewrite <- !repeat_map. congruence.
Qed.

Section Block.
Variables (L : layout) (m : wmode) (f : row -> option Z) (sub : list row).
Hypothesis Hm : mode_ok L m.
Hypothesis Hf : forall r z, In r sub -> f r = Some z -> (0 <= z < Z.of_nat (l_rows L))%Z.

Definition profile_added (a n : nat) (data d' : list Num) : Prop :=
  length d' = length data /\
  forall i c, i < l_rows L -> c < l_last L ->
    nth (i * l_last L + c) d' nzero =
    if (a <=? c / 2) && (c / 2 <? a + n)
    then nadd (nth (i * l_last L + c) data nzero)
              (nsum (map (row_adds m (if Nat.even c then SumWX (c / 2) else SumWX2 (c / 2)))
                         (filter (fun r => hit i (f r)) sub)))
    else nth (i * l_last L + c) data nzero.

Lemma even_2p p : Nat.even (2 * p) = true.
Proof. rewrite Nat.even_mul. reflexivity. Qed.
Lemma even_2p1 p : Nat.even (2 * p + 1) = false.
Proof. rewrite Nat.even_add, even_2p. reflexivity. Qed.
Lemma div_2p p : (2 * p) / 2 = p.
Proof. rewrite Nat.mul_comm. apply Nat.div_mul. lia. Qed.
Lemma div_2p1 p : (2 * p + 1) / 2 = p.
Proof. rewrite Nat.mul_comm. rewrite Nat.div_add_l by lia. simpl. lia. Qed.
Lemma even_odd_cases c : c = 2 * (c / 2) /\ Nat.even c = true \/ c = 2 * (c / 2) + 1 /\ Nat.even c = false.
Proof.
  destruct (Nat.Even_or_Odd c) as [[q ->]|[q ->]].
  - left. rewrite div_2p, even_2p. auto.
  - right. rewrite div_2p1, even_2p1. auto.
Qed.

Lemma fill_profiles_ok n : forall a data idx,
  idx_of idx f sub ->
  a + n <= l_nprof L ->
  (forall r, n <> 0 -> In r sub -> f r <> None) ->
  length data = l_size L ->
  exists d' idx', fill_profiles (l_last L) a data idx (ws_of m sub) (profs_of a n sub) =
      (d', Ok (idx', ws_of m sub)) /\
    idx_of idx' f sub /\ (n = 0 -> idx' = idx) /\ (n <> 0 -> idx' <> None) /\ profile_added a n data d'.
Proof.
  induction n as [|n IH]; intros a data idx Hi Ha Hnm Hd; simpl.
  - exists data, idx. repeat split; auto; try congruence.
    intros i c _ _. destruct (a <=? c / 2) eqn:E1, (c / 2 <? a + 0) eqn:E2; auto.
    apply Nat.leb_le in E1. apply Nat.ltb_lt in E2. lia.
  - assert (Hnm' : forall r, In r sub -> f r <> None) by (intros; apply Hnm; auto).
    assert (Ei : (match idx with Some i => i | None => zeros_col (map (fun r => fst (pval a r)) sub) end) = map f sub).
    { destruct Hi as [->|[-> Hz]]; auto. apply zeros_col_map; auto. apply map_length. }
    rewrite Ei.
    assert (Ew : match ws_of m sub with
           | None => Ok None
           | Some (w, w2) => do w' <- mask_select (map f sub) w; do w2' <- mask_select (map f sub) w2; Ok (Some (w', w2'))
           end = Ok (ws_of m sub)).
    { destruct m; simpl; auto; rewrite !mask_select_nomask by auto; reflexivity. }
    rewrite Ew.
    assert (Hlast : 2 * a + 1 < l_last L) by (unfold l_last; destruct (l_weighted L); lia).
    assert (Hall : filter (fun r => some_b (f r)) sub = sub).
    { apply filter_all. intros r Hr. specialize (Hnm' r Hr). unfold some_b. destruct (f r); auto. }
    rewrite mul_weight_ok. simpl bind.
    destruct (add_at_ok f (l_rows L) (l_last L) (row_adds m (SumWX a))
      (map (fun r => nmul (fst (pval a r)) (row_weight m r)) sub) sub (2 * a) data) as [d1 [E1 [HL1 N1]]]; auto; try lia.
    { rewrite Hall. apply broadcast_map. }
    change (a + (a + 0)) with (2 * a). rewrite E1.
    rewrite mul_weight_ok. simpl bind.
    destruct (add_at_ok f (l_rows L) (l_last L) (row_adds m (SumWX2 a))
      (map (fun r => nmul (snd (pval a r)) (row_weight m r)) sub) sub (2 * a + 1) d1) as [d2 [E2 [HL2 N2]]]; auto; try lia.
    { rewrite HL1; auto. }
    { rewrite Hall. apply broadcast_map. }
    change (a + (a + 0) + 1) with (2 * a + 1). rewrite E2.
    destruct (IH (S a) d2 (Some (map f sub))) as [d' [idx' [E3 [Hi' [_ [Hne [HL3 N3]]]]]]].
    { left; auto. } { lia. } { intros; auto. } { congruence. }
    exists d', idx'. split; [exact E3|]. split; auto. split; [lia|]. split.
    { intros _. destruct n; [|apply Hne; lia]. simpl in E3. inversion E3. congruence. }
    split; [congruence|].
    intros i c Hi1 Hc. rewrite N3 by auto. rewrite N2 by auto. rewrite !N1 by auto.
    destruct (even_odd_cases c) as [[Ec Ev]|[Ec Ev]]; rewrite Ev; set (q := c / 2) in *.
    + replace (Nat.eqb (2 * a + 1) c) with false by (symmetry; apply Nat.eqb_neq; lia).
      destruct (Nat.eqb_spec (2 * a) c).
      * assert (q = a) by lia.
        replace ((S a <=? q) && (q <? S a + n)) with false by (symmetry; apply andb_false_iff; left; apply Nat.leb_gt; lia).
        replace ((a <=? q) && (q <? a + S n)) with true by (symmetry; apply andb_true_iff; split; [apply Nat.leb_le|apply Nat.ltb_lt]; lia).
        rewrite H. reflexivity.
      * replace ((S a <=? q) && (q <? S a + n)) with ((a <=? q) && (q <? a + S n)); auto.
        apply eq_true_iff_eq; rewrite !andb_true_iff, !Nat.leb_le, !Nat.ltb_lt. lia.
    + replace (Nat.eqb (2 * a) c) with false by (symmetry; apply Nat.eqb_neq; lia).
      destruct (Nat.eqb_spec (2 * a + 1) c).
      * assert (q = a) by lia.
        replace ((S a <=? q) && (q <? S a + n)) with false by (symmetry; apply andb_false_iff; left; apply Nat.leb_gt; lia).
        replace ((a <=? q) && (q <? a + S n)) with true by (symmetry; apply andb_true_iff; split; [apply Nat.leb_le|apply Nat.ltb_lt]; lia).
        rewrite H. reflexivity.
      * replace ((S a <=? q) && (q <? S a + n)) with ((a <=? q) && (q <? a + S n)); auto.
        apply eq_true_iff_eq; rewrite !andb_true_iff, !Nat.leb_le, !Nat.ltb_lt. lia.
Qed.

(** What a whole block fill does. *)
Definition block_added (data d' : list Num) : Prop :=
  length d' = length data /\
  forall i kd, i < l_rows L -> has_column L kd ->
    nth (i * l_last L + column_of L kd) d' nzero =
    nadd (nth (i * l_last L + column_of L kd) data nzero)
         (nsum (map (row_adds m kd) (filter (fun r => hit i (f r)) sub))).

Lemma column_lt kd : has_column L kd -> column_of L kd < l_last L.
Proof.
  unfold l_last. destruct kd; simpl; intros H; try (rewrite H); destruct (l_weighted L); lia.
Qed.

Lemma nsum_map_one {A} (l : list A) : nsum (map (fun _ => none1) l) = nnat (length l).
Proof. rewrite <- repeat_map. apply nsum_const_one. Qed.

Lemma fillblock_ok len data idx :
  idx_of idx f sub ->
  (idx = None -> l_rows L = 1 /\ len = length sub) ->
  l_nprof L = 0 \/ (forall r, In r sub -> f r <> None) ->
  length data = l_size L ->
  exists d', fillblock L len data idx (ws_of m sub) (profs_of 0 (l_nprof L) sub) = (d', None) /\
    block_added data d'.
Proof.
  intros Hi Hlen Hnm Hd. unfold fillblock.
  destruct (fill_profiles_ok (l_nprof L) 0 data idx) as [d1 [idx' [E [Hi' [He [Hne0 [HL1 N1]]]]]]]; auto.
  { intros r Hn. destruct Hnm; [lia|auto]. }
  rewrite E.
  assert (Hp : forall i kd, i < l_rows L -> has_column L kd ->
     nth (i * l_last L + column_of L kd) d1 nzero =
     match kd with
     | SumWX _ | SumWX2 _ => nadd (nth (i * l_last L + column_of L kd) data nzero)
         (nsum (map (row_adds m kd) (filter (fun r => hit i (f r)) sub)))
     | _ => nth (i * l_last L + column_of L kd) data nzero
     end).
  { intros i kd Hi1 Hk. rewrite N1 by (auto using column_lt).
    destruct kd; cbn [column_of has_column] in *.
    - rewrite div_2p, even_2p.
      replace ((0 <=? p) && (p <? 0 + l_nprof L)) with true; auto.
      symmetry; apply andb_true_iff; split; [apply Nat.leb_le|apply Nat.ltb_lt]; lia.
    - rewrite div_2p1, even_2p1.
      replace ((0 <=? p) && (p <? 0 + l_nprof L)) with true; auto.
      symmetry; apply andb_true_iff; split; [apply Nat.leb_le|apply Nat.ltb_lt]; lia.
    - rewrite div_2p.
      replace ((0 <=? l_nprof L) && (l_nprof L <? 0 + l_nprof L)) with false; auto.
      symmetry; apply andb_false_iff; right; apply Nat.ltb_ge; lia.
    - rewrite div_2p1.
      replace ((0 <=? l_nprof L) && (l_nprof L <? 0 + l_nprof L)) with false; auto.
      symmetry; apply andb_false_iff; right; apply Nat.ltb_ge; lia. }
  unfold mode_ok in Hm.
  assert (Hcw : l_sumw L < l_last L) by (unfold l_sumw, l_last; destruct (l_weighted L); lia).
  destruct (ws_of m sub) as [[w w2]|] eqn:Ews.
  - (* weighted *)
    assert (Hw : l_weighted L = true) by (rewrite Hm; destruct m; simpl in Ews; congruence).
    assert (Eww : w = map (row_weight m) sub /\ w2 = map (row_weight2 m) sub)
      by (destruct m; simpl in Ews; inversion Ews; auto).
    destruct Eww as [-> ->].
    assert (Ei : match idx' with None => zeros_col (map (row_weight m) sub) | Some i => i end = map f sub).
    { destruct Hi' as [->|[-> Hz]]; auto. apply zeros_col_map; auto. apply map_length. }
    rewrite Ei, !mask_select_map. simpl bind.
    destruct (add_at_ok f (l_rows L) (l_last L) (row_weight m)
      (map (row_weight m) (filter (fun r => some_b (f r)) sub)) sub (l_sumw L) d1) as [d2 [E2 [HL2 N2]]]; auto; try lia.
    { rewrite HL1; auto. } { apply broadcast_map. }
    rewrite E2.
    assert (Hcw2 : l_sumw2 L < l_last L) by (unfold l_sumw2, l_last; rewrite Hw; lia).
    destruct (add_at_ok f (l_rows L) (l_last L) (row_weight2 m)
      (map (row_weight2 m) (filter (fun r => some_b (f r)) sub)) sub (l_sumw2 L) d2) as [d3 [E3 [HL3 N3]]]; auto; try lia.
    { rewrite HL2, HL1; auto. } { apply broadcast_map. }
    rewrite E3. exists d3. split; auto. split; [congruence|].
    intros i kd Hi1 Hk. rewrite N3, N2 by auto using column_lt. rewrite Hp by auto.
    unfold l_sumw, l_sumw2.
    destruct kd; cbn [column_of has_column] in *;
      repeat match goal with |- context [Nat.eqb ?a ?b] => destruct (Nat.eqb_spec a b); try lia end; auto.
  - (* unweighted *)
    assert (Em : m = Unweighted) by (destruct m; simpl in Ews; congruence).
    unfold block_added. rewrite Em in *.
    destruct idx' as [i0|].
    + assert (Ei : i0 = map f sub) by (destruct Hi' as [H|[H _]]; congruence).
      subst i0.
      destruct (add_at_ok f (l_rows L) (l_last L) (fun _ => none1)
        [none1] sub (l_sumw L) d1) as [d2 [E2 [HL2 N2]]]; auto; try lia.
      { rewrite HL1; auto. } { apply broadcast_one. }
      rewrite E2. exists d2. split; auto. split; [congruence|].
      intros i kd Hi1 Hk. rewrite N2 by auto using column_lt. rewrite Hp by auto.
      unfold l_sumw.
      destruct kd; cbn [column_of has_column] in *;
        repeat match goal with |- context [Nat.eqb ?a ?b] => destruct (Nat.eqb_spec a b); try lia end; auto.
      congruence.
    + destruct Hi' as [H|[_ Hz]]; [congruence|].
      assert (Hid : idx = None).
      { destruct (Nat.eq_dec (l_nprof L) 0) as [H0|H0].
        - rewrite <- He; auto.
        - exfalso. apply (Hne0 H0). reflexivity. }
      destruct (Hlen Hid) as [Hr Hl]. subst len.
      assert (Ea : forall v, add_column (l_last L) (l_sumw L) d1 v = upd (fun x => nadd x v) (l_sumw L) d1).
      { intros v. unfold add_column. rewrite HL1, Hd. unfold l_size. rewrite Nat.div_mul by lia.
        rewrite Hr. reflexivity. }
      rewrite Ea. eexists; split; [reflexivity|].
      split; [rewrite upd_length; congruence|].
      intros i kd Hi1 Hk. assert (i = 0) by lia. subst i. change (0 * l_last L + column_of L kd) with (column_of L kd).
      rewrite nth_upd by (rewrite HL1, Hd; unfold l_size; rewrite Hr; pose proof (column_lt kd Hk); lia).
      assert (Hh : filter (fun r => hit 0 (f r)) sub = sub).
      { apply filter_all. intros r _. rewrite Hz. reflexivity. }
      pose proof (Hp 0 kd) as Hp0. rewrite Hh in Hp0. change (0 * l_last L + column_of L kd) with (column_of L kd) in Hp0. rewrite Hp0 by (auto; lia). rewrite Hh.
      unfold l_sumw.
      destruct kd; cbn [column_of has_column] in *;
        repeat match goal with |- context [Nat.eqb ?a ?b] => destruct (Nat.eqb_spec a b); try lia end; auto.
      * cbn [row_adds row_weight]. rewrite nmul_1_r, nsum_map_one. reflexivity.
      * congruence.
Qed.
End Block.
