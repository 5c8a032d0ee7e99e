(** C69: bin keys compare, hash and sort like the values in their bins. *)
From Coq Require Import String Permutation Sorted.
From Verif Require Import Base Num NumFacts Axis AxisSpec AxisProofs AxisMain Calc Content Fill FillSpec FillProofs2 HistAlg Nd Proj Pandas PandasProofs ProjLaws
  Vega VegaEnc HistAlgMain Props_Axis Props_Alg Props_Pandas Props_Vega Props_VegaEnc Props_Table Interval IntervalProofs.
Local Open Scope list_scope.

(** The axes that count numbers in intervals, as they are constructed, with finite edges. *)
Inductive numeric_axis : axis -> Prop :=
| na_bin e n l h u o nf cl ax : mk_bin e n (Fin l) (Fin h) u o nf cl = Ok ax -> 0 < n -> numeric_axis ax
| na_split e raw u o nf cl ax : (forall x, In x raw -> exists q, x = Fin q) -> mk_split e raw u o nf cl = Ok ax -> numeric_axis ax.

Lemma numeric_ascending ax : numeric_axis ax -> StronglySorted below (keys ax).
Proof.
  intros [e n l h u o nf cl ax0 H Hn|e raw u o nf cl ax0 Hf H].
  - pose proof (mk_bin_lt _ _ _ _ _ _ _ _ _ H Hn) as L. apply mk_bin_ok in H. destruct H as (-> & _). apply bin_ascending; auto.
  - assert (NN : nonan raw) by (intros x Hx; destruct (Hf x Hx) as (q & ->); discriminate).
    assert (H' := H). apply mk_split_ok in H'. destruct H' as (-> & _). destruct (mk_split_edges _ _ _ _ _ _ _ NN H) as (S & Ne & _).
    apply split_ascending; auto. intros _ x Hx. apply (proj1 (sort_num_in _ _)) in Hx. destruct (Hf x Hx) as (q & ->). split; discriminate.
Qed.
Lemma numeric_increasing ax : numeric_axis ax -> increasing_keys (keys ax).
Proof.
  intros [e n l h u o nf cl ax0 H Hn|e raw u o nf cl ax0 Hf H].
  - apply (C07_bin_keys_partition _ _ _ _ _ _ _ _ _ H Hn).
  - apply (C07_split_keys_partition e raw u o nf cl ax0); auto. intros x Hx. destruct (Hf x Hx) as (q & ->). discriminate.
Qed.
Lemma numeric_keys ax k : numeric_axis ax -> In k (keys ax) -> nan_free_key k /\ is_interval k = true.
Proof.
  intros [e n l h u o nf cl ax0 H Hn|e raw u o nf cl ax0 Hf H] I.
  - apply mk_bin_ok in H. destruct H as (-> & _). cbn [keys] in I. unfold keys_bin in I. rewrite !in_app_iff in I.
    destruct I as [I|[I|[I|I]]].
    + destruct u; [|destruct I]. destruct I as [<-|[]]. repeat split.
    + apply in_map_iff in I as (i & <- & _). rewrite !i2x_edge by auto. repeat split.
    + destruct o; [|destruct I]. destruct I as [<-|[]]. repeat split.
    + destruct nf; [|destruct I]. destruct I as [<-|[]]. repeat split.
  - assert (NN : nonan raw) by (intros x Hx; destruct (Hf x Hx) as (q & ->); discriminate).
    assert (H' := H). apply mk_split_ok in H'. destruct H' as (-> & _). destruct (mk_split_edges _ _ _ _ _ _ _ NN H) as (_ & Ne & N).
    assert (NE : forall x, In x (sort_num raw) -> isnan x = false) by (intros x Hx; specialize (N x Hx); destruct x; cbn in *; congruence).
    cbn [keys] in I. unfold keys_split in I. rewrite !in_app_iff in I. destruct I as [I|[I|[I|I]]].
    + destruct u; [|destruct I]. destruct I as [<-|[]]. repeat split. apply NE. destruct (sort_num raw); [congruence|left; auto].
    + apply in_map_iff in I as ([x y] & <- & P). cbn [fst snd]. assert (G : forall es : list Num, In (x, y) (pairs_of es) -> In x es /\ In y es).
      { clear. induction es as [|a es IH]; intros P; [destruct P|]. destruct es as [|b es]; [destruct P|]. destruct P as [P|P].
        - injection P as <- <-. split; [left|right; left]; auto.
        - destruct (IH P). split; right; auto. }
      destruct (G _ P). repeat split; apply NE; auto.
    + destruct o; [|destruct I]. destruct I as [<-|[]]. repeat split. apply NE. rewrite <- (pairs_lows (sort_num raw)) at 2 by auto. apply in_app_iff. right; left; auto.
    + destruct nf; [|destruct I]. destruct I as [<-|[]]. repeat split.
Qed.

(** ** The keys of an axis are listed in ascending order, and all comparisons of two of them agree. *)
Theorem C69_keys_ascend ax i j a b : numeric_axis ax -> i < j -> nth_error (keys ax) i = Some a -> nth_error (keys ax) j = Some b ->
  py_lt a b = Ok true /\ py_le a b = Ok true /\ py_gt a b = Ok false /\ py_ge a b = Ok false /\ py_eq a b = false /\
  py_lt b a = Ok false /\ py_le b a = Ok false /\ py_gt b a = Ok true /\ py_ge b a = Ok true /\ py_eq b a = false.
Proof.
  intros N L Ha Hb. destruct (ss_nth _ _ (numeric_ascending ax N) _ _ _ _ L Ha Hb) as (B1 & B2).
  destruct (numeric_keys ax a N (nth_error_In _ _ Ha)) as (Fa & Ia). destruct (numeric_keys ax b N (nth_error_In _ _ Hb)) as (Fb & Ib).
  assert (E : py_eq a b = false /\ py_eq b a = false).
  { split; [destruct (py_eq a b) eqn:E|destruct (py_eq b a) eqn:E]; auto; apply py_eq_iff in E; auto; subst; congruence. }
  destruct E as (E1 & E2).
  destruct a as [l h cl ch| | |], b as [l' h' cl' ch'| | |]; try discriminate; cbn in *; rewrite ?E1, ?E2 in *;
    repeat match goal with H : Ok _ = Ok _ |- _ => injection H as H end; rewrite ?B1, ?B2, ?orb_false_r; repeat split; auto.
Qed.
Print Assumptions C69_keys_ascend.

(** ** One key is below another exactly if the values of the one are below those of the other. *)
Theorem C69_order_of_values ax a b x y : numeric_axis ax -> In a (keys ax) -> In b (keys ax) -> contains a x -> contains b y -> x <> NaN -> y <> NaN ->
  (py_lt a b = Ok true <-> a <> b /\ nltb x y = true).
Proof.
  intros N Ia Ib Cx Cy Nx Ny. apply In_nth_error in Ia as (i & Hi). apply In_nth_error in Ib as (j & Hj).
  pose proof (numeric_increasing ax N) as INC. destruct (Nat.lt_trichotomy i j) as [L|[->|L]].
  - destruct (C69_keys_ascend ax i j a b N L Hi Hj) as (B & _ & _ & _ & E & _). destruct (INC i j a b x y L Hi Hj Cx Cy) as (_ & [V|V]); [|congruence].
    split; auto. intros _. split; auto. intros ->. destruct (numeric_keys ax b N (nth_error_In _ _ Hj)) as (Fb & Jb).
    assert (py_eq b b = true) by (apply py_eq_iff; auto). congruence.
  - assert (a = b) by congruence. subst b. split; [|tauto]. intros B. destruct a as [l h cl ch| | |]; cbn in *; try contradiction; try congruence.
    injection B as B. rewrite nltb_irrefl in B. discriminate.
    + injection B as B. rewrite Z.ltb_irrefl in B. discriminate.
  - destruct (C69_keys_ascend ax j i b a N L Hj Hi) as (_ & _ & _ & _ & _ & B & _). destruct (INC j i b a y x L Hj Hi Cy Cx) as (_ & [V|V]); [|congruence].
    rewrite B. split; [discriminate|]. intros (_ & V'). apply nltb_asym in V'. congruence.
Qed.
Print Assumptions C69_order_of_values.

(** ** Sorting the keys, from any order, gives the order of the axis: whatever the sorting algorithm
    (first part), and it does not raise. *)
Theorem C69_sorted_keys ax l : numeric_axis ax -> Permutation l (keys ax) ->
  (forall l', Permutation l' l -> (forall i j a b, i < j -> nth_error l' i = Some a -> nth_error l' j = Some b -> py_lt b a = Ok false) -> l' = keys ax) /\
  key_sort l = Ok (keys ax).
Proof.
  intros N P. pose proof (numeric_ascending ax N) as SS. split; [|apply sort_is; auto].
  intros l' P' H. assert (PK : Permutation l' (keys ax)) by (etransitivity; eauto). apply sorted_is; auto.
  assert (ND : NoDup l') by (eapply Permutation_NoDup; [apply Permutation_sym; eauto|apply ks_nodup; auto]).
  assert (IN : forall x, In x l' -> In x (keys ax)) by (intros x; apply Permutation_in; auto). clear P P' PK.
  induction l' as [|x l' IH]; constructor.
  - inversion ND; subst. apply IH; auto; [|intros y Hy; apply IN; right; auto]. intros i j a b L Ha Hb. apply (H (S i) (S j)); auto. lia.
  - apply Forall_forall. intros y Hy. inversion ND; subst. assert (Hy' := Hy). apply In_nth_error in Hy' as (j & Hj).
    assert (B : py_lt y x = Ok false) by (apply (H 0 (S j)); auto; lia).
    destruct (ks_total (keys ax) SS x y) as [->|[K|K]]; auto; [apply IN; left; auto|apply IN; right; auto|contradiction|].
    destruct K as (K & _). congruence.
Qed.
Print Assumptions C69_sorted_keys.

(** ** A legend of an overlaid or stacked numeric axis lists all its bins in the order of the axis. *)
Theorem C69_legend_in_axis_order sqrt bin_width h p id order data ds a j ks : numeric_axis a ->
  data1d sqrt bin_width h p id = Ok (order, data, ds) -> position a order = Ok j -> In (a, ks) ds ->
  legend domain_sorted a ds = Ok (map (fun k => str_of (DBin k)) (keys a)).
Proof.
  intros N E Hp Hin. destruct (data1d_rows _ _ _ _ _ _ _ _ E) as (_ & _ & _ & Hdom). unfold legend, domain_of.
  assert (Hf : In (a, ks) (filter (fun d => axis_eqb (fst d) a) ds)) by (apply filter_In; split; auto; apply (position_self a order j Hp)).
  assert (HF : forall d, In d (filter (fun d => axis_eqb (fst d) a) ds) -> snd d = map DBin (keys a)).
  { intros [b ks'] Hd. apply filter_In in Hd as (Hd & Eb). apply HistAlgMain.axis_eqb_eq in Eb. cbn [fst] in Eb. subst b. destruct (Hdom a ks' Hd) as (_ & c & Ec).
    cbn [snd]. destruct N as [e n l h0 u o nf cl ax0 H Hn|e raw u o nf cl ax0 Hr H].
    - apply mk_bin_ok in H. destruct H as (-> & _). injection Ec as <-. reflexivity.
    - apply mk_split_ok in H. destruct H as (-> & _). injection Ec as <-. reflexivity. }
  destruct (filter _ ds) as [|x0 l0]; [contradiction|]. cbn [bind].
  assert (Em : exists m, flat_map snd (x0 :: l0) = map DBin m /\ forall k, In k m <-> In k (keys a)).
  { clear - HF. induction l0 as [|x1 l0 IH] in x0, HF |- *.
    - exists (keys a). cbn [flat_map]. rewrite app_nil_r. split; [apply HF; left; auto|tauto].
    - destruct (IH x1) as (m & Em & Im); [intros d Hd; apply HF; right; auto|]. exists (keys a ++ m). change (flat_map snd (x0 :: x1 :: l0)) with (snd x0 ++ flat_map snd (x1 :: l0)).
      rewrite Em, (HF x0) by (left; auto). rewrite map_app. split; auto. intros k. rewrite in_app_iff, Im. tauto. }
  destruct Em as (m & -> & Im). rewrite (domain_is (keys a) m); auto.
  - cbn [bind]. rewrite map_map. reflexivity.
  - apply numeric_ascending; auto.
  - intros k. apply numeric_keys; auto.
Qed.
Print Assumptions C69_legend_in_axis_order.

(** ** Equal keys have the same hash and hold the same values; equality is an equivalence. *)
Theorem C69_equal_keys a b : py_eq a b = true -> key_hash a = key_hash b /\ py_eq b a = true /\
  (is_interval a = true -> forall x, contains a x <-> contains b x).
Proof.
  unfold py_eq. destruct (is_interval a || is_interval b) eqn:I.
  - intros E. assert (a = b /\ py_eq a a = true) as (<- & E').
    { destruct a as [l h cl ch| | |], b as [l' h' cl' ch'| | |]; try discriminate; auto. cbn in E. unfold py_eq. cbn.
      rewrite !andb_true_iff, !neqb_iff, !Bool.eqb_true_iff in *. destruct E as ((((-> & H1) & (-> & H2)) & ->) & ->). repeat split; auto. }
    split; auto. rewrite orb_diag in I. rewrite I in *. cbn [orb]. split; auto. intros _ x. tauto.
  - intros E. apply orb_false_iff in I as (I1 & I2). rewrite I1, I2. cbn [orb]. apply Z.eqb_eq in E. split; [|split].
    + destruct a, b; try discriminate; cbn [key_hash]; congruence.
    + apply Z.eqb_eq. auto.
    + discriminate.
Qed.
Theorem C69_equality_reflexive k : nan_free_key k -> py_eq k k = true.
Proof.
  intros N. destruct (is_interval k) eqn:I; [apply py_eq_iff; auto|]. unfold py_eq. rewrite I. cbn [orb]. apply Z.eqb_refl.
Qed.
Theorem C69_equality_transitive a b c : py_eq a b = true -> py_eq b c = true -> py_eq a c = true.
Proof.
  intros E1 E2. destruct (C69_equal_keys a b E1) as (H1 & _). destruct (C69_equal_keys b c E2) as (H2 & _).
  unfold py_eq in *. destruct a as [l h cl ch| | |], b as [l' h' cl' ch'| | |]; try discriminate; destruct c as [l2 h2 cl2 ch2| | |]; try discriminate; auto;
    try (cbn [key_hash] in H1; injection H1 as <- <- <- <-; exact E2); cbn [is_interval orb] in *; apply Z.eqb_eq; apply Z.eqb_eq in E1; apply Z.eqb_eq in E2; congruence.
Qed.
(** A key, except that of NaN, is <= and >= itself, and neither < nor >. *)
Theorem C69_key_with_itself k : nan_free_key k -> k <> KNaN ->
  py_le k k = Ok true /\ py_ge k k = Ok true /\ py_lt k k = Ok false /\ py_gt k k = Ok false /\ py_eq k k = true.
Proof.
  intros N K. assert (E := C69_equality_reflexive k N). destruct k as [l h cl ch| |z|b]; try congruence.
  - assert (X : iv_eq (KIv l h cl ch) (KIv l h cl ch) = true) by exact E.
    unfold py_le, py_ge, py_lt, py_gt, operator. cbn [is_interval orb right_first]. unfold iv_le, iv_ge, iv_gt. rewrite X. cbn [iv_lt]. rewrite nltb_irrefl.
    repeat split; auto.
  - unfold py_le, py_ge, py_lt, py_gt, operator. cbn. rewrite Z.leb_refl, Z.ltb_irrefl. repeat split; auto.
  - unfold py_le, py_ge, py_lt, py_gt, operator. cbn. rewrite Z.leb_refl, Z.ltb_irrefl. repeat split; auto.
Qed.
Print Assumptions C69_key_with_itself.
Print Assumptions C69_equal_keys.
Print Assumptions C69_equality_reflexive.
Print Assumptions C69_equality_transitive.

(** ** The keys of a groupbin axis, from its content, are the intervals of the groups, each once, in
    ascending order. *)
Theorem C69_groupbin_keys_ascend e w org nf cl l : NoDup (map fst l) -> (forall k, In k (map fst l) -> exists n, k = GNum n /\ n <> NaN) ->
  exists ns, Permutation (map GNum ns) (map fst l) /\
    keys_of (AGroupbin e w org nf cl) (PDict l) = Ok (map (fun n => DBin (KIv n (nadd n w) cl (negb cl))) ns) /\
    forall i j n m, i < j -> nth_error ns i = Some n -> nth_error ns j = Some m ->
      py_lt (KIv n (nadd n w) cl (negb cl)) (KIv m (nadd m w) cl (negb cl)) = Ok true.
Proof.
  intros ND Hn. pose proof (sort_keys_perm (map fst l)) as P.
  assert (OK : Forall key_ok (map fst l)) by (apply Forall_forall; intros k Hk; destruct (Hn k Hk) as (n & -> & N); intros E; injection E; auto).
  assert (SS := sort_keys_sorted (map fst l) ND OK). assert (Str : forall a b, In a (map fst l) -> In b (map fst l) -> is_str a = is_str b).
  { intros a b Ha Hb. destruct (Hn a Ha) as (n & -> & _). destruct (Hn b Hb) as (m & -> & _). reflexivity. }
  specialize (SS Str).
  assert (G : exists ns, sort_keys (map fst l) = map GNum ns).
  { assert (X : forall k, In k (sort_keys (map fst l)) -> exists n, k = GNum n) by (intros k Hk; destruct (Hn k (Permutation_in _ P Hk)) as (n & -> & _); eauto).
    clear - X. induction (sort_keys (map fst l)) as [|k t IH]; [exists []; auto|]. destruct (X k (or_introl eq_refl)) as (n & ->).
    destruct IH as (ns & ->); [intros k Hk; apply X; right; auto|]. exists (n :: ns). reflexivity. }
  destruct G as (ns & G). exists ns. rewrite <- G. split; auto. split.
  - unfold keys_of, items. rewrite py_sorted_ok by auto. cbn [bind]. rewrite G.
    assert (IN : forall n, In n ns -> In (GNum n) (map fst l)).
    { intros n Hin. apply (Permutation_in _ P). rewrite G. apply in_map; auto. }
    clear - IN OK. induction ns as [|n ns IH]; auto. cbn [map mapM].
    assert (exists x, lookup (GNum n) l = Ok x) as (x & Ex).
    { unfold lookup. rewrite Forall_forall in OK. destruct (assoc_present l (GNum n)) as (x & ->); eauto. apply OK, IN. left; auto. apply IN. left; auto. }
    rewrite Ex. cbn [bind]. specialize (IH (fun m Hm => IN m (or_intror Hm))).
    match type of IH with rmap _ ?M = _ => destruct M as [r|]; [|discriminate] end. cbn [rmap] in IH. injection IH as IH. cbn [bind rmap map fst]. rewrite IH. reflexivity.
  - intros i j n m L Hi Hj. rewrite G in SS. apply ss_map in SS. pose proof (ss_nth _ _ SS i j n m L Hi Hj) as H. cbn in H |- *. rewrite H. reflexivity.
Qed.
Print Assumptions C69_groupbin_keys_ascend.

(** ** What is not true *)

(** The key of NaN is equal to itself, below itself, and not greater or equal. *)
Theorem C69_nan_key_refuted : py_eq KNaN KNaN = true /\ py_lt KNaN KNaN = Ok true /\ py_ge KNaN KNaN = Ok false.
Proof. repeat split. Qed.
(** Intervals of different axes with the same low edge: neither is below the other and they differ, but
    each is greater than the other. *)
Theorem C69_same_low_refuted l h h' cl ch cl' ch' : h <> h' ->
  let a := KIv l h cl ch in let b := KIv l h' cl' ch' in
  py_eq a b = false /\ py_lt a b = Ok false /\ py_lt b a = Ok false /\ py_gt a b = Ok true /\ py_gt b a = Ok true.
Proof.
  intros Hh a b. assert (E : forall x y, x <> y -> neqb x y = false) by (intros x y; destruct (neqb x y) eqn:E; auto; apply neqb_eq in E; congruence).
  unfold py_eq, a, b. cbn. rewrite (E h h'), (E h' h), nltb_irrefl, !andb_false_r by auto. repeat split.
Qed.
(** An infinite edge: split(expr, [-inf, 0]) with underflow has two keys that start at -inf. *)
Theorem C69_infinite_edge_refuted : exists ax a b, mk_split "x" [NInf; nz 0] true true true true = Ok ax /\
  nth_error (keys ax) 0 = Some a /\ nth_error (keys ax) 1 = Some b /\ py_lt a b = Ok false /\ py_lt b a = Ok false /\ py_eq a b = false.
Proof. eexists. eexists. eexists. split; [vm_compute; reflexivity|]. repeat split; vm_compute; reflexivity. Qed.

(** The keys of an intbin axis with underflow or overflow cannot be sorted, so an overlay or a stack of
    such an axis raises TypeError. *)
Lemma insert_kind k l r : key_insert k l = Ok r -> forall b, (forall x, In x l -> is_interval x = b) -> l <> [] -> is_interval k = b /\ forall x, In x r -> is_interval x = b.
Proof.
  revert r. induction l as [|x l IH]; intros r E b H Ne; [congruence|]. cbn [key_insert] in E. apply ProjLaws.bind_ok' in E as (c & C & E).
  assert (K : is_interval k = b).
  { rewrite <- (H x (or_introl eq_refl)). destruct k, x; try reflexivity; discriminate C. }
  split; auto. intros y Hy. destruct c.
  - injection E as <-. destruct Hy as [<-|Hy]; auto.
  - destruct (key_insert k l) as [r'|] eqn:E'; [|discriminate]. injection E as <-. destruct Hy as [<-|Hy]; [apply H; left; auto|].
    destruct l as [|z l]; [injection E' as <-; destruct Hy as [<-|[]]; auto|]. apply (IH r' eq_refl b); auto; [intros w Hw; apply H; right; auto|discriminate].
Qed.
Lemma insert_in k l r : key_insert k l = Ok r -> forall x, In x r <-> x = k \/ In x l.
Proof.
  revert r. induction l as [|y l IH]; intros r E x; cbn [key_insert] in E; [injection E as <-; simpl; intuition congruence|].
  apply ProjLaws.bind_ok' in E as (c & _ & E). destruct c; [injection E as <-; simpl; intuition congruence|].
  destruct (key_insert k l) as [r'|] eqn:E'; [|discriminate]. injection E as <-. simpl. rewrite (IH r' eq_refl x). tauto.
Qed.
Lemma sort_kind l : forall r, key_sort l = Ok r -> (forall x, In x r <-> In x l) /\ forall x y, In x l -> In y l -> is_interval x = is_interval y.
Proof.
  induction l as [|k l IH]; intros r E; cbn [key_sort] in E; [injection E as <-; split; [tauto|intros x y []]|].
  apply ProjLaws.bind_ok' in E as (s & S & E). destruct (IH s S) as (I & K). pose proof (insert_in k s r E) as II.
  split; [intros x; rewrite II, I; simpl; intuition congruence|].
  destruct l as [|z l]; [intros x y [<-|[]] [<-|[]]; auto|].
  assert (Hz : In z s) by (apply I; left; auto).
  destruct (insert_kind k s r E (is_interval z)) as (Kk & Kr); [intros x Hx; apply K; [apply I; auto|left; auto]|intros ->; destruct Hz|].
  intros x y Hx Hy. assert (G : forall w, In w (k :: z :: l) -> is_interval w = is_interval z) by (intros w [<-|Hw]; auto; apply K; auto; left; auto).
  rewrite (G x Hx), (G y Hy). reflexivity.
Qed.
Lemma set_kind l b : (exists k, In k l /\ is_interval k = b) -> exists k, In k (key_set l) /\ is_interval k = b.
Proof.
  induction l as [|x l IH]; [intros (k & [] & _)|]. intros (k & [E|Hk] & Kb); cbn [key_set].
  - subst x. destruct (existsb (py_eq k) (key_set l)) eqn:E; [|exists k; split; auto; left; auto].
    apply existsb_exists in E as (y & Hy & Ey). exists y. split; auto. rewrite <- Kb. destruct k, y; auto; discriminate Ey.
  - destruct IH as (y & Hy & Ky); eauto. exists y. split; auto. destruct (existsb _ _); auto. right; auto.
Qed.
Lemma lt_err a b er : py_lt a b = Err er -> er = TypeError.
Proof. destruct a, b; cbn; congruence. Qed.
Lemma insert_err k l er : key_insert k l = Err er -> er = TypeError.
Proof.
  induction l as [|x l IH]; cbn [key_insert]; [discriminate|]. destruct (py_lt k x) as [c|e0] eqn:E; cbn [bind].
  - destruct c; [discriminate|]. destruct (key_insert k l); [discriminate|]. cbn [rmap]. intros H. apply IH. congruence.
  - intros H. injection H as <-. apply (lt_err _ _ _ E).
Qed.
Lemma sort_err l er : key_sort l = Err er -> er = TypeError.
Proof.
  induction l as [|x l IH]; cbn [key_sort]; [discriminate|]. destruct (key_sort l); cbn [bind]; [apply insert_err|]. intros H. apply IH. congruence.
Qed.
Theorem C69_intbin_keys_refuted e mn mx u o ax : mk_intbin e mn mx u o = Ok ax -> (u = true \/ o = true) ->
  forall l, (forall k, In k l <-> In k (keys ax)) -> domain_sorted (map DBin l) = Err TypeError.
Proof.
  intros H Huo l I. apply mk_intbin_ok in H as (-> & L).
  unfold domain_sorted. rewrite all_bins. destruct (key_sort (key_set l)) as [s|er] eqn:S; [|apply sort_err in S; subst; reflexivity]. exfalso.
  destruct (sort_kind _ _ S) as (_ & K).
  assert (A : exists k, In k (keys (AIntbin e mn mx u o)) /\ is_interval k = true).
  { cbn [keys]. unfold keys_intbin. destruct Huo as [-> | ->]; eexists; (split; [|shelve]).
    - left. reflexivity.
    - rewrite !in_app_iff. right; right; left; reflexivity.
    Unshelve. all: reflexivity. }
  assert (B : exists k, In k (keys (AIntbin e mn mx u o)) /\ is_interval k = false).
  { exists (KInt mn). split; auto. cbn [keys]. unfold keys_intbin. rewrite !in_app_iff. right; left. apply in_map_iff. exists 0. split; [f_equal; lia|]. apply in_seq. lia. }
  destruct (set_kind l true) as (a & Ha & Ka); [destruct A as (k & Hk & K1); exists k; split; auto; apply I; auto|].
  destruct (set_kind l false) as (b & Hb & Kb); [destruct B as (k & Hk & K1); exists k; split; auto; apply I; auto|].
  specialize (K a b Ha Hb). congruence.
Qed.
Print Assumptions C69_intbin_keys_refuted.

(** ** Cases *)
Example C69_bin_case : numeric_axis (ABin "x" 3 (nz 0) (nz 6) true true true true) /\
  key_sort (rev (keys (ABin "x" 3 (nz 0) (nz 6) true true true true))) = Ok (keys (ABin "x" 3 (nz 0) (nz 6) true true true true)).
Proof.
  assert (N : numeric_axis (ABin "x" 3 (nz 0) (nz 6) true true true true)) by (apply (na_bin "x" 3 (qz 0) (qz 6) true true true true); [reflexivity|lia]).
  split; [exact N|]. apply C69_sorted_keys; auto. symmetry. apply Permutation_rev.
Qed.
Example C69_split_case : exists ax, mk_split "x" [nz 5; nz 1; nz 2] true false true false = Ok ax /\ numeric_axis ax /\
  domain_sorted (map DBin (keys ax ++ rev (keys ax))) = Ok (map DBin (keys ax)).
Proof.
  assert (E : exists ax, mk_split "x" [nz 5; nz 1; nz 2] true false true false = Ok ax) by (eexists; vm_compute; reflexivity). destruct E as (ax & E).
  assert (N : numeric_axis ax) by (apply (na_split "x" [nz 5; nz 1; nz 2] true false true false); auto; intros x [<-|[<-|[<-|[]]]]; eexists; reflexivity).
  exists ax. split; auto. split; auto. apply domain_is; [apply numeric_ascending; auto|intros k; apply numeric_keys; auto|].
  intros k. rewrite in_app_iff, <- in_rev. tauto.
Qed.
Example C69_values_case : exists a b, nth_error (keys (ABin "x" 3 (nz 0) (nz 6) true true true true)) 1 = Some a /\
  nth_error (keys (ABin "x" 3 (nz 0) (nz 6) true true true true)) 3 = Some b /\ contains a (nz 1) /\ contains b (nz 4) /\ py_lt a b = Ok true.
Proof.
  exists (KIv (nz 0) (nz 2) true false), (KIv (nz 4) (nz 6) true false). split; [vm_compute; reflexivity|]. split; [vm_compute; reflexivity|].
  split; [|split; [|vm_compute; reflexivity]]; split; try (left; reflexivity). right. repeat split; discriminate.
Qed.
(** An overlay of a bin axis: the legend is in the order of the axis. *)
Definition iv_y : axis := ABin "y" 2 (nz 0) (nz 20) true false false true.
Definition iv_hist : hobj := {| o_group := []; o_fixed := [iv_y; pd_x]; o_prof := []; o_weight := None; o_filter := None; o_defs := []; o_attach := [];
  o_content := arr (map Z.of_nat (seq 1 (3 * totbins pd_x))) |}.
Definition iv_plot : plot1d := {| p1_chain := [ChOverlay iv_y]; p1_last := ve_last TLine pd_x false |}.
Example C69_legend_case : numeric_axis iv_y /\ exists order data ds ks, data1d (fun x => x) Props_Table.exact_width (view iv_hist) iv_plot None = Ok (order, data, ds) /\
  position iv_y order = Ok 0 /\ In (iv_y, ks) ds /\ legend domain_sorted iv_y ds = Ok (map (fun k => str_of (DBin k)) (keys iv_y)) /\ List.length (keys iv_y) = 3.
Proof.
  assert (N : numeric_axis iv_y) by (apply (na_bin "y" 2 (qz 0) (qz 20) true false false true); [reflexivity|lia]). split; [exact N|].
  assert (E : exists order data ds ks, data1d (fun x => x) Props_Table.exact_width (view iv_hist) iv_plot None = Ok (order, data, ds) /\
    position iv_y order = Ok 0 /\ In (iv_y, ks) ds) by (do 4 eexists; split; [vm_compute; reflexivity|]; split; [vm_compute; reflexivity|]; left; vm_compute; reflexivity).
  destruct E as (order & data & ds & ks & E & P & I). exists order, data, ds, ks. split; auto. split; auto. split; auto. split; [|reflexivity].
  exact (C69_legend_in_axis_order _ _ _ _ _ _ _ _ _ _ _ N E P I).
Qed.
Example C69_groupbin_case : exists ns, Permutation (map GNum ns) [GNum (nz 20); GNum (nz 10)] /\
  keys_of (AGroupbin "z" (nz 10) (nz 0) true true) (PDict [(GNum (nz 20), PArr [] []); (GNum (nz 10), PArr [] [])]) = Ok (map (fun n => DBin (KIv n (nadd n (nz 10)) true false)) ns).
Proof.
  destruct (C69_groupbin_keys_ascend "z" (nz 10) (nz 0) true true [(GNum (nz 20), PArr [] []); (GNum (nz 10), PArr [] [])]) as (ns & P & E & _).
  - repeat constructor; cbn [map fst In]; intuition discriminate.
  - intros k [<-|[<-|[]]]; eexists; split; try reflexivity; discriminate.
  - exists ns. split; auto.
Qed.
