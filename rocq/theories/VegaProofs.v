(** The data of a plot: recursion over the axes *)
From Coq Require Import String Sorted Permutation Lia.
From Verif Require Import Base Num NumFacts Axis AxisSpec Calc Content Fill FillSpec FillProofs3 Tree Order Expr InstrSpec Elem HistFill HistSpec KeySpec HistAlg AlgSpec
  Nd NdProofs Proj ProjSpec ProjProofs Select Table TableSpec TableProofs Pandas PandasSpec PandasProofs Vega VegaSpec.
Local Open Scope list_scope.
Local Open Scope nat_scope.

(** ** Lists and arrays *)
Lemma mapM_pairs {A B C} (f : A * B -> res C) (g : nat -> C) (da : A) (db : nat -> B) ks : forall n0,
  (forall i, i < length ks -> f (nth i ks da, db (n0 + i)) = Ok (g (n0 + i))) ->
  mapM f (combine ks (map db (seq n0 (length ks)))) = Ok (map g (seq n0 (length ks))).
Proof.
  induction ks as [|k ks IH]; intros n0 H; [reflexivity|]. cbn [length seq map combine mapM].
  assert (E := H 0 ltac:(cbn; lia)). cbn [nth] in E. rewrite Nat.add_0_r in E. rewrite E. cbn [bind].
  rewrite (IH (S n0)); [reflexivity|]. intros i Hi. replace (S n0 + i) with (n0 + S i) by lia. apply (H (S i)). cbn. lia.
Qed.
Lemma nth_slice {A} (d : list A) x m i r : r < m -> nth r (firstn m (skipn (i * m) d)) x = nth (i * m + r) d x.
Proof.
  intros Hr. generalize (i * m) as k. intros k. revert d r Hr. induction k as [|k IH]; intros d r Hr.
  - cbn [skipn plus]. revert d r Hr. induction m as [|m IH]; intros d r Hr; [lia|]. destruct d as [|y d]; [destruct r; reflexivity|]. cbn [firstn]. destruct r as [|r]; auto. cbn. apply IH. lia.
  - destruct d as [|y d]; [cbn [skipn]; rewrite firstn_nil; destruct r; reflexivity|]. cbn [skipn]. rewrite IH by auto. reflexivity.
Qed.
Lemma slice_length {A} (d : list A) n m i : length d = n * m -> i < n -> length (firstn m (skipn (i * m) d)) = m.
Proof. intros H Hi. rewrite firstn_length, skipn_length, H. nia. Qed.
Lemma aget_slice n sh d i ss : Forall2 lt ss sh -> aget (n :: sh) d (i :: ss) = aget sh (firstn (prodn sh) (skipn (i * prodn sh) d)) ss.
Proof. intros H. unfold aget. cbn [ravel]. rewrite nth_slice; [reflexivity|]. apply (ravel_lt _ _ H). Qed.
Lemma in_indices sh : forall ss, In ss (indices sh) <-> Forall2 lt ss sh.
Proof.
  induction sh as [|n sh IH]; intros ss; cbn [indices].
  - split; [intros [<-|[]]; constructor|]. intros H. inversion H. left. reflexivity.
  - rewrite in_flat_map. split.
    + intros (i & Hi & H). apply in_map_iff in H. destruct H as (ss' & <- & H). constructor; [apply in_seq in Hi; lia|]. apply IH. auto.
    + intros H. inversion H as [|i ? ss' ? Hi Hs]; subst. exists i. split; [apply in_seq; lia|]. apply in_map. apply IH. auto.
Qed.
Lemma perm_three {A B} (f g h : A -> list B) l :
  Permutation (flat_map (fun x => f x ++ g x ++ h x) l) (flat_map f l ++ flat_map g l ++ flat_map h l).
Proof.
  induction l as [|x l IH]; [reflexivity|]. cbn [flat_map]. rewrite <- !app_assoc. apply Permutation_app_head.
  rewrite IH. etransitivity; [|apply Permutation_app_swap_app]. apply Permutation_app_head. rewrite !app_assoc. rewrite <- !app_assoc.
  etransitivity; [apply Permutation_app_swap_app|]. apply Permutation_app_head. apply Permutation_app_swap_app.
Qed.
Lemma perm_flat_map {A B} (f g : A -> list B) l : (forall x, In x l -> Permutation (f x) (g x)) -> Permutation (flat_map f l) (flat_map g l).
Proof. induction l as [|x l IH]; intros H; [reflexivity|]. cbn [flat_map]. apply Permutation_app; [apply H; left; auto|]. apply IH. intros; apply H; right; auto. Qed.
Lemma flat_map_flat_map {A B C} (f : A -> list B) (g : B -> list C) l : flat_map g (flat_map f l) = flat_map (fun x => flat_map g (f x)) l.
Proof. induction l as [|x l IH]; auto. cbn [flat_map]. rewrite flat_map_app, IH. reflexivity. Qed.
Lemma flat_map_map {A B C} (f : A -> B) (g : B -> list C) l : flat_map g (map f l) = flat_map (fun x => g (f x)) l.
Proof. induction l as [|x l IH]; auto. cbn [flat_map map]. rewrite IH. reflexivity. Qed.
Lemma flat_map_ext_in {A B} (f g : A -> list B) l : (forall x, In x l -> f x = g x) -> flat_map f l = flat_map g l.
Proof. induction l as [|x l IH]; intros H; auto. cbn [flat_map]. rewrite H by (left; auto). f_equal. apply IH. intros; apply H; right; auto. Qed.

Lemma outs_rows l : w_rows (outs l) = flat_map w_rows l.
Proof. induction l as [|x l IH]; auto. cbn [outs fold_right flat_map out_app w_rows] in *. f_equal. exact IH. Qed.
Lemma outs_shifts l : w_shifts (outs l) = flat_map w_shifts l.
Proof. induction l as [|x l IH]; auto. cbn [outs fold_right flat_map out_app w_shifts] in *. f_equal. exact IH. Qed.
Lemma outs_domains l : w_domains (outs l) = flat_map w_domains l.
Proof. induction l as [|x l IH]; auto. cbn [outs fold_right flat_map out_app w_domains] in *. f_equal. exact IH. Qed.

(** ** The fixed axes *)
Definition listed (a : axis) : Prop := is_fixed a = true /\ a <> ANull /\ length (keys (as_bin a)) = totbins a.
Definition dk (a : axis) (s : nat) : dkey := DBin (nth s (keys (as_bin a)) KNaN).
Definition txt (a : axis) (s : nat) : vcell := VText (text_of (dk a s)).
Definition texts (F : list axis) (ss : list nat) : list vcell := map (fun p => txt (fst p) (snd p)) (combine F ss).
(** The cells with the number [x] in place [i] *)
Definition pcells (i : nat) (x : Num) (F : list axis) (ss : list nat) : list vcell := firstn i (texts F ss) ++ VNumber x :: skipn (S i) (texts F ss).
(** The finite ends of a bin, as the recursion sees them *)
Definition iends (a : axis) (s : nat) : option (Num * Num) :=
  match dk a s with
  | DBin (KIv lo hi _ _) => if isfin lo && isfin hi then Some (lo, hi) else None
  | _ => None
  end.

Lemma listed_keys a c : listed a -> keys_of a c = Ok (map DBin (keys a)).
Proof. intros (H & Hn & _). destruct a; try discriminate; try contradiction; reflexivity. Qed.
Lemma listed_items a n sh d : listed a -> n = totbins a ->
  items (as_bin a) (PArr (n :: sh) d) =
  Ok (combine (map DBin (keys (as_bin a))) (map (fun i => PArr sh (firstn (prodn sh) (skipn (i * prodn sh) d))) (seq 0 (length (map DBin (keys (as_bin a))))))).
Proof.
  intros (H & Hn & Hl) ->. rewrite map_length, Hl.
  assert (E : items (as_bin a) (PArr (totbins a :: sh) d) =
    do ps <- parts (PArr (totbins a :: sh) d); if Nat.eqb (length (keys (as_bin a))) (length ps) then Ok (combine (map DBin (keys (as_bin a))) ps) else Err ValueError).
  { destruct a; try discriminate; reflexivity. }
  rewrite E. cbn [parts bind]. rewrite map_length, seq_length, Hl, Nat.eqb_refl. reflexivity.
Qed.

Section Fixed.
  Variables (l : last1d) (lastj k : nat).
  Hypothesis Hk : 0 < k.
  Definition kept (row : list vcell) (ns : list Num) : list (list vcell) :=
    match ns with y :: _ => if keeps l y then [row ++ map VNumber ns] else [] | [] => [] end.
  Definition zeros2 : list Num := if c_error l then [nzero; nzero] else [nzero].
  Definition nums (tots : list nat) (d : list Num) (ss : list nat) : list Num := map (fun q => aget (tots ++ [k]) d (ss ++ [q])) (seq 0 k).
  Definition vals (base : bool) (tots : list nat) (d : list Num) (ss : list nat) : list Num := if base then zeros2 else nums tots d ss.

  Lemma nums_slice n tots d i ss : Forall2 lt ss tots ->
    nums (n :: tots) d (i :: ss) = nums tots (firstn (prodn (tots ++ [k])) (skipn (i * prodn (tots ++ [k])) d)) ss.
  Proof.
    intros H. unfold nums. apply map_ext_in. intros q Hq. apply in_seq in Hq. cbn [app]. apply aget_slice.
    apply Forall2_app; auto. constructor; [lia|constructor].
  Qed.
  Lemma vals_slice base n tots d i ss : Forall2 lt ss tots ->
    vals base (n :: tots) d (i :: ss) = vals base tots (firstn (prodn (tots ++ [k])) (skipn (i * prodn (tots ++ [k])) d)) ss.
  Proof. intros H. unfold vals. destruct base; auto. apply nums_slice; auto. Qed.
  Lemma leaf j d row base : length d = k ->
    recurse l lastj j [] (PArr [k] d) row base = Ok (out_rows (kept row (vals base [] d []))).
  Proof.
    intros Hd. cbn [recurse numbers_of].
    assert (E : nums [] d [] = d).
    { unfold nums. cbn [app]. apply nth_ext with nzero nzero; [rewrite map_length, seq_length; auto|]. intros q Hq. rewrite map_length, seq_length in Hq.
      rewrite nth_indep with (d' := aget [k] d [0]) by (rewrite map_length, seq_length; auto).
      rewrite (map_nth (fun q => aget [k] d [q]) (seq 0 k) 0 q). rewrite seq_nth by auto. unfold aget. cbn [ravel fold_right plus]. f_equal. lia. }
    unfold vals. destruct base; cbn [bind].
    - unfold zeros2. destruct (c_error l); reflexivity.
    - rewrite E. destruct d as [|y d]; [cbn in Hd; lia|]. reflexivity.
  Qed.

  Definition tots_of (F : list axis) : list nat := map totbins F.
  Lemma fixed_plain F : Forall listed F -> forall j d row base, (quantitative l = true -> lastj < j) -> length d = prodn (tots_of F ++ [k]) ->
    exists o, recurse l lastj j F (PArr (tots_of F ++ [k]) d) row base = Ok o /\ w_shifts o = [] /\
      w_rows o = flat_map (fun ss => kept (row ++ texts F ss) (vals base (tots_of F) d ss)) (indices (tots_of F)).
  Proof.
    induction 1 as [|a F Ha HF IH]; intros j d row base Hj Hd.
    - cbn [tots_of map app] in *. rewrite leaf by (cbn in Hd; lia). eexists. split; [reflexivity|]. split; [reflexivity|].
      cbn [indices flat_map texts combine map out_rows w_rows]. rewrite !app_nil_r. reflexivity.
    - cbn [tots_of map app recurse]. fold (tots_of F). rewrite listed_keys by auto. cbn [bind]. rewrite listed_items by auto. cbn [bind].
      set (m := prodn (tots_of F ++ [k])). set (sl := fun i => firstn m (skipn (i * m) d)).
      assert (Hsl : forall i, i < totbins a -> length (sl i) = prodn (tots_of F ++ [k])).
      { intros i Hi. apply (slice_length d (totbins a)); auto. }
      assert (Ej : Nat.eqb j lastj && quantitative l = false).
      { destruct (quantitative l); [|apply andb_false_r]. rewrite andb_true_r. apply Nat.eqb_neq. specialize (Hj eq_refl). lia. }
      set (g := fun i => match recurse l lastj (S j) F (PArr (tots_of F ++ [k]) (sl i)) (row ++ [txt a i]) base with Ok o => o | Err _ => out_none end).
      assert (Hg : forall i, i < totbins a -> recurse l lastj (S j) F (PArr (tots_of F ++ [k]) (sl i)) (row ++ [txt a i]) base = Ok (g i) /\
        w_shifts (g i) = [] /\ w_rows (g i) = flat_map (fun ss => kept ((row ++ [txt a i]) ++ texts F ss) (vals base (tots_of F) (sl i) ss)) (indices (tots_of F))).
      { intros i Hi. destruct (IH (S j) (sl i) (row ++ [txt a i]) base ltac:(intros X; specialize (Hj X); lia) (Hsl i Hi)) as (o & E & H1 & H2).
        unfold g. rewrite E. auto. }
      destruct (Ha) as (_ & _ & Hlen).
      rewrite (mapM_pairs _ g (DBin KNaN) (fun i => PArr (tots_of F ++ [k]) (firstn m (skipn (i * m) d)))).
      2:{ intros i Hi. rewrite map_length in Hi. rewrite map_nth. cbn [plus]. destruct (Hg i) as (E & _); [lia|]. clearbody g. unfold txt, dk in E.
          destruct (nth i (keys (as_bin a)) KNaN); cbn beta iota; try rewrite Ej; exact E. }
      cbn [bind]. rewrite map_length, Hlen. eexists. split; [reflexivity|]. split.
      + rewrite outs_shifts. cbn [flat_map]. rewrite flat_map_map. cbn [out_domain w_shifts app].
        rewrite (flat_map_ext_in _ (fun _ => [])); [clear; induction (seq 0 (totbins a)); auto|].
        intros i Hi. apply in_seq in Hi. apply Hg. lia.
      + rewrite outs_rows. cbn [flat_map]. rewrite flat_map_map. cbn [out_domain w_rows app indices]. rewrite flat_map_flat_map.
        apply flat_map_ext_in. intros i Hi. apply in_seq in Hi. destruct (Hg i) as (_ & _ & ->); [lia|]. rewrite flat_map_map.
        apply flat_map_ext_in. intros ss Hss. apply in_indices in Hss. rewrite vals_slice by auto. rewrite <- app_assoc. reflexivity.
  Qed.

  (** The plotted axis *)
  Definition first_slot (a : axis) (s : nat) : bool := match iends a s with Some (lo, _) => neqb lo (axis_low (as_bin a)) | None => false end.
  Definition last_slot (a : axis) (s : nat) : bool := match iends a s with Some (_, hi) => neqb hi (axis_high (as_bin a)) | None => false end.
  Definition lo_of (a : axis) (s : nat) : Num := match iends a s with Some (lo, _) => lo | None => NaN end.
  Definition hi_of (a : axis) (s : nat) : Num := match iends a s with Some (_, hi) => hi | None => NaN end.
  Definition ipos (a : axis) (s : nat) : Num :=
    if is_baseline (c_kind l) then
      if first_slot a s then nadd (lo_of a s) (nmul tiny (nsub (axis_high (as_bin a)) (axis_low (as_bin a)))) else lo_of a s
    else middle (lo_of a s) (hi_of a s).
  Definition bins (a : axis) (i : nat) (F : list axis) (row : list vcell) (d : list Num) (ss : list nat) : list (list vcell) :=
    match iends a (nth i ss 0) with Some _ => kept (row ++ pcells i (ipos a (nth i ss 0)) F ss) (nums (tots_of F) d ss) | None => [] end.
  Definition lows (a : axis) (i : nat) (F : list axis) (row : list vcell) (ss : list nat) : list (list vcell) :=
    if is_baseline (c_kind l) && first_slot a (nth i ss 0) then kept (row ++ pcells i (lo_of a (nth i ss 0)) F ss) zeros2 else [].
  Definition highs (a : axis) (i : nat) (F : list axis) (row : list vcell) (ss : list nat) : list (list vcell) :=
    if is_baseline (c_kind l) && last_slot a (nth i ss 0) then kept (row ++ pcells i (hi_of a (nth i ss 0)) F ss) zeros2 else [].
  Definition shifts_ok (a : axis) (i : nat) (F : list axis) (o : out) : Prop :=
    (forall x y, In (x, y) (w_shifts o) -> c_error l && is_baseline (c_kind l) = true /\ exists s, s < totbins a /\ iends a s <> None /\ x = ipos a s /\ y = middle (lo_of a s) (hi_of a s)) /\
    (c_error l && is_baseline (c_kind l) = true -> forall ss, In ss (indices (tots_of F)) -> iends a (nth i ss 0) <> None ->
      In (ipos a (nth i ss 0), middle (lo_of a (nth i ss 0)) (hi_of a (nth i ss 0))) (w_shifts o)).

  Lemma fixed_plotted F : Forall listed F -> forall i a j d row, quantitative l = true -> is_number_axis a = true -> nth_error F i = Some a -> lastj = j + i ->
    length d = prodn (tots_of F ++ [k]) ->
    exists o, recurse l lastj j F (PArr (tots_of F ++ [k]) d) row false = Ok o /\ shifts_ok a i F o /\
      Permutation (w_rows o) (flat_map (bins a i F row d) (indices (tots_of F)) ++ flat_map (lows a i F row) (indices (tots_of F)) ++
                              flat_map (highs a i F row) (indices (tots_of F))).
  Proof.
    induction 1 as [|a0 F Ha HF IH]; intros i a j d row HQ Hnum Hi Hj Hd; [destruct i; discriminate|].
    cbn [tots_of map app recurse]. fold (tots_of F). rewrite listed_keys by auto. cbn [bind]. rewrite listed_items by auto. cbn [bind].
    set (m := prodn (tots_of F ++ [k])). set (sl := fun i => firstn m (skipn (i * m) d)).
    assert (Hsl : forall i, i < totbins a0 -> length (sl i) = prodn (tots_of F ++ [k])).
    { intros i' Hi'. apply (slice_length d (totbins a0)); auto. }
    destruct (Ha) as (_ & _ & Hlen).
    destruct i as [|i].
    - cbn [nth_error] in Hi. injection Hi as <-. rewrite Nat.add_0_r in Hj.
      assert (Ejj : Nat.eqb j lastj = true) by (apply Nat.eqb_eq; auto). rewrite Ejj, HQ. cbn [andb].
      assert (Hed : match as_bin a0 with ABin _ _ _ _ _ _ _ _ | ASplit _ _ _ _ _ _ => true | _ => false end = true) by (destruct a0; try discriminate; reflexivity).
      rewrite Hed. rewrite !andb_true_r.
      set (rec := fun base s x => recurse l lastj (S j) F (PArr (tots_of F ++ [k]) (sl s)) (row ++ [VNumber x]) base).
      assert (Hrec : forall base s x, s < totbins a0 -> exists o, rec base s x = Ok o /\ w_shifts o = [] /\
        w_rows o = flat_map (fun ss => kept (row ++ [VNumber x] ++ texts F ss) (vals base (tots_of F) (sl s) ss)) (indices (tots_of F))).
      { intros base s x Hs. destruct (fixed_plain F HF (S j) (sl s) (row ++ [VNumber x]) base) as (o & E & H1 & H2); [intros _; lia|apply Hsl; auto|].
        exists o. split; [exact E|]. split; auto. rewrite H2. apply flat_map_ext. intros ss. rewrite <- app_assoc. reflexivity. }
      set (got := fun base s x => match rec base s x with Ok o => o | Err _ => out_none end).
      assert (Hgot : forall base s x, s < totbins a0 -> rec base s x = Ok (got base s x) /\ w_shifts (got base s x) = [] /\
        w_rows (got base s x) = flat_map (fun ss => kept (row ++ [VNumber x] ++ texts F ss) (vals base (tots_of F) (sl s) ss)) (indices (tots_of F))).
      { intros base s x Hs. destruct (Hrec base s x Hs) as (o & E & H). unfold got. rewrite E. auto. }
      set (g := fun s => match iends a0 s with
        | Some _ => outs [if is_baseline (c_kind l) && first_slot a0 s then got true s (lo_of a0 s) else out_none; got false s (ipos a0 s);
                          if c_error l && is_baseline (c_kind l) then out_shift (ipos a0 s) (middle (lo_of a0 s) (hi_of a0 s)) else out_none;
                          if is_baseline (c_kind l) && last_slot a0 s then got true s (hi_of a0 s) else out_none]
        | None => out_none end).
      rewrite (mapM_pairs _ g (DBin KNaN) (fun i => PArr (tots_of F ++ [k]) (firstn m (skipn (i * m) d)))).
      2:{ intros s Hs. rewrite map_length in Hs. rewrite map_nth. cbn [plus]. unfold g, ipos, first_slot, last_slot, lo_of, hi_of, iends, dk.
          assert (Hlt : s < totbins a0) by lia.
          assert (HB : exists lo hi c1 c2, nth s (keys (as_bin a0)) KNaN = KIv lo hi c1 c2 \/ nth s (keys (as_bin a0)) KNaN = KNaN).
          { assert (Hin : In (nth s (keys (as_bin a0)) KNaN) (keys (as_bin a0))) by (apply nth_In; lia). revert Hin. generalize (nth s (keys (as_bin a0)) KNaN). intros k0 Hin.
            destruct a0; try discriminate; cbn [as_bin keys] in Hin; unfold keys_bin, keys_split in Hin; rewrite !in_app_iff in Hin;
            repeat (destruct Hin as [Hin|Hin]); try (apply in_map_iff in Hin; destruct Hin as (z & <- & _); repeat eexists; left; reflexivity);
            match type of Hin with In _ (if ?b then _ else _) => destruct b; [|contradiction] | In _ [] => contradiction end;
            destruct Hin as [<-|[]]; try (repeat eexists; left; reflexivity); exists NaN, NaN, true, true; right; reflexivity. }
          destruct HB as (lo & hi & c1 & c2 & [->| ->]); [|reflexivity].
          destruct (isfin lo && isfin hi) eqn:Efin; [|reflexivity]. cbn beta iota.
          fold (sl s). change (fun x => recurse l lastj (S j) F (PArr (tots_of F ++ [k]) (sl s)) (row ++ [VNumber x]) true) with (rec true s).
          repeat match goal with |- context [recurse l lastj (S j) F ?c (row ++ [VNumber ?x]) ?b] => change (recurse l lastj (S j) F c (row ++ [VNumber x]) b) with (rec b s x) end.
          rewrite (proj1 (Hgot true s lo Hlt)), (proj1 (Hgot true s hi Hlt)).
          destruct (is_baseline (c_kind l)); cbn [andb negb].
          - destruct (neqb lo (axis_low (as_bin a0))); cbn [bind]; rewrite (proj1 (Hgot false s _ Hlt)); cbn [bind]; destruct (neqb hi (axis_high (as_bin a0))); reflexivity.
          - cbn [bind]. rewrite (proj1 (Hgot false s _ Hlt)). cbn [bind]. reflexivity. }
      cbn [bind]. rewrite map_length, Hlen. eexists. split; [reflexivity|].
      assert (Hsh : forall s, s < totbins a0 -> w_shifts (g s) = match iends a0 s with Some _ => if c_error l && is_baseline (c_kind l) then [(ipos a0 s, middle (lo_of a0 s) (hi_of a0 s))] else [] | None => [] end).
      { intros s Hs. unfold g. destruct (iends a0 s); [|reflexivity]. rewrite outs_shifts. cbn [flat_map]. rewrite (proj1 (proj2 (Hgot false s _ Hs))).
        assert (X : forall b x, w_shifts (if (b:bool) then got true s x else out_none) = []) by (intros [] x; [apply Hgot; auto|reflexivity]).
        rewrite !X. cbn [app]. rewrite !app_nil_r. destruct (c_error l && is_baseline (c_kind l)); reflexivity. }
      split; [split|].
      + intros x y Hin. rewrite outs_shifts in Hin. cbn [flat_map out_domain w_shifts app] in Hin. rewrite flat_map_map in Hin. apply in_flat_map in Hin. destruct Hin as (s & Hs & Hin).
        apply in_seq in Hs. rewrite Hsh in Hin by lia. destruct (iends a0 s) eqn:Ei; [|contradiction]. destruct (c_error l && is_baseline (c_kind l)); [|contradiction].
        split; auto. destruct Hin as [Hin|[]]. injection Hin as <- <-. exists s. split; [lia|]. split; [congruence|auto].
      + intros Heb ss Hss Hn. rewrite outs_shifts. cbn [flat_map out_domain w_shifts app]. rewrite flat_map_map. apply in_flat_map.
        cbn [tots_of map] in Hss. apply in_indices in Hss. inversion Hss as [|s ? ss' ? Hs Hss']; subst. cbn [nth] in *. exists s. split; [apply in_seq; lia|].
        rewrite Hsh by auto. destruct (iends a0 s); [|congruence]. rewrite Heb. left. reflexivity.
      + rewrite outs_rows. cbn [flat_map]. rewrite flat_map_map. cbn [out_domain w_rows app indices tots_of map]. fold (tots_of F). rewrite !flat_map_flat_map.
        etransitivity; [|apply perm_three]. apply perm_flat_map. intros s Hs. apply in_seq in Hs. assert (Hlt : s < totbins a0) by lia.
        rewrite !flat_map_map. unfold g. unfold bins, lows, highs. cbn [nth].
        destruct (iends a0 s) eqn:Ei.
        * rewrite outs_rows. cbn [flat_map]. rewrite app_nil_r.
          assert (E0 : w_rows (if c_error l && is_baseline (c_kind l) then out_shift (ipos a0 s) (middle (lo_of a0 s) (hi_of a0 s)) else out_none) = []) by (destruct (c_error l && is_baseline (c_kind l)); reflexivity).
          rewrite E0. cbn [app].
          assert (E1 : forall b x, w_rows (if (b:bool) then got true s x else out_none) =
            flat_map (fun ss => if b then kept (row ++ pcells 0 x (a0 :: F) (s :: ss)) zeros2 else []) (indices (tots_of F))).
          { intros [] x; [|symmetry; apply flat_map_nil; auto]. apply Hgot. auto. }
          rewrite !E1. rewrite (proj2 (proj2 (Hgot false s (ipos a0 s) Hlt))).
          etransitivity; [apply Permutation_app_swap_app|]. apply Permutation_app_tail.
          match goal with |- Permutation ?A ?B => replace A with B; [reflexivity|] end.
          apply flat_map_ext_in. intros ss Hss. apply in_indices in Hss. unfold vals. cbn [tots_of map]. rewrite nums_slice by auto. reflexivity.
        * rewrite !flat_map_nil; [reflexivity| | |]; intros ss _; unfold first_slot, last_slot; rewrite ?Ei, ?andb_false_r; reflexivity.
    - cbn [nth_error] in Hi. assert (Ej : Nat.eqb j lastj && quantitative l = false).
      { replace (Nat.eqb j lastj) with false; auto. symmetry. apply Nat.eqb_neq. lia. }
      set (g := fun s => match recurse l lastj (S j) F (PArr (tots_of F ++ [k]) (sl s)) (row ++ [txt a0 s]) false with Ok o => o | Err _ => out_none end).
      assert (Hg : forall s, s < totbins a0 -> recurse l lastj (S j) F (PArr (tots_of F ++ [k]) (sl s)) (row ++ [txt a0 s]) false = Ok (g s) /\
        shifts_ok a i F (g s) /\
        Permutation (w_rows (g s)) (flat_map (bins a i F (row ++ [txt a0 s]) (sl s)) (indices (tots_of F)) ++ flat_map (lows a i F (row ++ [txt a0 s])) (indices (tots_of F)) ++
                              flat_map (highs a i F (row ++ [txt a0 s])) (indices (tots_of F)))).
      { intros s Hs. destruct (IH i a (S j) (sl s) (row ++ [txt a0 s]) HQ Hnum Hi ltac:(lia) (Hsl s Hs)) as (o & E & H1 & H2).
        unfold g. rewrite E. auto. }
      rewrite (mapM_pairs _ g (DBin KNaN) (fun i => PArr (tots_of F ++ [k]) (firstn m (skipn (i * m) d)))).
      2:{ intros s Hs. rewrite map_length in Hs. rewrite map_nth. cbn [plus]. destruct (Hg s) as (E & _); [lia|]. clearbody g. unfold txt, dk in E.
          destruct (nth s (keys (as_bin a0)) KNaN); cbn beta iota; try rewrite Ej; exact E. }
      cbn [bind]. rewrite map_length, Hlen. eexists. split; [reflexivity|]. split; [split|].
      + intros x y Hin. rewrite outs_shifts in Hin. cbn [flat_map out_domain w_shifts app] in Hin. rewrite flat_map_map in Hin. apply in_flat_map in Hin. destruct Hin as (s & Hs & Hin).
        apply in_seq in Hs. destruct (Hg s) as (_ & (H1 & _) & _); [lia|]. apply H1. auto.
      + intros Heb ss Hss Hn. rewrite outs_shifts. cbn [flat_map out_domain w_shifts app]. rewrite flat_map_map. apply in_flat_map.
        cbn [tots_of map] in Hss. apply in_indices in Hss. inversion Hss as [|s ? ss' ? Hs Hss']; subst. cbn [nth] in *. exists s. split; [apply in_seq; lia|].
        destruct (Hg s) as (_ & (_ & H2) & _); [lia|]. apply H2; auto. apply in_indices. auto.
      + rewrite outs_rows. cbn [flat_map]. rewrite flat_map_map. cbn [out_domain w_rows app indices tots_of map]. fold (tots_of F). rewrite !flat_map_flat_map.
        etransitivity; [|apply perm_three]. apply perm_flat_map. intros s Hs. apply in_seq in Hs. assert (Hlt : s < totbins a0) by lia.
        rewrite !flat_map_map. rewrite (proj2 (proj2 (Hg s Hlt))).
        match goal with |- Permutation ?A ?B => replace A with B; [reflexivity|] end.
        unfold bins, lows, highs. cbn [nth]. f_equal; [|f_equal].
        * apply flat_map_ext_in. intros ss Hss. apply in_indices in Hss. cbn [tots_of map]. rewrite nums_slice by auto. rewrite <- app_assoc. reflexivity.
        * apply flat_map_ext. intros ss. rewrite <- app_assoc. reflexivity.
        * apply flat_map_ext. intros ss. rewrite <- app_assoc. reflexivity.
  Qed.
End Fixed.
