(** Properties of selections: C38, C39. *)
From Coq Require Import String Lqa.
From Verif Require Import Base Num NumFacts Axis AxisSpec AxisProofs AxisProofs2 AxisMain Calc Content Fill FillSpec FillProofs FillProofs2 FillProofs3 FillMain
  Tree Order Expr ExprFacts HistAlg AlgSpec HistAlgProofs HistAlgMain Props_Alg Nd NdProofs Proj ProjSpec ProjProofs ProjMain ProjLaws Props_Proj
  Select SelSpec SelAxis SelAxis2 Remap SelContent SelMain SelFill SelHist SelOr SelKeys.
Local Open Scope string_scope.
Local Open Scope list_scope.

Lemma numeric_keys a : numeric_axis a -> disjoint_keys (keys a) /\ length (keys a) = totbins a /\ is_fixed a = true /\ a <> ANull.
Proof.
  intros H. destruct a; cbn in H; try contradiction.
  - destruct H as (Hn & Hm & Hl & Hh). destruct low; try discriminate. destruct high; try discriminate. destruct (c07_bin _ _ _ _ _ _ _ _ _ Hm Hn) as (D & _ & L & _). split; [auto|split; [auto|split; [auto|discriminate]]].
  - destruct (c07_intbin _ _ _ _ _ _ H) as (D & _ & L & _). split; [auto|split; [auto|split; [auto|discriminate]]].
  - destruct H as (raw & Hn & Hm). destruct (c07_split _ _ _ _ _ _ _ Hn Hm) as (D & _ & L & _). split; [auto|split; [auto|split; [auto|discriminate]]].
Qed.
Lemma only_axis_fixed parse h e x q a : only_axis parse h e x (length (o_group h) + q) a -> nth_error (o_fixed h) q = Some a.
Proof. intros (H & _). rewrite nth_error_app2 in H by lia. replace (length (o_group h) + q - length (o_group h)) with q in H by lia. auto. Qed.
Lemma only_axis_group parse h e x p a : only_axis parse h e x p a -> p < length (o_group h) -> nth_error (o_group h) p = Some a.
Proof. intros (H & _) Hp. rewrite nth_error_app1 in H by lia. auto. Qed.

(** What the selection of a slice gives, for any set of wanted numbers. *)
Lemma slice_selected q a a' t h (wanted : Num -> Prop) : hobj_ok h -> no_null h -> nth_error (o_fixed h) q = Some a -> numeric_axis a ->
  is_fixed a' = true -> a' <> ANull -> keeps_inside wanted (keys a) t (keys a') ->
  select_axis (view h) (length (o_group h) + q) a' (CutSlice t) true = Ok (view (sliced q a' t h)) /\
  hobj_ok (sliced q a' t h) /\ axis_changed q a' h (sliced q a' t h) /\
  (forall ks, has_block (sliced q a' t h) ks <-> has_block h ks) /\
  (forall ks ss kd, in_shape (o_layout (sliced q a' t h)) ss -> has_column (o_layout h) kd ->
     hcell (sliced q a' t h) ks ss kd = hcell h ks (at_axis q (fun i => slice_lo t (length (keys a)) + i) ss) kd).
Proof.
  intros Hok HN Ha Hna Hf Hn (Hk & _). destruct (numeric_keys a Hna) as (_ & Hl & _ & _).
  assert (Ht : totbins a' = slice_len t (totbins a)).
  { rewrite <- (keys_length_totbins a'), <- Hl, Hk by auto. apply slice_list_length. }
  destruct (sliced_cells q a a' t h Hok Ha Hf Ht) as (S1 & S2 & S3). rewrite Hl.
  split; [eapply select_sliced; eauto|]. split; [auto|]. split; [repeat split|]. auto.
Qed.

Lemma nth_at_axis_other {A} (f : A -> A) l : forall q j, j <> q -> nth_error (at_axis q f l) j = nth_error l j.
Proof. induction l as [|x l IH]; intros [|q] [|j] H; cbn; auto; try congruence. Qed.
Section C38.
  Variable mb : string -> option Num.
  Variable parse : string -> expr.
  Variable tol : Num.

  (** ** C38: a comparison of the quantity of a bin, intbin or split axis with a number *)
  (** If the selection succeeds, the bins of the new axis are exactly the old bins whose values satisfy
      the comparison, no bin is cut in two, and the cells are the old cells of those bins.  The threshold
      is an edge of the axis up to the tolerance, or infinite. *)
  Theorem C38_selection_keeps_the_bins_inside h e x c v n q a g' :
    hobj_ok h -> no_null h -> compares (asconst mb) e x c v -> as_real v = Some n -> n <> NaN ->
    only_axis parse h e x (length (o_group h) + q) a -> numeric_axis a -> small_for a tol ->
    hist_select mb parse tol (view h) e = Ok g' ->
    exists g a' t edge, g' = view g /\ hobj_ok g /\ axis_changed q a' h g /\ axis_expr a' = axis_expr a /\
      stands_for a tol n edge /\ keeps_inside (fun z => satisfies c edge z = true) (keys a) t (keys a') /\
      (forall ks, has_block g ks <-> has_block h ks) /\
      (forall ks ss kd, in_shape (o_layout g) ss -> has_column (o_layout h) kd ->
         hcell g ks ss kd = hcell h ks (at_axis q (fun i => slice_lo t (length (keys a)) + i) ss) kd).
  Proof.
    intros Hok HN Hc Hv Hn Ho Hna Hs E. destruct (select_only _ _ _ _ _ _ _ _ _ _ _ Hc (proj1 Hok) Ho E) as (a' & s & Ea & Ex).
    destruct (axis_select_ok _ _ _ _ _ _ _ Hna Hs Hv Hn Ea) as (edge & t & -> & Hst & _ & _ & He & Hf & Hnn & Hk).
    destruct (slice_selected q a a' t h _ Hok HN (only_axis_fixed _ _ _ _ _ _ Ho) Hna Hf Hnn Hk) as (X1 & X2 & X3 & X4 & X5).
    rewrite Ex in X1. inversion X1; subst g'. exists (sliced q a' t h), a', t, edge.
    split; [auto|split; [auto|split; [auto|split; [auto|split; [auto|split; [auto|split; auto]]]]]].
  Qed.

  (** At an edge, with the comparison that fits the closed ends of the bins, the selection succeeds. *)
  Theorem C38_selection_at_an_edge_succeeds h e x c v n q a :
    hobj_ok h -> no_null h -> compares (asconst mb) e x c v -> v = KS (SNum (Fin n)) ->
    only_axis parse h e x (length (o_group h) + q) a -> numeric_axis a -> small_for a tol -> nltb nzero tol = true ->
    is_edge a (Fin n) -> aligned a c -> leaves_bins a c (Fin n) ->
    exists g, hist_select mb parse tol (view h) e = Ok g.
  Proof.
    intros Hok HN Hc -> Ho Hna Hs Ht He Hal Hl. destruct (axis_select_edge a c n tol Hna Ht He Hal Hl) as (a' & t & Ea).
    rewrite (select_when _ _ _ _ _ _ _ _ _ _ _ _ Hc (proj1 Hok) Ho Ea).
    destruct (axis_select_ok _ _ (KS (SNum (Fin n))) (Fin n) _ _ _ Hna Hs eq_refl ltac:(discriminate) Ea) as (edge & t' & E' & _ & _ & _ & _ & Hf & Hnn & Hk). inversion E'; subst t'.
    destruct (slice_selected q a a' t h _ Hok HN (only_axis_fixed _ _ _ _ _ _ Ho) Hna Hf Hnn Hk) as (X1 & _). eexists. exact X1.
  Qed.

  (** Selecting from a filled histogram gives the same cells as filling the selected histogram with the
      rows that satisfy the comparison.  [data] lists, for each row, the value of the selected quantity,
      the row as the histogram sees it and the row as the selected histogram sees it; both see the same
      keys, profiles, weights and slots, except that the slot on the selected axis is the one whose key
      contains the value. *)
  Theorem C38_selection_equals_filling_the_selected_rows h e x c v n q a g0' :
    hobj_ok h -> no_null h -> compares (asconst mb) e x c v -> as_real v = Some n -> n <> NaN ->
    only_axis parse h e x (length (o_group h) + q) a -> numeric_axis a -> small_for a tol ->
    hist_select mb parse tol (view h) e = Ok g0' ->
    exists g0 a' edge, g0' = view g0 /\ axis_changed q a' h g0 /\ stands_for a tol n edge /\
      forall m data c1, Forall (fun d => same_row_but q (keys a) (keys a') (d_x d) (d_old d) (d_new d)) data ->
        fill_pre (o_layout h) (length (o_group h)) m (map d_old data) (o_content h) ->
        fill_rows (o_layout h) (length (o_group h)) m (map d_old data) (o_content h) = (c1, None) ->
        exists g1 c2, hist_select mb parse tol (view (with_content h c1)) e = Ok (view g1) /\ axis_changed q a' h g1 /\
          fill_rows (o_layout g0) (length (o_group g0)) m (map d_new (filter (fun d => satisfies c edge (d_x d)) data)) (o_content g0) = (c2, None) /\
          same_cells (o_layout g0) (o_content g1) c2 /\
          (forallb (fun d => satisfies c edge (d_x d)) data = true -> same_content (o_content g1) c2).
  Proof.
    intros Hok HN Hc Hv Hn Ho Hna Hs E. destruct (select_only _ _ _ _ _ _ _ _ _ _ _ Hc (proj1 Hok) Ho E) as (a' & s & Ea & Ex).
    destruct (axis_select_ok _ _ _ _ _ _ _ Hna Hs Hv Hn Ea) as (edge & t & -> & Hst & _ & _ & He & Hf & Hnn & Hk).
    pose proof (only_axis_fixed _ _ _ _ _ _ Ho) as Ha. destruct (numeric_keys a Hna) as (Hd & Hl & _ & _). destruct (nth_tots _ _ _ Ha) as (Ht & Hq).
    destruct (slice_selected q a a' t h _ Hok HN Ha Hna Hf Hnn Hk) as (X1 & X2 & X3 & _).
    rewrite Ex in X1. inversion X1; subst g0'. exists (sliced q a' t h), a', edge. split; [auto|split; [auto|split; [auto|]]].
    intros m data c1 Hdata HP EF.
    assert (Hok1 : hobj_ok (with_content h c1)).
    { destruct Hok as (HG & HF & HPr & _). split; [auto|split; [auto|split; [auto|]]]. destruct (fill_ok _ _ _ _ _ HP) as (c' & E' & Oc & _). rewrite EF in E'. inversion E'; subst c'. right. exact Oc. }
    destruct (slice_selected q a a' t (with_content h c1) _ Hok1 HN Ha Hna Hf Hnn Hk) as (Y1 & _ & Y3 & _).
    assert (Ho1 : only_axis parse (with_content h c1) e x (length (o_group h) + q) a) by exact Ho.
    rewrite (select_when _ _ _ _ _ _ _ _ _ _ _ _ Hc (proj1 Hok1) Ho1 Ea). 
    exists (sliced q a' t (with_content h c1)).
    assert (LE : o_layout (sliced q a' t h) = layout_with q (length (keys a')) (o_layout h)) by (unfold sliced; rewrite with_axis_layout, (keys_length_totbins a') by auto; reflexivity).
    assert (Hn1 : length (keys a) = nth q (l_tots (o_layout h)) 0) by congruence.
    destruct (select_fill' q (o_layout h) t (length (o_group h)) (keys a) (keys a') (fun z => satisfies c edge z) m data (o_content h) c1 Hq Hn1 Hd Hk Hdata HP EF) as (y & F1 & F2 & F3).
    exists y. rewrite LE. split; [exact Y1|]. split; [exact Y3|]. split; [exact F1|]. split; [exact F2|exact F3].
  Qed.

  (** [x != nan] on a bin or split axis keeps everything but the bin of NaN. *)
  Theorem C38_not_nan_keeps_the_numbers h e x q a g' :
    hobj_ok h -> no_null h -> compares (asconst mb) e x SNe (KS (SNum NaN)) ->
    only_axis parse h e x (length (o_group h) + q) a -> numeric_axis a ->
    hist_select mb parse tol (view h) e = Ok g' ->
    exists g a' t, g' = view g /\ hobj_ok g /\ axis_changed q a' h g /\ axis_expr a' = axis_expr a /\
      keeps_inside (fun z => z <> NaN) (keys a) t (keys a') /\
      (forall ks, has_block g ks <-> has_block h ks) /\
      (forall ks ss kd, in_shape (o_layout g) ss -> has_column (o_layout h) kd ->
         hcell g ks ss kd = hcell h ks (at_axis q (fun i => slice_lo t (length (keys a)) + i) ss) kd).
  Proof.
    intros Hok HN Hc Ho Hna E. destruct (select_only _ _ _ _ _ _ _ _ _ _ _ Hc (proj1 Hok) Ho E) as (a' & s & Ea & Ex).
    destruct (axis_select_nan _ _ _ _ Hna Ea) as (t & -> & _ & He & Hf & Hnn & Hk).
    destruct (slice_selected q a a' t h _ Hok HN (only_axis_fixed _ _ _ _ _ _ Ho) Hna Hf Hnn Hk) as (X1 & X2 & X3 & X4 & X5).
    rewrite Ex in X1. inversion X1; subst g'. exists (sliced q a' t h), a', t.
    split; [auto|split; [auto|split; [auto|split; [auto|split; [auto|split; auto]]]]].
  Qed.

  (** Conditions joined by "and" are selected one after the other. *)
  Theorem C38_and_selects_in_turn h e x c v l : compares (asconst mb) e x c v ->
    hist_select mb parse tol h (EAnd (e :: l)) = (do g <- hist_select mb parse tol h e; hist_select mb parse tol g (EAnd l)) /\
    hist_select mb parse tol h (EAnd []) = Ok h.
  Proof. intros Hc. split; [|reflexivity]. cbn [hist_select select_all]. replace (hist_select mb parse tol h e) with (select1 mb parse tol h e) by (destruct Hc; reflexivity). reflexivity. Qed.
  (** After each, the quantity still belongs to that axis only, so that the theorems apply again. *)
  Theorem C38_selected_axis_stays h g e' x' q q' a a' b : axis_changed q a' h g -> axis_expr a' = axis_expr a -> nth_error (o_fixed h) q = Some a ->
    only_axis parse h e' x' (length (o_group h) + q') b ->
    only_axis parse g e' x' (length (o_group g) + q') (if Nat.eqb q' q then a' else b).
  Proof.
    intros (Eg & Ef & _) Ee Hn (N & S & U & W & O).
    assert (NE : forall i b', nth_error (o_group g ++ o_fixed g) i = Some b' -> exists b0, nth_error (o_group h ++ o_fixed h) i = Some b0 /\ axis_expr b0 = axis_expr b' /\ (i <> length (o_group h) + q -> b0 = b') /\ (i = length (o_group h) + q -> b' = a')).
    { intros i b' Hi. rewrite Eg, Ef in Hi. destruct (Nat.lt_ge_cases i (length (o_group h))) as [Hlt|Hge].
      - rewrite nth_error_app1 in * by lia. exists b'. split; [auto|split; [auto|split; [auto|lia]]].
      - rewrite nth_error_app2 in * by lia. remember (i - length (o_group h)) as j. destruct (Nat.eq_dec j q) as [->|Hj].
        + rewrite nth_error_at_axis, Hn in Hi. inversion Hi; subst b'. exists a. split; [auto|split; [auto|split; [lia|auto]]].
        + rewrite nth_at_axis_other in Hi by auto. exists b'. split; [auto|split; [auto|split; [auto|lia]]]. }
    assert (NE' : exists b', nth_error (o_group g ++ o_fixed g) (length (o_group h) + q') = Some b').
    { rewrite Eg, Ef. destruct (nth_error (o_group h ++ at_axis q (fun _ => a') (o_fixed h)) (length (o_group h) + q')) as [b'|] eqn:X; [eauto|]. exfalso. apply nth_error_None in X. rewrite app_length, at_axis_length, <- app_length in X.
      apply nth_error_None in X. congruence. }
    destruct NE' as (b' & Nb). destruct (NE _ _ Nb) as (b0 & Nb0 & Eb & Eo & Es). rewrite N in Nb0. inversion Nb0; subst b0.
    assert (Hb' : (if Nat.eqb q' q then a' else b) = b').
    { destruct (Nat.eqb_spec q' q); [subst; symmetry; apply Es; auto|apply Eo; lia]. }
    rewrite Hb'. rewrite Eg. split; [auto|]. split; [rewrite <- Eb; auto|]. split; [|split; [|auto]].
    - intros i b1 Hi Hne. destruct (NE _ _ Hi) as (b2 & Hi2 & E2 & _). rewrite <- E2. eapply U; eauto.
    - intros b1 Hin. apply In_nth_error in Hin. destruct Hin as (j & Hj). destruct (NE (length (o_group g) + j) b1) as (b2 & H2 & E2 & _); [rewrite nth_error_app2 by lia; replace (length (o_group g) + j - length (o_group g)) with j by lia; auto|].
      rewrite <- E2. apply W. rewrite Eg in H2. rewrite nth_error_app2 in H2 by lia. eapply nth_error_In; eauto.
  Qed.
End C38.
Print Assumptions C38_selection_keeps_the_bins_inside.
Print Assumptions C38_selection_at_an_edge_succeeds.
Print Assumptions C38_selection_equals_filling_the_selected_rows.
Print Assumptions C38_not_nan_keeps_the_numbers.
Print Assumptions C38_and_selects_in_turn.
Print Assumptions C38_selected_axis_stays.

Section C38_cut.
  Variable mb : string -> option Num.
  Variable parse : string -> expr.
  Variable tol : Num.

  (** ** The condition of a cut axis *)
  (** What [e] asks of a cut on the condition [p]: [e] is [p], or "not name" where [p] is that name, or
      compares [p] with True or False. *)
  Inductive asks (p : expr) : expr -> bool -> Prop :=
  | asks_it : asks p p true
  | asks_not n : p = EName n -> asks p (EPred n false) false
  | asks_eq e b : compares (asconst mb) e p SEq (KS (SBool b)) -> asks p e b
  | asks_ne e b : compares (asconst mb) e p SNe (KS (SBool b)) -> asks p e (negb b).
  (** Fixed axis [q] is a cut on such a condition, and no axis before it has anything to do with [e] or
      with the quantity [x] that [e] compares. *)
  Definition cut_axis (h : hobj) (e x : expr) (pass : bool) (q : nat) (s : string) : Prop :=
    nth_error (o_fixed h) q = Some (ACut s) /\
    asks (parse s) e pass /\ (forall l, x <> EOr l) /\
    (forall i b, nth_error (o_group h ++ o_fixed h) i = Some b -> i < length (o_group h) + q ->
       parse (axis_expr b) <> x /\ parse (axis_expr b) <> e).
  Fixpoint esize (e : expr) : nat := match e with ERel _ l r => S (esize l + esize r) | _ => 0 end.
  Lemma compares_other e x c v : compares (asconst mb) e x c v -> x <> e.
  Proof. intros H E. assert (L : esize x < esize e) by (destruct H; cbn [esize]; lia). rewrite E in L. lia. Qed.
  Lemma find_cut e x c v s r : (forall l, x <> EOr l) -> logical mb parse tol e x c v (ACut s) = Ok (inl r) -> forall axes q,
    nth_error axes q = Some (ACut s) ->
    (forall i b, nth_error axes i = Some b -> i < q -> expr_same x (parse (axis_expr b)) = false /\ expr_same e (parse (axis_expr b)) = false) ->
    forall k cl w1 w2, find_hit mb parse tol e x c v k axes cl w1 w2 = Ok (k + q, r).
  Proof.
    intros Hx Hr. induction axes as [|b axes IH]; intros q N B k cl w1 w2; [destruct q; discriminate|]. cbn [find_hit]. destruct q as [|q].
    - inversion N; subst b. rewrite Hr. cbn [bind]. rewrite Nat.add_0_r. reflexivity.
    - destruct (B 0 b eq_refl ltac:(lia)) as (B1 & B2). rewrite logical_other; auto. cbn [bind]. rewrite (IH q) by (auto; intros i b0 Hi Hlt; apply (B (S i) b0); auto; lia). f_equal. f_equal. lia.
  Qed.
  Lemma cut_selected h e x c v pass q s : hobj_ok h -> no_null h -> (forall l, e <> EAnd l) ->
    match e with ERel _ _ _ | EPred _ _ | EName _ => True | _ => False end ->
    normalizeexpr mb e = Ok (x, c, v) -> cut_axis h e x pass q s ->
    hist_select mb parse tol (view h) e = Ok (view (cut_out q (if pass then zslice 1 2 else zslice 0 1) h)).
  Proof.
    intros Hok HN Hna Hk Hn (Hq & Hp & Hx & Hb).
    assert (E0 : hist_select mb parse tol (view h) e = select_axis (view h) (length (o_group h) + q) ANull (CutSlice (if pass then zslice 1 2 else zslice 0 1)) true).
    { transitivity (do n <- normalizeexpr mb e; let '(x, c, v) := n in do r <- find_hit mb parse tol e x c v 0 (o_group h ++ o_fixed h) None None None; let '(p, (a, s)) := r in select_axis (view h) p a s true).
      { destruct e; try contradiction; reflexivity. }
      rewrite Hn. cbn [bind]. rewrite (find_cut e x c v s (ANull, CutSlice (if pass then zslice 1 2 else zslice 0 1)) Hx) with (q := length (o_group h) + q).
      - reflexivity.
      - unfold logical. assert (X : match x with EOr l => or_hit mb parse tol (ACut s) l | _ => Ok None end = Ok (@None hit)) by (destruct x; auto; exfalso; eapply Hx; eauto).
        rewrite X. cbn [bind]. unfold parsed. cbn [axis_expr]. destruct Hp as [|n Hp|e b Hp|e b Hp].
        + rewrite expr_same_refl. reflexivity.
        + rewrite Hp. cbn [normalizeexpr] in Hn. injection Hn as <- <- <-. change (expr_same (EPred n false) (EName n)) with false. rewrite expr_same_refl. reflexivity.
        + rewrite (compares_normal mb _ _ _ _ Hp) in Hn. injection Hn as <- <- <-. assert (expr_same e (parse s) = false) as -> by (apply not_same; eapply compares_other; eauto). rewrite expr_same_refl. destruct b; reflexivity.
        + rewrite (compares_normal mb _ _ _ _ Hp) in Hn. injection Hn as <- <- <-. assert (expr_same e (parse s) = false) as -> by (apply not_same; eapply compares_other; eauto). rewrite expr_same_refl. destruct b; reflexivity.
      - rewrite nth_error_app2 by lia. replace (length (o_group h) + q - length (o_group h)) with q by lia. auto.
      - intros i b Hi Hlt. destruct (Hb i b Hi Hlt). split; apply not_same; auto. }
    rewrite E0. eapply select_cut_out; eauto. destruct pass; reflexivity.
  Qed.

  (** Selecting the condition of a cut axis removes the axis and keeps the cells of the entries that pass
      ([KBool true]); selecting "not name" those that do not. *)
  Theorem C38_selecting_a_cut h e x c v pass q s : hobj_ok h -> no_null h ->
    match e with ERel _ _ _ | EPred _ _ | EName _ => True | _ => False end ->
    normalizeexpr mb e = Ok (x, c, v) -> cut_axis h e x pass q s ->
    exists g, hist_select mb parse tol (view h) e = Ok (view g) /\ hobj_ok g /\ axis_removed q h g /\
      (forall ks, has_block g ks <-> has_block h ks) /\
      exists j, nth_error (keys (ACut s)) j = Some (KBool pass) /\
        forall ks ss kd, in_shape (o_layout g) ss -> has_column (o_layout h) kd -> hcell g ks ss kd = hcell h ks (insert_at q j ss) kd.
  Proof.
    intros Hok HN Hk Hn Hc. exists (cut_out q (if pass then zslice 1 2 else zslice 0 1) h). destruct (Hc) as (Hq & _).
    assert (H1 : slice_len (if pass then zslice 1 2 else zslice 0 1) (totbins (ACut s)) = 1) by (destruct pass; reflexivity).
    destruct (cut_out_cells q _ _ h Hok Hq H1) as (C1 & C2 & C3).
    split; [eapply cut_selected; eauto; intros l X; subst e; auto|]. split; [auto|]. split; [repeat split|]. split; [auto|].
    exists (if pass then 1 else 0). split; [destruct pass; reflexivity|]. intros ks ss kd Hs Hkd. rewrite C3 by auto. destruct pass; reflexivity.
  Qed.
  Theorem C38_selecting_a_cut_equals_filling_the_passing_rows h e x c v pass q s : hobj_ok h -> no_null h ->
    match e with ERel _ _ _ | EPred _ _ | EName _ => True | _ => False end ->
    normalizeexpr mb e = Ok (x, c, v) -> cut_axis h e x pass q s ->
    exists g0 j, hist_select mb parse tol (view h) e = Ok (view g0) /\ axis_removed q h g0 /\ nth_error (keys (ACut s)) j = Some (KBool pass) /\
      forall m rows c1, fill_pre (o_layout h) (length (o_group h)) m rows (o_content h) ->
        fill_rows (o_layout h) (length (o_group h)) m rows (o_content h) = (c1, None) ->
        exists g1 c2, hist_select mb parse tol (view (with_content h c1)) e = Ok (view g1) /\ axis_removed q h g1 /\
          fill_rows (o_layout g0) (length (o_group g0)) m (map (row_without q) (filter (slot_is q (Z.of_nat j)) rows)) (o_content g0) = (c2, None) /\
          same_cells (o_layout g0) (o_content g1) c2 /\
          (forallb (slot_is q (Z.of_nat j)) rows = true -> same_content (o_content g1) c2).
  Proof.
    intros Hok HN Hk Hn Hc. set (t := if pass then zslice 1 2 else zslice 0 1). exists (cut_out q t h), (if pass then 1 else 0). destruct (Hc) as (Hq & _).
    assert (Hna : forall l, e <> EAnd l) by (intros l X; subst e; auto).
    split; [eapply cut_selected; eauto|]. split; [repeat split|]. split; [destruct pass; reflexivity|].
    intros m rows c1 HP EF. destruct (nth_tots _ _ _ Hq) as (Ht & Hql).
    assert (Hok1 : hobj_ok (with_content h c1)).
    { destruct Hok as (HG & HF & HPr & _). split; [auto|split; [auto|split; [auto|]]]. destruct (fill_ok _ _ _ _ _ HP) as (c' & E' & Oc & _). rewrite EF in E'. inversion E'; subst c'. right. exact Oc. }
    exists (cut_out q t (with_content h c1)).
    assert (H1 : cut_len q t (o_layout h) = 1) by (unfold cut_len; rewrite Ht; unfold t; destruct pass; reflexivity).
    assert (HL : layout_ok (layout_without q (o_layout h))) by (apply layout_without_ok; [rewrite Ht; cbn; lia|apply HP]).
    destruct (cut_fill q (o_layout h) t (length (o_group h)) m rows (o_content h) c1 Hql H1 HL HP EF) as (y & F1 & F2 & F3). exists y.
    assert (Hz : slice_lo t (nth q (l_tots (o_layout h)) 0) = if pass then 1 else 0) by (rewrite Ht; unfold t; destruct pass; reflexivity). rewrite Hz in F1, F3.
    assert (LE : o_layout (cut_out q t h) = layout_without q (o_layout h)) by apply without_axis_layout.
    split; [apply (cut_selected (with_content h c1) e x c v pass q s); auto|]. split; [repeat split|]. rewrite LE. split; [exact F1|]. split; [exact F2|exact F3].
  Qed.
End C38_cut.
Print Assumptions C38_selecting_a_cut.
Print Assumptions C38_selecting_a_cut_equals_filling_the_passing_rows.

Lemma last_any {A} (l : list A) : forall x d d', last (x :: l) d = last (x :: l) d'.
Proof. induction l as [|y l IH]; intros x d d'; auto. exact (IH y d d'). Qed.
Section C38_groups.
  Variable mb : string -> option Num.
  Variable parse : string -> expr.
  Variable tol : Num.

  (** ** groupbin axes *)
  (** With a finite threshold, the groups kept are those of the numbers that satisfy the comparison with
      an edge; the edge is nearer to the threshold than the tolerance. *)
  Theorem C38_groupbin_selection h e x c v n p s w org nf cl a g' :
    hobj_ok h -> no_null h -> compares (asconst mb) e x c v -> as_real v = Some (Fin n) ->
    p < length (o_group h) -> mk_groupbin s (Fin w) (Fin org) nf cl = Ok a -> only_axis parse h e x p a ->
    hist_select mb parse tol (view h) e = Ok g' ->
    exists g edge wanted, g' = view g /\ hobj_ok g /\ groups_selected p wanted h g /\
      group_edge (Fin w) (Fin org) edge /\ nltb (absdiff (Fin n) edge) tol = true /\
      forall y k, y <> NaN -> groupbin_key Fin nf cl (Fin w) (Fin org) y = Some k -> (wanted k <-> satisfies c edge y = true).
  Proof.
    intros Hok HN Hc Hv Hp Hm Ho E. destruct (select_only _ _ _ _ _ _ _ _ _ _ _ Hc (proj1 Hok) Ho E) as (a' & t & Ea & Ex).
    destruct (groupbin_select_ok _ _ _ _ _ _ _ _ _ _ _ _ Hm Hv Ea) as (edge & f & -> & -> & He & Hd & Hf).
    destruct (groups_kept_selected p a f h g' (fun k => f k = Ok true) Hok HN (only_axis_group _ _ _ _ _ _ Ho Hp) Ex) as (g & -> & Hg & Hs).
    { intros k t Ht. rewrite Ht. split; congruence. }
    exists g, edge, (fun k => f k = Ok true). split; [auto|split; [auto|split; [auto|split; [auto|split; [auto|]]]]].
    intros y k Hy Hk. rewrite (Hf y k Hy Hk). split; congruence.
  Qed.

  (** ** C39: groupby axes *)
  (** Exactly the groups whose key satisfies the comparison are kept, with their content. *)
  Theorem C39_selection_keeps_the_matching_groups h e x c v p s g' :
    hobj_ok h -> no_null h -> compares (asconst mb) e x c v -> p < length (o_group h) -> only_axis parse h e x p (AGroupby s) ->
    hist_select mb parse tol (view h) e = Ok g' ->
    exists g, g' = view g /\ hobj_ok g /\ groups_selected p (key_satisfies c v) h g.
  Proof.
    intros Hok HN Hc Hp Ho E. destruct (select_only _ _ _ _ _ _ _ _ _ _ _ Hc (proj1 Hok) Ho E) as (a' & t & Ea & Ex). inversion Ea; subst a' t.
    eapply groups_kept_selected; eauto using only_axis_group. intros k b. apply key_cmp_ok.
  Qed.
  (** It succeeds if every key can be compared with the constant. *)
  Theorem C39_selection_of_comparable_groups_succeeds h e x c v p s :
    hobj_ok h -> no_null h -> compares (asconst mb) e x c v -> p < length (o_group h) -> only_axis parse h e x p (AGroupby s) ->
    (forall k, In k (keys_at p (o_content h)) -> exists b, key_cmp c v k = Ok b) ->
    exists g', hist_select mb parse tol (view h) e = Ok g'.
  Proof.
    intros Hok HN Hc Hp Ho Hk. rewrite (select_when mb parse tol h e x c v p (AGroupby s) _ _ Hc (proj1 Hok) Ho eq_refl).
    eapply select_groups_can; eauto using only_axis_group.
  Qed.
  (** Any number of comparisons joined by "and". *)
  Lemma only_group_stays h g e x p a wanted : groups_selected p wanted h g -> only_axis parse h e x p a -> only_axis parse g e x p a.
  Proof. intros (E1 & E2 & _). unfold only_axis. rewrite E1, E2. auto. Qed.
  Theorem C39_and_keeps_the_groups_matching_all x p s : forall es cs h g', clauses mb x es cs ->
    hobj_ok h -> no_null h -> p < length (o_group h) -> Forall (fun e => only_axis parse h e x p (AGroupby s)) es ->
    hist_select mb parse tol (view h) (EAnd es) = Ok g' ->
    exists g, g' = view g /\ hobj_ok g /\ groups_selected p (fun k => Forall (fun cv => key_satisfies (fst cv) (snd cv) k) cs) h g.
  Proof.
    intros es cs h g' H. revert h g'. induction H as [|e cv es cs Hc H IH]; intros h g' Hok HN Hp Ho E.
    - cbn in E. inversion E; subst. exists h. split; [auto|split; [auto|]]. do 7 (split; [reflexivity|]). intros ks k Hl Hn. split; auto. intros X. exfalso. apply X. constructor.
    - cbn [hist_select select_all] in E. apply bind_ok' in E. destruct E as (h1' & E1 & E). inversion Ho as [|? ? Ho1 Ho2]; subst.
      assert (E1' : hist_select mb parse tol (view h) e = Ok h1') by (destruct Hc; exact E1).
      destruct (C39_selection_keeps_the_matching_groups h e x _ _ p s h1' Hok HN Hc Hp Ho1 E1') as (h1 & -> & Hok1 & Hs1).
      assert (HN1 : no_null h1) by (unfold no_null; destruct Hs1 as (_ & -> & _); auto).
      assert (Hp1 : p < length (o_group h1)) by (destruct Hs1 as (-> & _); auto).
      destruct (IH h1 g' Hok1 HN1 Hp1) as (g & -> & Hg & Hs2); [eapply Forall_impl; [|exact Ho2]; intros; eapply only_group_stays; eauto|exact E|].
      exists g. split; [auto|split; [auto|]]. destruct Hs1 as (A1 & A2 & A3 & A4 & A5 & A6 & A7 & A8). destruct Hs2 as (B1 & B2 & B3 & B4 & B5 & B6 & B7 & B8).
      do 7 (split; [congruence|]). intros ks k Hl Hn. destruct (A8 ks k Hl Hn) as (Y1 & N1). rewrite <- A1 in Hl. destruct (B8 ks k Hl Hn) as (Y2 & N2). split.
      + intros F. inversion F; subst. rewrite Y2, Y1; auto.
      + intros F. destruct (block (o_content g) ks) as [d|] eqn:Ed; auto. exfalso.
        assert (D2 : ~ ~ Forall (fun cv => key_satisfies (fst cv) (snd cv) k) cs) by (intros X; apply N2 in X; congruence). apply D2. intros F2. clear D2.
        assert (D1 : ~ ~ key_satisfies (fst cv) (snd cv) k) by (intros X; apply N1 in X; apply Y2 in F2; congruence). apply D1. intros F1. apply F. constructor; auto.
  Qed.

  (** Two comparisons joined by "or", which the parser gives as [EOr [EAnd [e1]; EAnd [e2]]]. *)
  Definition any_of (es : list expr) : expr := EOr (map (fun e => EAnd [e]) es).
  Lemma or_select h e1 c1 es cs x p s :
    Forall (fun a => is_group a = true) (o_group h) -> compares (asconst mb) e1 x (fst c1) (snd c1) -> clauses mb x es cs -> p < length (o_group h) ->
    only_axis parse h (any_of (e1 :: es)) x p (AGroupby s) -> (forall b, In b (o_group h) -> parse (axis_expr b) <> any_of (e1 :: es)) ->
    exists f, hist_select mb parse tol (view h) (any_of (e1 :: es)) = select_axis (view h) p (AGroupby s)
      (CutKeys (match cs with
                | [] => f
                | [cv] => eval_clo recursion_limit (CBase (key_says cv)) (CBase (key_says c1)) COr
                | _ => eval_clo recursion_limit (CBase (key_says (last cs (SEq, KSet [])))) COr COr
                end)) true.
  Proof.
    intros HG H1 H Hp Ho Hb. destruct (only_axis_same parse _ _ _ _ _ Ho) as (N & Es & U & _). pose proof (only_axis_group _ _ _ _ _ _ Ho Hp) as Na.
    destruct (or_loop_ok mb parse tol x s e1 c1 es cs (Fr (CBase (fun _ => Err NameError)) (CBase (fun _ => Err NameError))) H1 H Es) as (f' & Ef).
    assert (Hother : forall i b, nth_error (o_group h) i = Some b -> i < p ->
      is_group b = true /\ or_loop mb parse tol b (map (fun e => EAnd [e]) (e1 :: es)) None (Fr (CBase (fun _ => Err NameError)) (CBase (fun _ => Err NameError))) = Ok None /\
      expr_same (EOr (map (fun e => EAnd [e]) (e1 :: es))) (parse (axis_expr b)) = false).
    { intros i b Hi Hlt. split; [rewrite Forall_forall in HG; eapply HG, nth_error_In; eauto|]. split.
      - eapply (or_loop_other mb parse tol x b (e1 :: es) (c1 :: cs)); [constructor; auto|discriminate|]. apply (U i b); [rewrite nth_error_app1 by lia; auto|lia].
      - apply not_same. apply Hb. eapply nth_error_In; eauto. }
    destruct cs as [|cv [|cv2 cs]].
    - eexists. unfold any_of. rewrite (select_or mb parse tol h _ p s _ _ Na Ef Hother). reflexivity.
    - exists (fun _ => Ok true). unfold any_of. rewrite (select_or mb parse tol h _ p s _ _ Na Ef Hother). reflexivity.
    - exists (fun _ => Ok true). unfold any_of. rewrite (select_or mb parse tol h _ p s _ _ Na Ef Hother). reflexivity.
  Qed.
  Theorem C39_or_keeps_the_groups_matching_one h e1 e2 x c1 v1 c2 v2 p s g' :
    hobj_ok h -> no_null h -> compares (asconst mb) e1 x c1 v1 -> compares (asconst mb) e2 x c2 v2 -> p < length (o_group h) ->
    only_axis parse h (any_of [e1; e2]) x p (AGroupby s) -> (forall b, In b (o_group h) -> parse (axis_expr b) <> any_of [e1; e2]) ->
    hist_select mb parse tol (view h) (any_of [e1; e2]) = Ok g' ->
    exists g, g' = view g /\ hobj_ok g /\ groups_selected p (fun k => key_satisfies c1 v1 k \/ key_satisfies c2 v2 k) h g.
  Proof.
    intros Hok HN H1 H2 Hp Ho Hb E.
    destruct (or_select h e1 (c1, v1) [e2] [(c2, v2)] x p s (proj1 Hok) H1 ltac:(constructor; [exact H2|constructor]) Hp Ho Hb) as (f & Es). rewrite Es in E. clear Es.
    set (cond := fun k => do b <- key_cmp c2 v2 k; if b then Ok true else key_cmp c1 v1 k).
    destruct (groups_kept_selected p (AGroupby s) (eval_clo recursion_limit (CBase (key_says (c2, v2))) (CBase (key_says (c1, v1))) COr) h g' (fun k => cond k = Ok true) Hok HN (only_axis_group _ _ _ _ _ _ Ho Hp) E) as (g & -> & Hg & Hs).
    { intros k t Ht. change (cond k = Ok t) in Ht. rewrite Ht. split; congruence. }
    exists g. split; [auto|split; [auto|]]. destruct Hs as (S1 & S2 & S3 & S4 & S5 & S6 & S7 & S8). do 7 (split; [auto|]). intros ks k Hl Hn. destruct (S8 ks k Hl Hn) as (Y & N).
    destruct (block (o_content h) ks) as [d|] eqn:Ed.
    - destruct (select_groups_all p (AGroupby s) _ h (view g) Hok HN (only_axis_group _ _ _ _ _ _ Ho Hp) E ks) as (k' & t & Hn' & Ht); [unfold has_block; congruence|]. rewrite Hn in Hn'. inversion Hn'; subst k'.
      change (cond k = Ok t) in Ht. unfold cond in *. destruct (key_cmp c2 v2 k) as [b2|] eqn:E2; [|discriminate]. cbn [bind] in *. pose proof (key_cmp_ok _ _ _ _ E2) as K2. destruct b2.
      + split; [intros _; apply Y; auto|]. intros X. exfalso. apply X. right. apply K2; auto.
      + pose proof (key_cmp_ok _ _ _ _ Ht) as K1. split.
        * intros [X|X]; [apply Y; rewrite Ht; f_equal; apply K1; auto|apply K2 in X; discriminate].
        * intros X. apply N. rewrite Ht. intros Z. apply X. left. apply K1. congruence.
    - assert (G : block (o_content g) ks = None) by (destruct (cond k) as [[|]|] eqn:Ec; [apply Y; auto|apply N; discriminate|apply N; discriminate]). rewrite G. auto.
  Qed.
  (** Three or more: the lambdas share the variables of the loop, and a key that does not satisfy the last
      comparison never ends; the selection never succeeds if there is such a group. *)
  Theorem C39_three_comparisons_joined_by_or_refuted h e1 c1 e2 cv2 e3 cv3 es cs x p s ks k :
    hobj_ok h -> no_null h -> clauses mb x (e1 :: e2 :: e3 :: es) (c1 :: cv2 :: cv3 :: cs) -> p < length (o_group h) ->
    only_axis parse h (any_of (e1 :: e2 :: e3 :: es)) x p (AGroupby s) -> (forall b, In b (o_group h) -> parse (axis_expr b) <> any_of (e1 :: e2 :: e3 :: es)) ->
    has_block h ks -> nth_error ks p = Some k -> (let last_one := last (cv3 :: cs) cv3 in key_cmp (fst last_one) (snd last_one) k = Ok false) ->
    forall g', hist_select mb parse tol (view h) (any_of (e1 :: e2 :: e3 :: es)) <> Ok g'.
  Proof.
    intros Hok HN H Hp Ho Hb Hks Hn Hl g' E. inversion H as [|? ? ? ? H1 H']; subst.
    destruct (or_select h e1 c1 (e2 :: e3 :: es) (cv2 :: cv3 :: cs) x p s (proj1 Hok) H1 H' Hp Ho Hb) as (f & Es). rewrite Es in E. clear Es.
    destruct (select_groups_all p (AGroupby s) _ h g' Hok HN (only_axis_group _ _ _ _ _ _ Ho Hp) E ks Hks) as (k' & t & Hn' & Ht). rewrite Hn in Hn'. inversion Hn'; subst k'.
    rewrite endless in Ht; [discriminate|]. cbn zeta in Hl. unfold key_says.
    change (last (cv2 :: cv3 :: cs) (SEq, KSet [])) with (last (cv3 :: cs) (SEq, KSet [])). rewrite (last_any cs cv3 _ cv3). exact Hl.
  Qed.

  (** Selecting the groups of a filled histogram gives the same cells as filling the selected histogram
      with the rows whose key satisfies the comparison. *)
  Theorem C39_selection_equals_filling_the_matching_rows h e x c v p s (wanted : gkey -> bool) m rows c1 g0' g1' :
    hobj_ok h -> no_null h -> compares (asconst mb) e x c v -> p < length (o_group h) -> only_axis parse h e x p (AGroupby s) ->
    (forall k, wanted k = true <-> key_cmp c v k = Ok true) ->
    fill_pre (o_layout h) (length (o_group h)) m rows (o_content h) -> fill_rows (o_layout h) (length (o_group h)) m rows (o_content h) = (c1, None) ->
    hist_select mb parse tol (view h) e = Ok g0' -> hist_select mb parse tol (view (with_content h c1)) e = Ok g1' ->
    exists g0 g1 c2, g0' = view g0 /\ g1' = view g1 /\ groups_selected p (key_satisfies c v) h g0 /\ groups_selected p (key_satisfies c v) (with_content h c1) g1 /\
      fill_rows (o_layout h) (length (o_group h)) m (filter (key_kept p wanted) rows) (o_content g0) = (c2, None) /\ same_cells (o_layout h) (o_content g1) c2 /\
      (length (o_group h) = 1 -> same_content (o_content g1) c2).
  Proof.
    intros Hok HN Hc Hp Ho Hw HP EF E0 E1.
    assert (Hok1 : hobj_ok (with_content h c1)).
    { destruct Hok as (HG & HF & HPr & _). split; [auto|split; [auto|split; [auto|]]]. destruct (fill_ok _ _ _ _ _ HP) as (c' & E' & Oc & _). rewrite EF in E'. inversion E'; subst c'. right. exact Oc. }
    assert (Ho1 : only_axis parse (with_content h c1) e x p (AGroupby s)) by exact Ho.
    rewrite (select_when mb parse tol h e x c v p (AGroupby s) _ _ Hc (proj1 Hok) Ho eq_refl) in E0.
    rewrite (select_when mb parse tol (with_content h c1) e x c v p (AGroupby s) _ _ Hc (proj1 Hok1) Ho1 eq_refl) in E1.
    pose proof (select_groups p _ _ h _ Hok HN (only_axis_group _ _ _ _ _ _ Ho Hp) E0) as G0. pose proof (select_groups p _ _ (with_content h c1) _ Hok1 HN (only_axis_group _ _ _ _ _ _ Ho Hp) E1) as G1.
    destruct (groups_fill p wanted (o_layout h) (length (o_group h)) m rows (o_content h) c1 Hp HP EF) as (y & F1 & F2 & F3).
    assert (EQ : forall k, says (key_cmp c v) k = wanted k).
    { intros k. unfold says. specialize (Hw k). destruct (key_cmp c v k) as [[|]|]; destruct (wanted k); auto; [symmetry; apply Hw; auto| |]; exfalso; destruct Hw as (Hw & _); specialize (Hw eq_refl); discriminate. }
    assert (EC : forall n c0, cfilter n (says (key_cmp c v)) c0 = cfilter n wanted c0).
    { induction n as [|n IH]; intros [|d|l]; cbn [cfilter]; auto; f_equal; [apply filter_ext; auto|]. apply map_ext. intros kv. rewrite IH. reflexivity. }
    exists (groups_kept p (says (key_cmp c v)) h), (groups_kept p (says (key_cmp c v)) (with_content h c1)), y. split; [auto|split; [auto|]].
    split.
    { do 7 (split; [reflexivity|]).
      intros ks k Hl Hn. cbn [groups_kept with_content o_content]. rewrite block_cfilter by lia. rewrite Hn.
      destruct (block (o_content h) ks) as [d|] eqn:Eb; [|destruct (says (key_cmp c v) k); auto].
      destruct (select_groups_all p _ _ h _ Hok HN (only_axis_group _ _ _ _ _ _ Ho Hp) E0 ks) as (k' & t & Hn' & Ht); [unfold has_block; congruence|]. rewrite Hn in Hn'. inversion Hn'; subst k'.
      unfold says. rewrite Ht. pose proof (key_cmp_ok _ _ _ _ Ht) as K. destruct t; split; intros X; auto; exfalso; [apply X, K; auto|apply K in X; discriminate]. }
    split.
    { do 7 (split; [reflexivity|]).
      intros ks k Hl Hn. cbn [groups_kept with_content o_content o_group] in *. rewrite block_cfilter by lia. rewrite Hn.
      destruct (block c1 ks) as [d|] eqn:Eb; [|destruct (says (key_cmp c v) k); auto].
      destruct (select_groups_all p _ _ (with_content h c1) _ Hok1 HN (only_axis_group _ _ _ _ _ _ Ho Hp) E1 ks) as (k' & t & Hn' & Ht); [unfold has_block; cbn [with_content o_content]; congruence|]. rewrite Hn in Hn'. inversion Hn'; subst k'.
      unfold says. rewrite Ht. pose proof (key_cmp_ok _ _ _ _ Ht) as K. destruct t; split; intros X; auto; exfalso; [apply X, K; auto|apply K in X; discriminate]. }
    cbn [groups_kept with_content o_content]. rewrite !EC. auto.
  Qed.
End C38_groups.
Print Assumptions C38_groupbin_selection.
Print Assumptions C39_selection_keeps_the_matching_groups.
Print Assumptions C39_selection_of_comparable_groups_succeeds.
Print Assumptions C39_and_keeps_the_groups_matching_all.
Print Assumptions C39_or_keeps_the_groups_matching_one.
Print Assumptions C39_three_comparisons_joined_by_or_refuted.
Print Assumptions C39_selection_equals_filling_the_matching_rows.

(** ** Concrete selections *)
Definition se_mb (s : string) : option Num := if String.eqb s "inf" then Some PInf else if String.eqb s "nan" then Some NaN else None.
Definition se_tol : Num := Fin (qfrac 1 1000).
Definition se_num (z : Z) : expr := EConst (KS (SNum (nz z))).
Definition se_str (s : string) : expr := EConst (KS (SStr s)).
Ltac only_tac := split; [reflexivity|split; [reflexivity|split; [intros i b Hi Hne; do 4 (destruct i as [|i]; [cbn in Hi; try (injection Hi as <-); cbn in *; try congruence|]); destruct i; discriminate|
  split; [intros b Hb; cbn in Hb; repeat (destruct Hb as [<-|Hb]; [discriminate|]); destruct Hb|discriminate]]]].

Example pr_x_numeric : numeric_axis pr_x.
Proof. split; [lia|split; [reflexivity|split; reflexivity]]. Qed.
Example pr_flat_no_null : no_null pr_flat.
Proof. intros [H|[H|[]]]; discriminate. Qed.
(** bin("x", 2, 0, 2), bin("y", 2, 0, 2): selecting x < 1. *)
Example C38_example : let e := ERel CLt (EName "x") (se_num 1) in
  compares (asconst se_mb) e (EName "x") SLt (KS (SNum (nz 1))) /\ only_axis EName pr_flat e (EName "x") (length (o_group pr_flat) + 0) pr_x /\
  hobj_ok pr_flat /\ is_edge pr_x (nz 1) /\ aligned pr_x SLt /\ leaves_bins pr_x SLt (nz 1) /\ nltb nzero se_tol = true /\
  exists g, hist_select se_mb EName se_tol (view pr_flat) e = Ok g /\ p_content g = PArr [1; 2; 1] [nz 1; nz 2].
Proof.
  cbn zeta. split; [constructor; reflexivity|]. split; [only_tac|].
  split; [split; [constructor|split; [repeat constructor|split; [constructor|right; reflexivity]]]|].
  split; [exists 1; split; [lia|num_tac]|]. split; [reflexivity|].
  split; [exists (KIv (nz 0) (nz 1) true false), (Fin (qfrac 1 2)); split; [left; num_tac|split; [split; left; reflexivity|reflexivity]]|]. split; [reflexivity|].
  eexists. split; [vm_compute; reflexivity|num_tac].
Qed.

(** Filling with x = 1/2, y = 1/2 and x = 3/2, y = 1/2 and then selecting x < 1. *)
Definition se_row (i : Z) : row := {| r_keys := []; r_slots := [Some i; Some 0%Z]; r_prof := []; r_w := nz 1; r_w2 := nz 1 |}.
Definition se_gone : row := {| r_keys := []; r_slots := [None; Some 0%Z]; r_prof := []; r_w := nz 1; r_w2 := nz 1 |}.
Example C38_filling_example :
  let keys' := keys (ABin "x" 1 (nz 0) (nz 1) false false false true) in
  let data := [(Fin (qfrac 1 2), se_row 0, se_row 0); (Fin (qfrac 3 2), se_row 1, se_gone)] in
  Forall (fun d => same_row_but 0 (keys pr_x) keys' (d_x d) (d_old d) (d_new d)) data /\
  fill_pre (o_layout pr_flat) 0 Unweighted (map d_old data) (o_content pr_flat) /\
  fst (fill_rows (o_layout pr_flat) 0 Unweighted (map d_old data) (o_content pr_flat)) = arr [2; 2; 4; 4]%Z /\
  snd (fill_rows (o_layout pr_flat) 0 Unweighted (map d_old data) (o_content pr_flat)) = None /\
  filter (fun d => satisfies SLt (nz 1) (d_x d)) data = [(Fin (qfrac 1 2), se_row 0, se_row 0)].
Proof.
  cbn zeta. split.
  { constructor; [|constructor; [|constructor]]; (split; [reflexivity|split; [reflexivity|split; [reflexivity|split; [reflexivity|]]]]).
    - exists (Some 0%Z), (Some 0%Z). split; [reflexivity|split; [reflexivity|split]].
      + exists 0. eexists. split; [reflexivity|split; [reflexivity|]]. split; left; reflexivity.
      + exists 0. eexists. split; [reflexivity|split; [reflexivity|]]. split; left; reflexivity.
    - exists (Some 1%Z), None. split; [reflexivity|split; [reflexivity|split]].
      + exists 1. eexists. split; [reflexivity|split; [reflexivity|]]. split; left; reflexivity.
      + intros k [<-|[]] (_ & [H|(H & _)]); vm_compute in H; discriminate. }
  split.
  { split; [vm_compute; discriminate|]. split; [reflexivity|]. split; [|split; [right; reflexivity|left; reflexivity]].
    constructor; [|constructor; [|constructor]]; (split; [reflexivity|split; [intros k []|split; [repeat constructor; cbn; lia|reflexivity]]]). }
  split; [num_tac|split; [reflexivity|num_tac]].
Qed.

(** The cut axis: cut("x < y") cannot be selected, cut("good") can. *)
Definition se_cut (s : string) (c : content) : hobj := {|
  o_group := []; o_fixed := [ACut s]; o_prof := []; o_weight := None; o_filter := None; o_defs := []; o_attach := []; o_content := c |}.
Example C38_cut_example : cut_axis se_mb EName (se_cut "good" (arr [3; 4]%Z)) (EName "good") (EName "good") true 0 "good" /\
  cut_axis se_mb EName (se_cut "good" (arr [3; 4]%Z)) (EPred "good" false) (EName "good") false 0 "good" /\
  hobj_ok (se_cut "good" (arr [3; 4]%Z)) /\ no_null (se_cut "good" (arr [3; 4]%Z)) /\
  rmap p_content (hist_select se_mb EName se_tol (view (se_cut "good" (arr [3; 4]%Z))) (EName "good")) = Ok (PArr [1] [nz 4]) /\
  rmap p_content (hist_select se_mb EName se_tol (view (se_cut "good" (arr [3; 4]%Z))) (EPred "good" false)) = Ok (PArr [1] [nz 3]) /\
  cut_axis se_mb EName (se_cut "good" (arr [3; 4]%Z)) (ERel CEq (EName "good") (EConst (KS (SBool false)))) (EName "good") false 0 "good".
Proof.
  split; [split; [reflexivity|split; [constructor|split; [discriminate|intros i b Hi H; cbn in H; lia]]]|].
  split; [split; [reflexivity|split; [constructor; auto|split; [discriminate|intros i b Hi H; cbn in H; lia]]]|].
  split; [split; [constructor|split; [repeat constructor|split; [constructor|right; reflexivity]]]|]. split; [intros [H|[]]; discriminate|].
  split; [num_tac|split; [num_tac|]].
  split; [reflexivity|split; [apply asks_eq; constructor; reflexivity|split; [discriminate|intros i b Hi H; cbn in H; lia]]].
Qed.
(** A condition on two quantities is the condition of a cut axis, but the selection asks for a constant first. *)
Theorem C38_cut_on_two_quantities_refuted mb parse tol h c a b : asconst mb a = None -> asconst mb b = None ->
  hist_select mb parse tol h (ERel c a b) = Err TypeError.
Proof. intros Ha Hb. cbn. rewrite Ha, Hb. reflexivity. Qed.
Print Assumptions C38_cut_on_two_quantities_refuted.

(** x == nan keeps the bin of NaN under an axis that has the other bins: the content no longer has the
    shape of the histogram. *)
Definition se_nan : hobj := {|
  o_group := []; o_fixed := [ABin "x" 2 (nz 0) (nz 2) false false true true]; o_prof := []; o_weight := None; o_filter := None;
  o_defs := []; o_attach := []; o_content := arr [1; 2; 3]%Z |}.
Theorem C38_equal_nan_refuted : exists h e g, hobj_ok h /\ compares (asconst se_mb) e (EName "x") SEq (KS (SNum NaN)) /\
  hist_select se_mb EName se_tol (view h) e = Ok g /\ o_fixed (p_head g) = [ABin "x" 2 (nz 0) (nz 2) false false false true] /\
  p_content g = PArr [1; 1] [nz 3] /\ forall g0, g = view g0 -> ~ hobj_ok g0.
Proof.
  exists se_nan, (ERel CEq (EName "x") (EName "nan")). eexists.
  split; [split; [constructor|split; [repeat constructor|split; [constructor|right; reflexivity]]]|].
  split; [constructor; reflexivity|]. split; [reflexivity|]. split; [reflexivity|]. split; [reflexivity|].
  intros g0 E (_ & _ & _ & H). pose proof (f_equal p_content E) as Ec. pose proof (f_equal (fun g => o_group (p_head g)) E) as Eg. pose proof (f_equal (fun g => o_fixed (p_head g)) E) as Ef. pose proof (f_equal (fun g => o_prof (p_head g)) E) as Ep.
  cbn [p_content p_head view o_group o_fixed o_prof with_content] in *. unfold rebuild in Eg, Ef, Ep. cbn in Eg, Ef, Ep.
  rewrite <- Eg in H. destruct H as [H|H]; [rewrite H in Ec; discriminate|]. cbn [length content_ok] in H.
  destruct (o_content g0) as [|d|l]; [contradiction| |contradiction]. cbn [embed] in Ec. injection Ec as E1 E2.
  assert (X : l_shape (o_layout g0) = [1; 1]) by auto. unfold o_layout, l_shape in X. rewrite <- Ef in X. cbn in X. injection X as X. discriminate.
Qed.
Print Assumptions C38_equal_nan_refuted.

(** A threshold outside the numbers: OverflowError for bin, although every bin below the overflow satisfies
    x < inf; AttributeError for intbin; ValueError for an intbin cut at its lowest number, although the
    underflow bin satisfies it. *)
Theorem C38_infinite_threshold_refuted mb parse tol h e x c v q a : compares (asconst mb) e x c v -> Forall (fun a => is_group a = true) (o_group h) ->
  only_axis parse h e x (length (o_group h) + q) a -> numeric_axis a -> v = KS (SNum PInf) -> c = SLt ->
  match a with ABin _ _ _ _ _ _ _ _ => True | AIntbin _ _ _ _ _ => True | _ => False end ->
  forall g, hist_select mb parse tol (view h) e <> Ok g.
Proof.
  intros Hc HG Ho Hna -> -> Ha g E. destruct (select_only _ _ _ _ _ _ _ _ _ _ _ Hc HG Ho E) as (a' & s & Ea & _). destruct a; try contradiction; cbn [axis_select] in Ea.
  - destruct (numeric_bin _ _ _ _ _ _ _ _ Hna) as (l & u & -> & -> & Hn & Hlt). unfold bin_select in Ea. cbn [as_real is_ninf is_pinf isnan scmp_is andb] in Ea.
    change (nsub (Fin u) (Fin l)) with (Fin (u - l)%Qc) in Ea.
    assert (Hd : qeqb (u - l) qc0 = false). { apply qeqb_false. intros E0. apply Qc_ext_iff in E0. revert E0. qc_push. lra. }
    replace (neqb (Fin (u - l)) nzero) with false in Ea by (cbn; auto). change (nsub PInf (Fin l)) with PInf in Ea.
    assert (Es : ndiv (nnat numbins) (Fin (u - l)) = Fin (qz (Z.of_nat numbins) / (u - l))%Qc) by (unfold nnat, nz, ndiv; rewrite Hd; reflexivity). rewrite Es in Ea.
    destruct (nmul PInf (Fin (qz (Z.of_nat numbins) / (u - l)))) eqn:En; cbn [nround bind] in Ea; try discriminate.
    cbn [nmul] in En. unfold ninf_sign in En. repeat match type of En with (if ?b then _ else _) = _ => destruct b end; discriminate.
  - unfold intbin_select in Ea. cbn in Ea. discriminate.
Qed.
Print Assumptions C38_infinite_threshold_refuted.

(** A groupbin axis: a group of NaN breaks every selection with a finite threshold, and a threshold of
    inf keeps the group of inf. *)
Definition se_gb : axis := AGroupbin "x" (nz 1) (nz 0) true true.
Definition se_grouped (l : list (gkey * content)) : hobj := {|
  o_group := [se_gb]; o_fixed := []; o_prof := []; o_weight := None; o_filter := None; o_defs := []; o_attach := []; o_content := CDict l |}.
Example se_gb_made : mk_groupbin "x" (nz 1) (nz 0) true true = Ok se_gb.
Proof. reflexivity. Qed.
Example C38_groupbin_example : let h := se_grouped [(GNum (nz 0), arr [5]%Z); (GNum (nz 1), arr [7]%Z)] in let e := ERel CLt (EName "x") (se_num 1) in
  hobj_ok h /\ compares (asconst se_mb) e (EName "x") SLt (KS (SNum (nz 1))) /\ only_axis EName h e (EName "x") 0 se_gb /\
  rmap p_content (hist_select se_mb EName se_tol (view h) e) = Ok (PDict [(GNum (nz 0), PArr [1] [nz 5])]).
Proof. cbn zeta. split; [ok_tac|]. split; [constructor; reflexivity|]. split; [only_tac|]. vm_compute. reflexivity. Qed.
Theorem C38_groupbin_with_a_nan_group_refuted : exists h e, hobj_ok h /\ compares (asconst se_mb) e (EName "x") SLt (KS (SNum (nz 1))) /\
  groupbin_key Fin true true (nz 1) (nz 0) NaN = Some (GStr "NaN") /\ has_block h [GStr "NaN"] /\
  hist_select se_mb EName se_tol (view h) e = Err TypeError.
Proof.
  exists (se_grouped [(GNum (nz 0), arr [5]%Z); (GStr "NaN", arr [7]%Z)]), (ERel CLt (EName "x") (se_num 1)).
  split; [ok_tac|]. split; [constructor; reflexivity|]. split; [reflexivity|]. split; [discriminate|]. vm_compute. reflexivity.
Qed.
Theorem C38_groupbin_below_infinity_refuted : exists h e g k, hobj_ok h /\ compares (asconst se_mb) e (EName "x") SLt (KS (SNum PInf)) /\
  groupbin_key Fin true true (nz 1) (nz 0) PInf = Some k /\ satisfies SLt PInf PInf = false /\ has_block h [k] /\
  hist_select se_mb EName se_tol (view h) e = Ok g /\ p_content g = PDict [(GNum (nz 0), PArr [1] [nz 5]); (k, PArr [1] [nz 7])].
Proof.
  exists (se_grouped [(GNum (nz 0), arr [5]%Z); (GNum PInf, arr [7]%Z)]), (ERel CLt (EName "x") (EName "inf")). do 2 eexists.
  split; [ok_tac|]. split; [constructor; reflexivity|]. split; [reflexivity|]. split; [reflexivity|]. split; [discriminate|]. split; vm_compute; reflexivity.
Qed.
Print Assumptions C38_groupbin_with_a_nan_group_refuted.
Print Assumptions C38_groupbin_below_infinity_refuted.

(** ** C39: concrete selections *)
Definition se_is (s : string) : expr := ERel CEq (EName "g") (se_str s).
Definition se_not (s : string) : expr := ERel CNe (EName "g") (se_str s).
Example se_ok n : n <= 4 -> hobj_ok (pr_grouped n).
Proof. intros H. do 5 (destruct n as [|n]; [ok_tac|]). lia. Qed.
Definition names_of (r : res phist) : res (list gkey) :=
  match r with Ok g => match p_content g with PDict l => Ok (map fst l) | _ => Ok [] end | Err e => Err e end.
Definition se_select (e : expr) : res (list gkey) := names_of (hist_select se_mb EName se_tol (view (pr_grouped 4)) e).
Example C39_example : only_axis EName (pr_grouped 4) (se_is "b") (EName "g") 0 pr_g /\ clauses se_mb (EName "g") [se_is "b"; se_not "c"] [(SEq, KS (SStr "b")); (SNe, KS (SStr "c"))] /\
  only_axis EName (pr_grouped 4) (any_of [se_is "a"; se_is "c"]) (EName "g") 0 pr_g /\
  se_select (se_is "b") = Ok [GStr "b"] /\
  se_select (EAnd [se_not "a"; se_not "c"]) = Ok [GStr "b"; GStr "d"] /\
  se_select (any_of [se_is "a"; se_is "c"]) = Ok [GStr "a"; GStr "c"].
Proof. split; [only_tac|]. split; [repeat constructor|]. split; [only_tac|]. split; [vm_compute; reflexivity|]. split; vm_compute; reflexivity. Qed.
Example C39_filling_example : let rows := [{| r_keys := [Some (GStr "b")]; r_slots := [Some 0%Z; Some 1%Z]; r_prof := []; r_w := nz 1; r_w2 := nz 1 |}] in
  fill_pre (o_layout (pr_grouped 2)) 1 Unweighted rows (o_content (pr_grouped 2)) /\ snd (fill_rows (o_layout (pr_grouped 2)) 1 Unweighted rows (o_content (pr_grouped 2))) = None.
Proof.
  cbn zeta. split; [|vm_compute; reflexivity]. split; [vm_compute; discriminate|]. split; [reflexivity|]. split; [|split; [apply (se_ok 2); lia|left; reflexivity]].
  constructor; [|constructor]. split; [reflexivity|split; [intros k [H|[]]; injection H as <-; discriminate|split; [repeat constructor; cbn; lia|reflexivity]]].
Qed.
(** Three comparisons joined by "or", a conjunction before an "or", and one after it. *)
Theorem C39_compound_conditions_refuted :
  se_select (any_of [se_is "a"; se_is "b"; se_is "c"]) = Err RecursionError /\
  (* (g != "a" and g != "b") or g == "a" should keep a, c, d *)
  se_select (EOr [EAnd [se_not "a"; se_not "b"]; EAnd [se_is "a"]]) = Ok [GStr "a"] /\
  (* g == "a" or (g != "a" and g != "b") should keep a, c, d *)
  se_select (EOr [EAnd [se_is "a"]; EAnd [se_not "a"; se_not "b"]]) = Err RecursionError.
Proof. split; [vm_compute; reflexivity|]. split; vm_compute; reflexivity. Qed.
Print Assumptions C39_compound_conditions_refuted.
