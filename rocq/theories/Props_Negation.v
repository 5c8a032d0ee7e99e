(** C24, the part that holds: "not p" in filters and cuts for [p] in the class of C22, that is without
    negated predicates and without NaN among the operands of comparisons. *)
From Coq Require Import String Permutation.
From Verif Require Import Num NumFacts Base Tree Instr InstrSpec Axis Calc AxisMain Content Fill FillSpec FillMain Elem HistFill HistSpec
  HistFillProofs HistFillMain2 HistFillMain3 HistFillMain4 Order Expr ExprSpec ExprGood ExprNames HistNew HistNewSpec HistNewProofs Props_Expr
  Props_Hist Props_HistNew WrittenSpec WrittenProofs Props_Written.
Open Scope string_scope.
Local Open Scope list_scope.

(** The histogram with another filter. *)
Definition filtered (f : src) (w : written) : written := {| w_axes := w_axes w; w_weight := w_weight w; w_filter := Some f |}.
(** The rows on which [p], as written, has the truth value [b]. *)
Definition truth_is user A (p : src) (b : bool) (i : nat) : bool :=
  match src_truth user (field_at A i) p with Ok t => Bool.eqb t b | Err _ => false end.
Definition rows_where user A len p b : list nat := filter (truth_is user A p b) (seq 0 len).

Lemma not_truth user field p b : src_truth user field (XNot p) = Ok b -> src_truth user field p = Ok (negb b).
Proof.
  unfold src_truth, src_value. cbn [seval]. destruct (seval user field p) as [a|]; [|discriminate]. cbn [bind].
  unfold arg_truth. destruct (arg_val a) as [v|]; [|discriminate]. cbn [bind]. destruct (val_truth v) as [t|]; [|discriminate].
  cbn [bind arg_val val_truth]. intros H. injection H as <-. rewrite negb_involutive. reflexivity.
Qed.
Lemma ready_truth cast rnd user w A len rows c f i : written_ready cast rnd user w A len rows c -> w_filter w = Some f -> i < len ->
  exists b, src_truth user (field_at A i) f = Ok b.
Proof.
  intros (_ & _ & _ & _ & RW & _) Hf Hi. unfold written_rows in RW. apply mapM_ok in RW.
  assert (G : forall n len, n <= i < n + len -> forall rows, Forall2 (fun i r => written_row cast rnd user (field_at A i) w = Ok r) (seq n len) rows -> exists r, written_row cast rnd user (field_at A i) w = Ok r).
  { clear. intros n len. revert n. induction len as [|len IH]; intros n Hi rows H; [lia|]. cbn [seq] in H. inversion H; subst.
    destruct (Nat.eq_dec n i) as [->|]; [eauto|]. eapply (IH (S n)); [lia|eauto]. }
  destruct (G 0 len ltac:(lia) rows RW) as (r & E). unfold written_row in E.
  apply bind_ok in E as (ks & _ & E). apply bind_ok in E as (ss & _ & E). apply bind_ok in E as (ps & _ & E). apply bind_ok in E as (y & E & _).
  unfold written_weight in E. rewrite Hf in E. apply bind_ok in E as (x & _ & E). apply bind_ok in E as (b & E & _). eauto.
Qed.
Lemma not_passing cast rnd user w A len rows c p : written_ready cast rnd user (filtered (XNot p) w) A len rows c ->
  passing user (filtered (XNot p) w) A len = rows_where user A len p false.
Proof.
  intros HR. unfold passing, rows_where. apply filter_ext_in. intros i Hi. apply in_seq in Hi.
  destruct (ready_truth _ _ _ _ _ _ _ _ (XNot p) i HR eq_refl ltac:(lia)) as (b & E). unfold lets_through, truth_is. cbn [filtered w_filter].
  rewrite E, (not_truth _ _ _ _ E). destruct b; reflexivity.
Qed.

(** ** filter="not p" keeps exactly the rows for which p is false.  Missing: predicates (refuted,
    C24_negated_predicate_refuted) and comparisons with NaN (refuted, C22_nan_refuted). *)
Theorem C24_filter_not_partial : forall cast rnd user order w p h h0 srcs srcs0 A len rows c c0,
  broadcasts user -> powers user -> is_order order ->
  new_hist py_sorted tree_sorted nodefs (w_axes w) (w_weight w) (Some (XNot p)) = Ok h ->
  new_hist py_sorted tree_sorted nodefs (w_axes w) (w_weight w) None = Ok h0 ->
  Permutation srcs (sources (hist_goals h)) -> Permutation srcs0 (sources (hist_goals h0)) ->
  driven h A len -> driven h0 A len -> (exists s, hist_mentions h0 s /\ is_array A s) ->
  written_ready cast rnd user (filtered (XNot p) w) A len rows c ->
  hist_ok (written_layout (unfiltered w)) (List.length (axes_of is_group w)) c0 ->
  (forall i r, In i (rows_where user A len p true) -> nth_error rows i = Some r -> finite_profiles r) ->
  holds_the_same (filtered (XNot p) w) c c0 ->
  exists c' c0',
    hist_fill cast rnd user order srcs h A c = (c', None) /\
    hist_fill cast rnd user order srcs0 h0 (choose (rows_where user A len p false) A) c0 = (c0', None) /\
    holds_the_same (filtered (XNot p) w) c' c0'.
Proof.
  intros cast rnd user order w p h h0 srcs srcs0 A len rows c c0 Hb Hp Ho Hn Hn0 Hs Hs0 HD HD0 Har HR HO FP HS.
  rewrite <- (not_passing cast rnd user w A len rows c p HR).
  refine (C13_filter_as_written cast rnd user order (filtered (XNot p) w) h h0 srcs srcs0 A len rows c c0 Hb Hp Ho _ Hn Hn0 Hs Hs0 HD HD0 Har HR HO _ HS); [discriminate|].
  intros i r Hi Hl Hr. apply (FP i r); auto. apply filter_In. split; [apply in_seq; lia|].
  destruct (ready_truth _ _ _ _ _ _ _ _ (XNot p) i HR eq_refl Hi) as (b & E). unfold lets_through in Hl. cbn [filtered w_filter] in Hl.
  rewrite E in Hl. subst b. unfold truth_is. rewrite (not_truth _ _ _ _ E). reflexivity.
Qed.
Print Assumptions C24_filter_not_partial.

(** ** cut("not p"), as it is computed, is true exactly on the rows on which p is false. *)
Theorem C24_cut_not_partial : forall user field p b e, broadcasts user -> powers user -> faithful user field (XNot p) ->
  src_truth user field p = Ok b -> parsed (XNot p) = Ok e ->
  exists t a, lowered e = Ok t /\ reval user field t = Ok a /\ arg_val a = Ok (VBool (negb b)).
Proof.
  intros user field p b e Hb Hp (PL & TY & TA & HN) T P. apply (C22_truth_preserved user field (XNot p) (negb b) e Hb Hp PL TY TA HN); auto.
  unfold src_truth, src_value in T. cbn [seval]. destruct (seval user field p) as [a|]; [|discriminate]. cbn [bind] in *. unfold arg_truth.
  destruct (arg_val a) as [v|]; [|discriminate]. cbn [bind] in *. rewrite T. reflexivity.
Qed.
Print Assumptions C24_cut_not_partial.

(** ** The histograms with filter="p" and filter="not p" add up to that without a filter. *)
Lemma pick_split (f : row -> Num) q (p n : nat -> bool) l : (forall i r, In (i, r) l -> n i = negb (p i)) ->
  nadd (nsum (map f (filter q (pick p l)))) (nsum (map f (filter q (pick n l)))) = nsum (map f (filter q (map snd l))).
Proof.
  induction l as [|[i r] l IH]; intros H; [apply nadd_0_l|]. assert (IH' := IH (fun j s Hj => H j s (or_intror Hj))). clear IH.
  unfold pick in *. cbn [filter fst map snd]. rewrite (H i r (or_introl eq_refl)). destruct (p i); cbn [negb map snd filter]; destruct (q r); auto;
    cbn [map]; unfold nsum in *; cbn [fold_right]; rewrite <- IH'.
  - symmetry. apply nadd_assoc.
  - rewrite !nadd_assoc. f_equal. apply nadd_comm.
Qed.
Theorem C24_complement_partial : forall cast rnd user order w p hp hn h0 srcsp srcsn srcs0 A len rp rn,
  broadcasts user -> powers user -> is_order order ->
  new_hist py_sorted tree_sorted nodefs (w_axes w) (w_weight w) (Some p) = Ok hp ->
  new_hist py_sorted tree_sorted nodefs (w_axes w) (w_weight w) (Some (XNot p)) = Ok hn ->
  new_hist py_sorted tree_sorted nodefs (w_axes w) (w_weight w) None = Ok h0 ->
  Permutation srcsp (sources (hist_goals hp)) -> Permutation srcsn (sources (hist_goals hn)) -> Permutation srcs0 (sources (hist_goals h0)) ->
  driven hp A len -> driven hn A len -> driven h0 A len -> (exists s, hist_mentions h0 s /\ is_array A s) ->
  written_ready cast rnd user (filtered p w) A len rp CNone -> written_ready cast rnd user (filtered (XNot p) w) A len rn CNone ->
  (forall r, In r rp \/ In r rn -> finite_profiles r) ->
  exists cp cn c0,
    hist_fill cast rnd user order srcsp hp A CNone = (cp, None) /\
    hist_fill cast rnd user order srcsn hn A CNone = (cn, None) /\
    hist_fill cast rnd user order srcs0 h0 A CNone = (c0, None) /\
    forall ks ss kd, let L := written_layout (filtered p w) in let L0 := written_layout (unfiltered w) in
      in_shape L ss -> has_column L kd ->
      nadd (cell L cp ks ss (column_of L kd)) (cell L cn ks ss (column_of L kd)) =
      cell L0 c0 ks ss (column_of L0 (column_without w kd)).
Proof.
  intros cast rnd user order w p hp hn h0 srcsp srcsn srcs0 A len rp rn Hb Hp Ho Hnp Hnn Hn0 Hsp Hsn Hs0 HDp HDn HD0 Har HRp HRn FP.
  assert (HO : hist_ok (written_layout (unfiltered w)) (List.length (axes_of is_group w)) CNone) by (left; reflexivity).
  assert (Z : forall L L0 ks ss k k0, cell L CNone ks ss k = cell L0 CNone ks ss k0) by (intros; unfold cell; destruct ks; reflexivity).
  destruct (written_filter cast rnd user order Hb Hp Ho (filtered p w) hp h0 srcsp srcs0 A len rp CNone CNone) as (cp & cp0 & Ep & Ep0 & Vp & _); auto; try discriminate;
    [intros i r _ _ Hr; apply FP; left; eapply nth_error_In; eauto|intros ks ss kd _ _; apply Z|].
  destruct (written_filter cast rnd user order Hb Hp Ho (filtered (XNot p) w) hn h0 srcsn srcs0 A len rn CNone CNone) as (cn & cn0 & En & En0 & Vn & _); auto; try discriminate;
    [intros i r _ _ Hr; apply FP; right; eapply nth_error_In; eauto|intros ks ss kd _ _; apply Z|].
  destruct (ready_without cast rnd user (filtered p w) A len rp CNone CNone) as (rows0 & HR0 & _); auto; try discriminate.
  change (unfiltered (filtered p w)) with (unfiltered w) in *.
  destruct (written_fill cast rnd user Hb Hp order (unfiltered w) h0 srcs0 A len rows0 CNone Ho Hn0 Hs0 HD0 HR0) as (c0 & E0 & V0).
  destruct (written_is_ready cast rnd user Hb Hp (unfiltered w) h0 A len rows0 CNone Hn0 HD0 HR0) as (WF0 & NB0 & AO0 & RDY0 & AD0).
  destruct (fill_picked cast rnd user order Ho h0 srcs0 A len rows0 CNone (lets_through user (filtered p w) A) Hs0 WF0 NB0 AO0 Har RDY0) as (kp & Kp & _ & VKp).
  destruct (fill_picked cast rnd user order Ho h0 srcs0 A len rows0 CNone (lets_through user (filtered (XNot p) w) A) Hs0 WF0 NB0 AO0 Har RDY0) as (kn & Kn & _ & VKn).
  assert (kp = cp0) by (unfold passing in Ep0; congruence). assert (kn = cn0) by (unfold passing in En0; congruence). subst kp kn.
  pose proof (whole_layout (unfiltered w) h0 Hn0) as EL. rewrite EL in VKp, VKn.
  exists cp, cn, c0. split; [exact Ep|]. split; [exact En|]. split; [exact E0|]. cbv zeta. intros ks ss kd Hss Hkd.
  assert (Hkd0 : has_column (written_layout (unfiltered w)) (column_without w kd)).
  { clear - Hkd. unfold column_without, written_layout in *. cbn [unfiltered filtered w_weight w_filter w_axes] in *. destruct kd, (w_weight w) as [[v|s]|]; simpl in *; auto. }
  rewrite (Vp ks ss kd Hss Hkd). pose proof (Vn ks ss kd Hss Hkd) as Vn'. change (written_layout (filtered (XNot p) w)) with (written_layout (filtered p w)) in Vn'. rewrite Vn'. clear Vn'.
  change (column_without (filtered p w) kd) with (column_without w kd). change (column_without (filtered (XNot p) w) kd) with (column_without w kd).
  change (unfiltered (filtered p w)) with (unfiltered w) in *. change (unfiltered (filtered (XNot p) w)) with (unfiltered w) in *.
  rewrite (VKp ks ss _ Hss Hkd0), (VKn ks ss _ Hss Hkd0), (V0 ks ss _ Hss Hkd0).
  assert (C0 : forall L k, cell L CNone ks ss k = nzero) by (intros; unfold cell; destruct ks; reflexivity). rewrite !C0, !nadd_0_l.
  rewrite pick_split.
  - assert (LR : length rows0 = len).
    { destruct HR0 as (_ & _ & _ & _ & RW & _). unfold written_rows in RW. apply mapM_ok in RW. rewrite <- (seq_length len 0). clear - RW. induction RW; simpl; congruence. }
    assert (CM : map snd (combine (seq 0 len) rows0) = rows0).
    { clear - LR. revert LR. generalize 0. revert len. induction rows0 as [|r rows IH]; intros [|len] n H; simpl in *; try discriminate; auto. f_equal. apply IH. lia. }
    rewrite CM. f_equal. apply map_ext_in. intros r Hr. apply filter_In in Hr as (Hr & _). apply AD0. exact Hr.
  - intros i r Hi. apply in_combine_l in Hi. apply in_seq in Hi.
    destruct (ready_truth _ _ _ _ _ _ _ _ (XNot p) i HRn eq_refl ltac:(lia)) as (b & E). unfold lets_through. cbn [filtered w_filter].
    rewrite E, (not_truth _ _ _ _ E), negb_involutive. reflexivity.
Qed.
Print Assumptions C24_complement_partial.

(** ** The case: the histogram of C62 with filter="not (x < 3 and g != 'c')", which is computed as
    "x >= 3 or g == 'c'": it keeps the second row only. *)
Definition p24 : src := XAnd [XCmp (XName "x") [(OLt, s_num (nz 3))]; XCmp (XName "g") [(ONe, XLit (SStr "c"))]].
Definition h24 : hist := {|
  h_group := h_group h62; h_fixed := h_fixed h62; h_prof := h_prof h62;
  h_weight := Some (WxTree (TCall "numpy.multiply"
    [TCall "where" [TCall "numpy.logical_or"
                      [TCall "numpy.less_equal" [TConst (knum (nz 3)); TName "x"];
                       TCall "numpy.equal" [TConst (KS (SStr "c")); TName "g"]];
                    TConst (knum (nz 1)); TConst (knum (nz 0))];
     TCall "numpy.multiply" [TName "w"; TName "w"]])) |}.
Example new24 : new_hist py_sorted tree_sorted nodefs (w_axes w62) (w_weight w62) (Some (XNot p24)) = Ok h24.
Proof. vm_compute. reflexivity. Qed.
Definition rows24 : list row := [row62 "a" 2 2 0; row62 "b" 3 6 25; row62 "a" 1 0 0].
Example ready24 : written_ready cast_x86 Fin powlib (filtered (XNot p24) w62) exA 3 rows24 CNone.
Proof.
  split; [intros p H; in_cases H; discriminate|].
  split; [intros f H; vm_compute in H; destruct H|].
  split.
  { intros s H. vm_compute in H. repeat (destruct H as [<-|H]; [split; [left; discriminate|intros l E; inversion E; reflexivity]|]). destruct H. }
  split.
  { intros i Hi. destruct i as [|[|[|i]]]; [..|lia]; (split; [intros s H; in_cases H; faith_tac|split; [eexists; vm_compute; reflexivity|]]);
      intros n H1 H2; vm_compute in H2; exact H2. }
  split; [vm_compute; reflexivity|].
  split; [intros p H; in_cases H; exact I|].
  split; [intros i p e x _ H; in_cases H; discriminate|].
  split; [intros r k H Hk; in_cases H; simpl in Hk; destruct Hk as [Hk|[]]; inversion Hk; discriminate|].
  split; [unfold layout_ok; simpl; lia|]. split; [left; reflexivity|].
  right. unfold rows24. apply Forall_forall. intros r H. in_cases H; intros [K|[]]; discriminate K.
Qed.
Example driven24 : driven h24 exA 3.
Proof.
  split; [intros t H; in_cases H; dd_tac|]. split; [intros t c H S; in_cases H; sub_tac|].
  left. exists "g". split; [exists (TName "g"); split; [left; reflexivity|constructor]|eexists; reflexivity].
Qed.
Example C24_complement_case : rows_where powlib exA 3 p24 true = [0; 2] /\ rows_where powlib exA 3 p24 false = [1] /\
  exists cp cn c0,
    hist_fill cast_x86 Fin powlib (fun _ l => l) (sources (hist_goals h62)) h62 exA CNone = (cp, None) /\
    hist_fill cast_x86 Fin powlib (fun _ l => l) (sources (hist_goals h24)) h24 exA CNone = (cn, None) /\
    hist_fill cast_x86 Fin powlib (fun _ l => l) (sources (hist_goals h62u)) h62u exA CNone = (c0, None) /\
    (nadd (cell (written_layout w62) cp [GStr "b"] [3] 2) (cell (written_layout w62) cn [GStr "b"] [3] 2) : Num) =
    cell (written_layout (unfiltered w62)) c0 [GStr "b"] [3] 2 /\ cell (written_layout w62) cn [GStr "b"] [3] 2 = nz 25.
Proof.
  split; [vm_compute; reflexivity|]. split; [vm_compute; reflexivity|].
  destruct (C24_complement_partial cast_x86 Fin powlib (fun _ l => l) w62 p24 h62 h24 h62u (sources (hist_goals h62)) (sources (hist_goals h24)) (sources (hist_goals h62u)) exA 3 rows62 rows24)
    as (cp & cn & c0 & E1 & E2 & E3 & V);
    [exact powlib_broadcasts|exact powlib_powers|intros t l; auto|exact new62|exact new24|exact new62u|auto|auto|auto|exact driven62|exact driven24|exact driven62u
    |exists "g"; split; [exists (TName "g"); split; [left; reflexivity|constructor]|eexists; reflexivity]|exact ready62|exact ready24| |].
  - intros r [H|H]; in_cases H; repeat constructor.
  - exists cp, cn, c0. split; [exact E1|]. split; [exact E2|]. split; [exact E3|]. split.
    + apply (V [GStr "b"] [3] SumW); [repeat constructor|exact I].
    + assert (F : fst (hist_fill cast_x86 Fin powlib (fun _ l => l) (sources (hist_goals h24)) h24 exA CNone) = cn) by (rewrite E2; reflexivity).
      rewrite <- F. vm_compute. reflexivity.
Qed.
