(** C13, C14, C15 for histograms as they are written: from the texts of the constructor to the
    cells. *)
From Coq Require Import String Permutation.
From Verif Require Import Num NumFacts Base Tree Instr InstrSpec Axis Calc AxisMain Content Fill FillSpec FillMain Elem HistFill HistSpec
  HistFillProofs HistFillMain2 HistFillMain3 HistFillMain4 Order Expr ExprSpec ExprGood ExprNames HistNew HistNewSpec HistNewProofs Props_Expr
  Props_Hist Props_HistNew WrittenSpec WrittenProofs.
Open Scope string_scope.
Local Open Scope list_scope.
Notation choose := HistFillMain3.gather.

(** ** C13: filling Hist(axes, weight=w, filter=f) is filling Hist(axes, weight=w) with only the rows
    on which [f] is true: if the two held the same before, they hold the same after, whatever the
    weight (none, a number or an expression).  The profiled quantities of rejected rows must be
    finite (C13_nan_profile_refuted). *)
Theorem C13_filter_as_written : forall cast rnd user order w h h0 srcs srcs0 A len rows c c0,
  broadcasts user -> powers user -> is_order order -> w_filter w <> None ->
  new_hist py_sorted tree_sorted nodefs (w_axes w) (w_weight w) (w_filter w) = Ok h ->
  new_hist py_sorted tree_sorted nodefs (w_axes w) (w_weight w) None = Ok h0 ->
  Permutation srcs (sources (hist_goals h)) -> Permutation srcs0 (sources (hist_goals h0)) ->
  driven h A len -> driven h0 A len -> (exists s, hist_mentions h0 s /\ is_array A s) ->
  written_ready cast rnd user w A len rows c ->
  hist_ok (written_layout (unfiltered w)) (List.length (axes_of is_group w)) c0 ->
  (forall i r, i < len -> lets_through user w A i = false -> nth_error rows i = Some r -> finite_profiles r) ->
  holds_the_same w c c0 ->
  exists c' c0',
    hist_fill cast rnd user order srcs h A c = (c', None) /\
    hist_fill cast rnd user order srcs0 h0 (choose (passing user w A len) A) c0 = (c0', None) /\
    holds_the_same w c' c0'.
Proof.
  intros cast rnd user order w h h0 srcs srcs0 A len rows c c0 Hb Hp Ho Hf Hn Hn0 Hs Hs0 HD HD0 Har HR HO FP HS.
  destruct (written_filter cast rnd user order Hb Hp Ho w h h0 srcs srcs0 A len rows c c0) as (c' & c0' & E & E0 & V & _); auto.
  exists c', c0'. auto.
Qed.
Print Assumptions C13_filter_as_written.

(** ** C14: two fills with the parts of the data are one fill with all of it. *)
Theorem C14_chunks_as_written : forall cast rnd user order w h srcs A B C n m rows c,
  broadcasts user -> powers user -> is_order order ->
  new_hist py_sorted tree_sorted nodefs (w_axes w) (w_weight w) (w_filter w) = Ok h ->
  Permutation srcs (sources (hist_goals h)) -> driven h C (n + m) ->
  args_ok h A n -> args_ok h B m -> chunked h A B C -> (exists s, hist_mentions h s /\ is_array A s) ->
  written_ready cast rnd user w C (n + m) rows c ->
  exists c1 c2 c3,
    hist_fill cast rnd user order srcs h A c = (c1, None) /\
    hist_fill cast rnd user order srcs h B c1 = (c2, None) /\
    hist_fill cast rnd user order srcs h C c = (c3, None) /\
    same_cells (written_layout w) c2 c3.
Proof.
  intros cast rnd user order w h srcs A B C n m rows c Hb Hp Ho Hn Hs HD HA HB HC Har HR.
  destruct (written_is_ready cast rnd user Hb Hp w h C (n + m) rows c Hn HD HR) as (WF & NB & AO & RDY & _).
  destruct (C14_chunks_end_to_end cast rnd user order h srcs A B C n m rows c Ho Hs WF NB HA HB HC Har RDY) as (c1 & c2 & c3 & E1 & E2 & E3 & S & _).
  rewrite (whole_layout w h Hn) in S. exists c1, c2, c3. auto.
Qed.
Print Assumptions C14_chunks_as_written.

(** ** C15: the rows in another order. *)
Theorem C15_row_order_as_written : forall cast rnd user order w h srcs A n idx rows c,
  broadcasts user -> powers user -> is_order order ->
  new_hist py_sorted tree_sorted nodefs (w_axes w) (w_weight w) (w_filter w) = Ok h ->
  Permutation srcs (sources (hist_goals h)) -> driven h A n ->
  Permutation idx (seq 0 n) -> (exists s, hist_mentions h s /\ is_array A s) ->
  written_ready cast rnd user w A n rows c ->
  exists c1 c2, hist_fill cast rnd user order srcs h A c = (c1, None) /\
    hist_fill cast rnd user order srcs h (choose idx A) c = (c2, None) /\ same_content c1 c2.
Proof.
  intros cast rnd user order w h srcs A n idx rows c Hb Hp Ho Hn Hs HD HI Har HR.
  destruct (written_is_ready cast rnd user Hb Hp w h A n rows c Hn HD HR) as (WF & NB & AO & RDY & _).
  exact (C15_row_order_end_to_end cast rnd user order h srcs A n idx rows c Ho Hs WF NB AO HI Har RDY).
Qed.
Print Assumptions C15_row_order_as_written.

(** ** C23: histograms whose texts have the same values on the data hold the same, however the texts
    are spelt. *)
Theorem C23_spelling_as_written : forall cast rnd user order w w' h h' srcs srcs' A len rows c,
  broadcasts user -> powers user -> is_order order ->
  new_hist py_sorted tree_sorted nodefs (w_axes w) (w_weight w) (w_filter w) = Ok h ->
  new_hist py_sorted tree_sorted nodefs (w_axes w') (w_weight w') (w_filter w') = Ok h' ->
  Permutation srcs (sources (hist_goals h)) -> Permutation srcs' (sources (hist_goals h')) ->
  driven h A len -> driven h' A len ->
  written_ready cast rnd user w A len rows c -> written_ready cast rnd user w' A len rows c ->
  written_layout w = written_layout w' -> written_mode w = written_mode w' ->
  exists c1 c2, hist_fill cast rnd user order srcs h A c = (c1, None) /\
    hist_fill cast rnd user order srcs' h' A c = (c2, None) /\
    forall ks ss kd, in_shape (written_layout w) ss -> has_column (written_layout w) kd ->
      cell (written_layout w) c1 ks ss (column_of (written_layout w) kd) =
      cell (written_layout w) c2 ks ss (column_of (written_layout w) kd).
Proof.
  intros cast rnd user order w w' h h' srcs srcs' A len rows c Hb Hp Ho Hn Hn' Hs Hs' HD HD' HR HR' EL EM.
  destruct (written_fill cast rnd user Hb Hp order w h srcs A len rows c Ho Hn Hs HD HR) as (c1 & E1 & V1).
  destruct (written_fill cast rnd user Hb Hp order w' h' srcs' A len rows c Ho Hn' Hs' HD' HR') as (c2 & E2 & V2).
  exists c1, c2. split; auto. split; auto. intros ks ss kd Hss Hkd. rewrite (V1 ks ss kd Hss Hkd).
  rewrite <- EL, <- EM in V2. rewrite (V2 ks ss kd Hss Hkd). reflexivity.
Qed.
Print Assumptions C23_spelling_as_written.

(** ** The case of C62: Hist(groupby("g"), bin("x + y", 4, 0, 8), profile("2*y*x"), weight="w*w",
    filter="x < 3 and g != 'c'"), on three rows of which the second is rejected. *)
Definition h62u : hist := {|
  h_group := h_group h62; h_fixed := h_fixed h62; h_prof := h_prof h62;
  h_weight := Some (WxTree (TCall "numpy.multiply" [TName "w"; TName "w"])) |}.
Example new62u : new_hist py_sorted tree_sorted nodefs (w_axes w62) (w_weight w62) None = Ok h62u.
Proof. vm_compute. reflexivity. Qed.
Example driven62u : driven h62u exA 3.
Proof.
  split; [intros t H; in_cases H; dd_tac|]. split; [intros t c H S; in_cases H; sub_tac|].
  left. exists "g". split; [exists (TName "g"); split; [left; reflexivity|constructor]|eexists; reflexivity].
Qed.
Example C13_written_case : passing powlib w62 exA 3 = [0; 2] /\ exists c' c0',
  hist_fill cast_x86 Fin powlib (fun _ l => l) (sources (hist_goals h62)) h62 exA CNone = (c', None) /\
  hist_fill cast_x86 Fin powlib (fun _ l => l) (sources (hist_goals h62u)) h62u (choose [0; 2] exA) CNone = (c0', None) /\
  holds_the_same w62 c' c0' /\ cell (written_layout w62) c' [GStr "a"] [1] 2 = nz 49.
Proof.
  split; [vm_compute; reflexivity|].
  destruct (C13_filter_as_written cast_x86 Fin powlib (fun _ l => l) w62 h62 h62u (sources (hist_goals h62)) (sources (hist_goals h62u)) exA 3 rows62 CNone CNone)
    as (c' & c0' & E & E0 & V);
    [exact powlib_broadcasts|exact powlib_powers|intros t l; auto|discriminate|exact new62|exact new62u|auto|auto|exact driven62|exact driven62u
    |exists "g"; split; [exists (TName "g"); split; [left; reflexivity|constructor]|eexists; reflexivity]|exact ready62|left; reflexivity| | |].
  - intros i r Hi Hl Hr. destruct i as [|[|[|i]]]; [..|lia]; try (vm_compute in Hl; discriminate Hl). injection Hr as <-. repeat constructor.
  - intros ks ss kd _ _. unfold cell. destruct ks; reflexivity.
  - exists c', c0'. split; [exact E|]. split; [exact E0|]. split; [exact V|].
    assert (F : fst (hist_fill cast_x86 Fin powlib (fun _ l => l) (sources (hist_goals h62)) h62 exA CNone) = c') by (rewrite E; reflexivity).
    rewrite <- F. vm_compute. reflexivity.
Qed.
Example C15_written_case : exists c1 c2,
  hist_fill cast_x86 Fin powlib (fun _ l => l) (sources (hist_goals h62)) h62 exA CNone = (c1, None) /\
  hist_fill cast_x86 Fin powlib (fun _ l => l) (sources (hist_goals h62)) h62 (choose [2; 0; 1] exA) CNone = (c2, None) /\ same_content c1 c2.
Proof.
  refine (C15_row_order_as_written cast_x86 Fin powlib (fun _ l => l) w62 h62 (sources (hist_goals h62)) exA 3 [2; 0; 1] rows62 CNone powlib_broadcasts powlib_powers
    _ new62 _ driven62 _ _ ready62).
  - intros t l; auto.
  - auto.
  - apply (Permutation_cons_app [0; 1] [] 2). apply Permutation_refl.
  - exists "g"; split; [exists (TName "g"); split; [left; reflexivity|constructor]|eexists; reflexivity].
Qed.
Example C14_written_case : exists c1 c2 c3,
  hist_fill cast_x86 Fin powlib (fun _ l => l) (sources (hist_goals h62)) h62 (choose [0; 1] exA) CNone = (c1, None) /\
  hist_fill cast_x86 Fin powlib (fun _ l => l) (sources (hist_goals h62)) h62 (choose [2] exA) c1 = (c2, None) /\
  hist_fill cast_x86 Fin powlib (fun _ l => l) (sources (hist_goals h62)) h62 exA CNone = (c3, None) /\
  same_cells (written_layout w62) c2 c3.
Proof.
  assert (AR : exists s, hist_mentions h62 s /\ is_array exA s)
    by (exists "g"; split; [exists (TName "g"); split; [left; reflexivity|constructor]|eexists; reflexivity]).
  destruct (written_is_ready cast_x86 Fin powlib powlib_broadcasts powlib_powers w62 h62 exA 3 rows62 CNone new62 driven62 ready62) as (_ & _ & AO & _).
  refine (C14_chunks_as_written cast_x86 Fin powlib (fun _ l => l) w62 h62 (sources (hist_goals h62)) (choose [0; 1] exA) (choose [2] exA) exA 2 1 rows62 CNone
    powlib_broadcasts powlib_powers _ new62 _ driven62 _ _ _ _ ready62).
  - intros t l; auto.
  - auto.
  - apply (HistFillMain3.gather_args h62 exA 3 [0; 1] AO); [intros i [<-|[<-|[]]]; lia|exact AR].
  - apply (HistFillMain3.gather_args h62 exA 3 [2] AO); [intros i [<-|[]]; lia|exact AR].
  - intros s Hs. assert (Hr : In s (written_reads w62)).
    { apply (C62_reads_only_written_fields w62 h62 s new62); auto. intros f H. vm_compute in H. destruct H. }
    vm_compute in Hr. repeat (destruct Hr as [<-|Hr]; [first [left; eexists; eexists; split; [reflexivity|split; [reflexivity|reflexivity]]|right; split; reflexivity]|]). destruct Hr.
  - destruct AR as (s & M & l & E). exists s. split; auto. unfold is_array, choose. rewrite E. eauto.
Qed.

(** The same histogram spelt otherwise: y + x, x*y*2, and not (x >= 3 or g == 'c'). *)
Definition w62b : written := {|
  w_axes := [(AGroupby "g", XName "g");
             (ABin "x + y" 4 (nz 0) (nz 8) true true true true, XBin OAdd (XName "y") (XName "x"));
             (AProfile "x*y*2", XBin OMul (XBin OMul (XName "x") (XName "y")) (s_num (nz 2)))];
  w_weight := Some (WExpr (XBin OMul (XName "w") (XName "w")));
  w_filter := Some (XNot (XOr [XCmp (XName "x") [(OGe, s_num (nz 3))]; XCmp (XName "g") [(OEq, XLit (SStr "c"))]])) |}.
Example new62b : new_hist py_sorted tree_sorted nodefs (w_axes w62b) (w_weight w62b) (w_filter w62b) = Ok h62.
Proof. vm_compute. reflexivity. Qed.
Example ready62b : written_ready cast_x86 Fin powlib w62b exA 3 rows62 CNone.
Proof.
  split; [intros p H; in_cases H; discriminate|].
  split; [intros f H; vm_compute in H; destruct H|].
  split.
  { intros s H. vm_compute in H. repeat (destruct H as [<-|H]; [split; [left; discriminate|intros l E; inversion E; reflexivity]|]). destruct H. }
  split.
  { intros i Hi. destruct i as [|[|[|i]]]; [..|lia]; (split; [intros s H; in_cases H; faith_tac|split; [eexists; vm_compute; reflexivity|]]);
      intros n H1 H2; vm_compute in H2; exact H2. }
  split; [vm_compute; reflexivity|].
  split; [intros p H; in_cases H; exact I|].
  split; [intros i p e x _ H; in_cases H; discriminate|].
  split; [intros r k H Hk; in_cases H; simpl in Hk; destruct Hk as [Hk|[]]; inversion Hk; discriminate|].
  split; [unfold layout_ok; simpl; lia|]. split; [left; reflexivity|].
  right. unfold rows62. apply Forall_forall. intros r H. in_cases H; intros [K|[]]; discriminate K.
Qed.
Example C23_written_case : exists c1 c2,
  hist_fill cast_x86 Fin powlib (fun _ l => l) (sources (hist_goals h62)) h62 exA CNone = (c1, None) /\
  hist_fill cast_x86 Fin powlib (fun _ l => l) (rev (sources (hist_goals h62))) h62 exA CNone = (c2, None) /\
  cell (written_layout w62) c1 [GStr "a"] [2] 2 = cell (written_layout w62) c2 [GStr "a"] [2] 2.
Proof.
  destruct (C23_spelling_as_written cast_x86 Fin powlib (fun _ l => l) w62 w62b h62 h62 (sources (hist_goals h62)) (rev (sources (hist_goals h62))) exA 3 rows62 CNone)
    as (c1 & c2 & E1 & E2 & V);
    [exact powlib_broadcasts|exact powlib_powers|intros t l; auto|exact new62|exact new62b|auto|symmetry; apply Permutation_rev|exact driven62|exact driven62
    |exact ready62|exact ready62b|reflexivity|reflexivity|].
  exists c1, c2. split; auto. split; auto. apply (V [GStr "a"] [2] SumW); [vm_compute; repeat constructor|exact I].
Qed.
