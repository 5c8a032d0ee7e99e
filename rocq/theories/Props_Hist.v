(** Properties of a whole Hist.fill, from the expressions and the given arrays to the contents:
    C10, C13-C17, C19 end to end. *)
From Coq Require Import String Permutation Sorted.
From Verif Require Import Num NumFacts Base Tree Instr InstrSpec InstrProofs Axis Calc AxisMain Content Fill FillSpec FillMain Elem HistFill HistSpec HistFillProofs HistFillMain HistFillMain2 HistFillMain3 HistFillMain4 AxisSpec KeySpec KeyMain.
Local Open Scope list_scope.
Open Scope string_scope.

(** ** A concrete histogram: groupby("g"), bin("x + y", 4, 0, 8), weight="w". *)
Definition exh : hist := {|
  h_group := [(AGroupby "g", TName "g")];
  h_fixed := [(ABin "x + y" 4 (nz 0) (nz 8) true true true true, TCall "numpy.add" [TName "x"; TName "y"])];
  h_prof := [];
  h_weight := Some (WxTree (TName "w")) |}.
Definition nocall : string -> list arg -> res val := fun _ _ => Err NameError.
Definition exA : arrays := fun s =>
  if String.eqb s "g" then Some (IAr [VStr "a"; VStr "b"; VStr "a"])
  else if String.eqb s "x" then Some (IAr [VNum (nz 1); VNum (nz 3); VNum (nz 0)])
  else if String.eqb s "y" then Some (ISc (VNum (nz 1)))
  else if String.eqb s "w" then Some (IAr [VNum (nz 2); VNum (nz 5); VNum (nz 7)])
  else None.
Definition exrow (k : string) (i : Z) (w : Z) : row :=
  {| r_keys := [Some (GStr k)]; r_slots := [Some i]; r_prof := []; r_w := nz w; r_w2 := nmul (nz w) (nz w) |}.
Definition exrows : list row := [exrow "a" 2 2; exrow "b" 3 5; exrow "a" 1 7].
Notation fillx := (hist_fill cast_x86 Fin nocall (fun _ l => l) (sources (hist_goals exh)) exh).

Ltac in_cases H := simpl in H; repeat (destruct H as [H|H]; [subst|]); [..|destruct H].
Ltac plain_tac := repeat match goal with
  | |- plain _ => constructor
  | |- lib_find _ _ = None => reflexivity
  | |- forall a, In a _ -> plain a => let H := fresh in intros ? H; in_cases H
  | |- data_driven (TCall _ _) => apply dd_call
  | |- data_driven _ => constructor
  | |- exists a, In a _ /\ _ => eexists; split; [left; reflexivity|reflexivity]
  | |- forall a, In a _ -> is_const a = false -> data_driven a =>
      let H := fresh in let H' := fresh in intros ? H H'; in_cases H; try discriminate H'
  end.
Example exh_wf : hist_wf exh.
Proof.
  split; [intros p H; in_cases H; reflexivity|]. split; [intros p H; in_cases H; split; [reflexivity|discriminate]|].
  intros t H. in_cases H; split; plain_tac.
Qed.
Ltac sub_tac := repeat match goal with
  | H : subtree (TBcast _) (TCall _ _) |- _ => inversion H; clear H; subst
  | H : subtree (TBcast _) (TName _) |- _ => inversion H
  | H : subtree (TBcast _) (TPred _ _) |- _ => inversion H
  | H : subtree (TBcast _) (TConst _) |- _ => inversion H
  | H : In _ _ |- _ => progress in_cases H
  end.
Example exh_no_bcast : no_bcast exh.
Proof. intros t c H S. in_cases H; sub_tac. Qed.
Lemma ment_x s (P : string -> Prop) : P "g" -> P "x" -> P "y" -> P "w" -> hist_mentions exh s -> P s.
Proof.
  intros Hg Hx Hy Hw (t & Ht & M). in_cases Ht; inversion M; subst; auto.
  match goal with H : In _ _ |- _ => in_cases H end;
    match goal with H : mentions _ (TName _) |- _ => inversion H; subst; auto end.
Qed.
Example exA_ok : args_ok exh exA 3.
Proof.
  split.
  - intros s. apply (ment_x s (fun s => available exA s /\ right_length exA 3 s)); (split; [left; discriminate|intros l E; inversion E; reflexivity]).
  - left. exists "g". split; [exists (TName "g"); split; [left; reflexivity|constructor]|eexists; reflexivity].
Qed.
Example ex_rows_of : rows_of cast_x86 Fin nocall exh exA 3 = Ok exrows.
Proof. vm_compute. reflexivity. Qed.
Example ex_ready : hist_ready cast_x86 Fin nocall exh exA 3 exrows CNone.
Proof.
  split; [exact ex_rows_of|]. split; [intros p H; in_cases H; exact I|].
  split; [intros i _ p e x H; in_cases H; discriminate|].
  split; [intros r k H Hk; in_cases H; simpl in Hk; destruct Hk as [Hk|[]]; inversion Hk; discriminate|].
  split; [unfold layout_ok; simpl; lia|]. split; [left; reflexivity|]. left. reflexivity.
Qed.

Section Props.
  Variable cast : Num -> Z.
  Variable rnd : Qc -> Num.
  Variable user : string -> list arg -> res val.
  Variable order : tree -> list tree -> list tree.

  (** ** C10: with every field usable, filling is: evaluate the axis, profile and weight
      expressions on each row, find the row's cell, and add what the row adds; all other cells keep
      their values.  (hist_ready: the expressions have values, keys are not NaN, cuts are boolean,
      the content belongs to this histogram.) *)
  Theorem C10_fill_end_to_end h srcs A len rows c :
    is_order order -> Permutation srcs (sources (hist_goals h)) -> hist_wf h -> no_bcast h ->
    args_ok h A len -> hist_ready cast rnd user h A len rows c ->
    exists c', hist_fill cast rnd user order srcs h A c = (c', None) /\
      forall ks ss kd, in_shape (hist_layout h) ss -> has_column (hist_layout h) kd ->
        cell (hist_layout h) c' ks ss (column_of (hist_layout h) kd) =
        nadd (cell (hist_layout h) c ks ss (column_of (hist_layout h) kd))
             (nsum (map (row_adds (hist_mode h) kd) (filter (in_cell ks ss) rows))).
  Proof.
    intros Ho Hp Hwf Hnb HA HR. assert (Hpre := ready_pre cast rnd user _ _ _ _ _ Hwf HR).
    destruct (c10_fill _ _ _ _ _ Hpre) as (c' & E & _ & V). exists c'. split; auto.
    rewrite (fill_is_rows cast rnd user order h srcs Ho Hp Hwf Hnb A len rows); auto. apply HR.
  Qed.

  (** ** C14: two fills of [A] and [B] are one fill of their concatenation. *)
  Theorem C14_chunks_end_to_end h srcs A B C n m rows c :
    is_order order -> Permutation srcs (sources (hist_goals h)) -> hist_wf h -> no_bcast h ->
    args_ok h A n -> args_ok h B m -> chunked h A B C -> (exists s, hist_mentions h s /\ is_array A s) ->
    hist_ready cast rnd user h C (n + m) rows c ->
    exists c1 c2 c3,
      hist_fill cast rnd user order srcs h A c = (c1, None) /\
      hist_fill cast rnd user order srcs h B c1 = (c2, None) /\
      hist_fill cast rnd user order srcs h C c = (c3, None) /\
      same_cells (hist_layout h) c2 c3 /\ (length (h_group h) <= 1 -> same_content c2 c3).
  Proof.
    intros Ho Hp Hwf Hnb HA HB HC Har HR. assert (Hpre := ready_pre cast rnd user _ _ _ _ _ Hwf HR).
    eapply fill_chunks; eauto. apply HR.
  Qed.

  (** ** C15: permuting the rows of all the arrays alike does not change the content. *)
  Theorem C15_row_order_end_to_end h srcs A n idx rows c :
    is_order order -> Permutation srcs (sources (hist_goals h)) -> hist_wf h -> no_bcast h ->
    args_ok h A n -> Permutation idx (seq 0 n) -> (exists s, hist_mentions h s /\ is_array A s) ->
    hist_ready cast rnd user h A n rows c ->
    exists c1 c2, hist_fill cast rnd user order srcs h A c = (c1, None) /\
      hist_fill cast rnd user order srcs h (gather idx A) c = (c2, None) /\ same_content c1 c2.
  Proof.
    intros Ho Hp Hwf Hnb HA HP Har HR. assert (Hpre := ready_pre cast rnd user _ _ _ _ _ Hwf HR).
    eapply fill_permuted; eauto. apply HR.
  Qed.

  (** ** C13: a histogram with filter [f] holds what the histogram without it holds after filling
      only the rows on which [f] is true (its sums of squared weights are then counts too). *)
  Theorem C13_filter_end_to_end h f sf su A len rows :
    let hf := with_weight h (Some (WxTree (filter_tree f))) in
    let hu := with_weight h None in
    is_order order -> Permutation sf (sources (hist_goals hf)) -> Permutation su (sources (hist_goals hu)) ->
    hist_wf hf -> no_bcast hf -> args_ok hf A len -> (exists s, hist_mentions hu s /\ is_array A s) ->
    hist_ready cast rnd user hf A len rows CNone ->
    (forall i r, row_of cast rnd user hf (field_at A i) = Ok r -> passes user A f i = false -> finite_profiles r) ->
    exists c1 c2,
      hist_fill cast rnd user order sf hf A CNone = (c1, None) /\
      hist_fill cast rnd user order su hu (gather (filter (passes user A f) (seq 0 len)) A) CNone = (c2, None) /\
      forall ks ss kd, in_shape (hist_layout hf) ss -> has_column (hist_layout hf) kd ->
        cell (hist_layout hf) c1 ks ss (column_of (hist_layout hf) kd) =
        cell (hist_layout hu) c2 ks ss (column_of (hist_layout hu) match kd with SumW2 => SumW | _ => kd end).
  Proof.
    intros hf hu Ho Hsf Hsu Hwf Hnb HA Har HR Hfin.
    destruct (filter_e2e cast rnd user order h f sf su Ho Hsf Hsu Hwf Hnb A len rows HA Har HR) as (c1 & c2 & E1 & E2 & V).
    - intros r Hr Hk. destruct HR as (E & _). unfold rows_of in E. apply mapM_ok in E.
      assert (exists i, row_of cast rnd user hf (field_at A i) = Ok r) as (i & Er).
      { clear - E Hr. induction E; [destruct Hr|]. destruct Hr as [<-|Hr]; eauto. }
      apply (Hfin i r Er). assert (Er' := Er). apply row_with_weight in Er'. destruct Er' as (_ & E2 & _).
      apply filter_number in E2. destruct E2 as (v & b & Ev & Et & Ew).
      unfold passes. rewrite Ev, Et. unfold keeps in Hk. rewrite Ew, truth_one in Hk. auto.
    - exists c1, c2. split; auto. split; auto. intros ks ss kd Hs Hk. etransitivity; [exact (V ks ss kd Hs Hk)|]. destruct kd; reflexivity.
  Qed.

  (** ** C16: a fill that fails on its arguments leaves every cell as it was, and later fills do
      what they would have done without it. *)
  Definition changed_nothing h srcs A c : Prop :=
    exists e c', hist_fill cast rnd user order srcs h A c = (c', Some e) /\
      same_cells (hist_layout h) c' c /\ (c <> CNone -> c' = c) /\
      forall A', hist_fill cast rnd user order srcs h A' c' = hist_fill cast rnd user order srcs h A' c.

  Lemma prefilled_nothing h srcs A c :
    (exists e, hist_fill cast rnd user order srcs h A c = (prefill (hist_layout h) (length (h_group h)) c, Some e)) ->
    changed_nothing h srcs A c.
  Proof.
    intros (e & E). exists e, (prefill (hist_layout h) (length (h_group h)) c). split; auto.
    split; [apply prefill_cells|]. split; [destruct c; simpl; congruence|].
    intros A'. apply fill_prefilled.
  Qed.

  Theorem C16_missing_field_changes_nothing h srcs A c s :
    is_order order -> Permutation srcs (sources (hist_goals h)) ->
    hist_mentions h s -> ~ available A s -> changed_nothing h srcs A c.
  Proof. intros Ho Hp Hm Ha. apply prefilled_nothing. eapply fill_missing; eauto. Qed.

  Theorem C16_length_mismatch_changes_nothing h srcs A c s s' l l' :
    is_order order -> Permutation srcs (sources (hist_goals h)) ->
    hist_mentions h s -> hist_mentions h s' -> A s = Some (IAr l) -> A s' = Some (IAr l') ->
    length l <> length l' -> changed_nothing h srcs A c.
  Proof. intros. apply prefilled_nothing. eapply fill_lengths with (s := s) (s' := s'); eauto. Qed.

  (** Also when the fields are there but some expression raises on some row. *)
  Theorem C16_evaluation_error_changes_nothing h srcs A len c e :
    is_order order -> Permutation srcs (sources (hist_goals h)) -> hist_wf h -> no_bcast h ->
    args_ok h A len -> rows_of cast rnd user h A len = Err e -> changed_nothing h srcs A c.
  Proof.
    intros Ho Hp Hwf Hnb (H1 & H2) E. apply prefilled_nothing.
    assert (G := hist_fill_rows cast rnd user h Hwf A len H1 order srcs c Ho Hp).
    rewrite E in G. apply G; auto. destruct (fields_spec h srcs Hp Hnb) as (ns & E' & _). eauto.
  Qed.

  (** ** C17: scalars broadcast, named constants are overridable, keywords win, extra fields are
      ignored -- for the content and the error alike. *)
  Theorem C17_scalar_is_a_constant_column h srcs A s v len c :
    is_order order -> Permutation srcs (sources (hist_goals h)) ->
    args_ok h A len -> A s = Some (ISc v) ->
    hist_fill cast rnd user order srcs h A c =
    hist_fill cast rnd user order srcs h (set_field A s (IAr (repeat v len))) c.
  Proof. intros. apply fill_scalar; auto. Qed.

  Theorem C17_named_constants h srcs A s v c :
    is_order order -> Permutation srcs (sources (hist_goals h)) ->
    A s = None ->
    In (s, v) [("pi", VNum float_pi); ("e", VNum float_e); ("inf", VNum PInf); ("nan", VNum NaN)] ->
    hist_fill cast rnd user order srcs h A c = hist_fill cast rnd user order srcs h (set_field A s (ISc v)) c.
  Proof.
    intros Ho Hp E Hin. apply fill_named_constant; auto.
    destruct Hin as [H|[H|[H|[H|[]]]]]; injection H as <- <-; reflexivity.
  Qed.

  (** A named constant that is given is just a field: what the name stands for by default does not
      matter, each row sees the given value. *)
  Theorem C17_given_constant_is_a_field A s i v l :
    (A s = Some (ISc v) -> field_at A i s = Ok v) /\
    (A s = Some (IAr l) -> nth_error l i = Some v -> field_at A i s = Ok v).
  Proof. unfold field_at. split; [intros ->; auto|intros -> ->; auto]. Qed.

  Theorem C17_keywords_take_precedence h srcs dict dict' kw c :
    is_order order -> Permutation srcs (sources (hist_goals h)) ->
    (forall s, kw s = None -> dict s = dict' s) ->
    hist_fill cast rnd user order srcs h (chained dict kw) c = hist_fill cast rnd user order srcs h (chained dict' kw) c /\
    (forall s, kw s <> None -> chained dict kw s = kw s) /\ (forall s, kw s = None -> chained dict kw s = dict s).
  Proof.
    intros Ho Hp H. split; [apply fill_keywords; auto|]. unfold chained.
    split; intros s Hs; [destruct (kw s); congruence|rewrite Hs; auto].
  Qed.

  Theorem C17_extra_fields_are_ignored h srcs A s a c :
    is_order order -> Permutation srcs (sources (hist_goals h)) -> ~ hist_mentions h s ->
    hist_fill cast rnd user order srcs h (set_field A s a) c = hist_fill cast rnd user order srcs h A c.
  Proof.
    intros Ho Hp Hm. apply fill_agree; auto. intros s' Hs'. unfold set_field.
    destruct (String.eqb_spec s' s); congruence.
  Qed.
End Props.
Print Assumptions C10_fill_end_to_end.
Print Assumptions C14_chunks_end_to_end.
Print Assumptions C15_row_order_end_to_end.
Print Assumptions C13_filter_end_to_end.
Print Assumptions C16_missing_field_changes_nothing.
Print Assumptions C16_length_mismatch_changes_nothing.
Print Assumptions C16_evaluation_error_changes_nothing.
Print Assumptions C17_scalar_is_a_constant_column.
Print Assumptions C17_named_constants.
Print Assumptions C17_given_constant_is_a_field.
Print Assumptions C17_keywords_take_precedence.
Print Assumptions C17_extra_fields_are_ignored.

(** ** C19: fields lists, in order, exactly the names the expressions mention. *)
Theorem C19_fields_are_the_mentioned_names h srcs :
  Permutation srcs (sources (hist_goals h)) -> no_bcast h ->
  exists ns, fields srcs = Ok (ns, []) /\ Sorted str_le ns /\ forall s, In s ns <-> hist_mentions h s.
Proof. exact (fields_spec h srcs). Qed.
Print Assumptions C19_fields_are_the_mentioned_names.
Example C19_example : fields (sources (hist_goals exh)) = Ok (["g"; "w"; "x"; "y"], []).
Proof. vm_compute. reflexivity. Qed.

(** A constant axis besides a field makes [fields], and with it every fill, raise TypeError
    (sorting a number with strings): bin("x", ...), bin("1", ...). *)
Definition exconst : hist := {|
  h_group := [];
  h_fixed := [(ABin "x" 4 (nz 0) (nz 8) true true true true, TName "x");
              (ABin "1" 4 (nz 0) (nz 8) true true true true, TBcast (KS (SNum (nz 1))))];
  h_prof := []; h_weight := None |}.
Theorem C19_constant_axis_refuted :
  hist_wf exconst /\ hist_mentions exconst "x" /\
  fields (sources (hist_goals exconst)) = Err TypeError /\
  forall A c, snd (hist_fill cast_x86 Fin nocall (fun _ l => l) (sources (hist_goals exconst)) exconst A c) = Some TypeError.
Proof.
  split; [|split; [|split]].
  - split; [intros p []|]. split; [intros p H; in_cases H; (split; [reflexivity|discriminate])|].
    intros t H. in_cases H; split; plain_tac. discriminate.
  - exists (TName "x"). split; [left; reflexivity|constructor].
  - vm_compute. reflexivity.
  - intros A c. unfold hist_fill.
    destruct (instructions (fun _ l => l) (sources (hist_goals exconst)) (hist_goals exconst)) as [is|e] eqn:E; vm_compute in E.
    + cbn [bind]. replace (fields (sources (hist_goals exconst))) with (@Err (list string * list cst) TypeError) by (vm_compute; reflexivity).
      reflexivity.
    + discriminate.
Qed.
Print Assumptions C19_constant_axis_refuted.

(** ** The concrete cases *)
Example C10_end_to_end_example :
  let c := fst (fillx exA CNone) in
  cell (hist_layout exh) c [GStr "a"] [2] (column_of (hist_layout exh) SumW) = nz 2 /\
  cell (hist_layout exh) c [GStr "a"] [1] (column_of (hist_layout exh) SumW2) = nz 49 /\
  cell (hist_layout exh) c [GStr "b"] [3] (column_of (hist_layout exh) SumW) = nz 5 /\ snd (fillx exA CNone) = None.
Proof. vm_compute. repeat split; f_equal; apply Qc_is_canon; reflexivity. Qed.
(** C16: without "w" the example fails; with "w" of another length too. *)
Example C16_example :
  hist_mentions exh "w" /\ ~ available (fun s => if String.eqb s "w" then None else exA s) "w" /\
  snd (fillx (fun s => if String.eqb s "w" then None else exA s) CNone) <> None /\
  snd (fillx (set_field exA "w" (IAr [VNum (nz 1)])) CNone) <> None.
Proof.
  split; [exists (TName "w"); split; [simpl; auto|constructor]|].
  split; [intros [H|H]; apply H; reflexivity|]. split; vm_compute; discriminate.
Qed.
(** C14, C15: the example splits into its first row and the other two; permuted by [2;0;1]. *)
Example C14_example :
  chunked exh (gather [0] exA) (gather [1; 2] exA) exA /\ args_ok exh (gather [0] exA) 1 /\ args_ok exh (gather [1; 2] exA) 2.
Proof.
  assert (M : exists s, hist_mentions exh s /\ is_array exA s).
  { exists "g". split; [exists (TName "g"); split; [left; reflexivity|constructor]|eexists; reflexivity]. }
  split; [|split].
  - intros s. apply (ment_x s (fun s =>
      (exists l l', gather [0] exA s = Some (IAr l) /\ gather [1; 2] exA s = Some (IAr l') /\ exA s = Some (IAr (l ++ l')%list)) \/
      (same_scalar (gather [0] exA s) (gather [1; 2] exA s) /\ exA s = gather [0] exA s))); try (left; eexists; eexists; repeat split; reflexivity). right. split; reflexivity.
  - apply (gather_args exh exA 3 [0]); auto using exA_ok. intros i [<-|[]]; lia.
  - apply (gather_args exh exA 3 [1; 2]); auto using exA_ok. intros i [<-|[<-|[]]]; lia.
Qed.
Example C15_example : Permutation [2; 0; 1] (seq 0 3).
Proof. apply (Permutation_cons_append [0; 1] 2). Qed.

(** C13: the example with filter="x < 2" instead of the weight. *)
Definition exf : tree := TCall "numpy.less" [TName "x"; TConst (knum (nz 2))].
Example C13_example :
  let hf := with_weight exh (Some (WxTree (filter_tree exf))) in
  hist_wf hf /\ no_bcast hf /\ args_ok hf exA 3 /\
  (exists rows, hist_ready cast_x86 Fin nocall hf exA 3 rows CNone) /\
  filter (passes nocall exA exf) (seq 0 3) = [0; 2].
Proof.
  cbv zeta. unfold filter_tree, exf.
  split; [|split; [|split; [|split]]].
  - split; [intros p H; in_cases H; reflexivity|]. split; [intros p H; in_cases H; split; [reflexivity|discriminate]|].
    intros t H. in_cases H; split; plain_tac.
  - intros t c H S. in_cases H; sub_tac.
  - split.
    + intros s (t & Ht & M).
      assert (Hs : s = "g" \/ s = "x" \/ s = "y").
      { in_cases Ht; repeat match goal with
          | H : mentions _ (TCall _ _) |- _ => inversion H; clear H; subst
          | H : mentions _ (TName _) |- _ => inversion H; clear H; subst
          | H : mentions _ (TConst _) |- _ => inversion H
          | H : In _ _ |- _ => progress in_cases H end; auto. }
      destruct Hs as [->|[->| ->]]; (split; [left; discriminate|intros l E; inversion E; reflexivity]).
    + left. exists "g". split; [exists (TName "g"); split; [left; reflexivity|constructor]|eexists; reflexivity].
  - exists [exrow "a" 2 1; exrow "b" 3 0; exrow "a" 1 1].
    split; [vm_compute; reflexivity|]. split; [intros p H; in_cases H; exact I|].
    split; [intros i _ p e x H; in_cases H; discriminate|].
    split; [intros r k H Hk; in_cases H; simpl in Hk; destruct Hk as [Hk|[]]; inversion Hk; discriminate|].
    split; [unfold layout_ok; simpl; lia|]. split; [left; reflexivity|]. left. reflexivity.
  - vm_compute. reflexivity.
Qed.

(** ** C10 once more, with nothing but displayed keys: after a fill, the cell with group keys [ks]
    and bin numbers [ss] has grown by what the rows add whose values these keys hold.  (With a
    profile, no fixed axis may drop a row.) *)
Theorem C10_cells_hold_the_rows_of_their_keys user order h srcs A len c :
  hist_wf h -> (forall p, In p (h_group h ++ h_fixed h)%list -> axis_fine (fst p)) ->
  is_order order -> Permutation srcs (sources (hist_goals h)) -> no_bcast h ->
  args_ok h A len -> (forall i, i < len -> row_fine user h (field_at A i)) ->
  (h_prof h = [] \/ forall i, i < len -> row_kept user h (field_at A i)) ->
  layout_ok (hist_layout h) -> hist_ok (hist_layout h) (length (h_group h)) c ->
  exists c', hist_fill cast_sat Fin user order srcs h A c = (c', None) /\
    forall ks ss kd, in_shape (hist_layout h) ss -> has_column (hist_layout h) kd ->
      exists sel xs, NoDup sel /\ (forall i, In i sel <-> i < len /\ belongs user h (field_at A i) ks ss) /\
        mapM (fun i => adds user h (field_at A i) kd) sel = Ok xs /\
        cell (hist_layout h) c' ks ss (column_of (hist_layout h) kd) =
        nadd (cell (hist_layout h) c ks ss (column_of (hist_layout h) kd)) (nsum xs).
Proof. intros Hwf Hax. exact (cells_by_keys user order h Hwf Hax srcs A len c). Qed.
Print Assumptions C10_cells_hold_the_rows_of_their_keys.
Example C10_keys_example :
  (forall p, In p (h_group exh ++ h_fixed exh)%list -> axis_fine (fst p)) /\
  (forall i, i < 3 -> row_fine nocall exh (field_at exA i)) /\
  belongs nocall exh (field_at exA 0) [GStr "a"] [2] /\ ~ belongs nocall exh (field_at exA 0) [GStr "a"] [1].
Proof.
  split; [|split; [|split]].
  - intros p H. in_cases H; [constructor|]. eapply (fine_bin "x + y" 4 (qz 0) (qz 8)); [reflexivity|lia|]. unfold int_max. lia.
  - intros i Hi. split; [|split].
    + intros p H. in_cases H; destruct i as [|[|[|i]]]; try lia; eexists; (split; [vm_compute; reflexivity|]); try discriminate; eexists; reflexivity.
    + intros t [].
    + destruct i as [|[|[|i]]]; try lia; eexists; vm_compute; reflexivity.
  - split; repeat constructor.
    + eexists. split; [vm_compute; reflexivity|reflexivity].
    + do 2 eexists. split; [vm_compute; reflexivity|]. split; [vm_compute; reflexivity|].
      split; [right|left; vm_compute; reflexivity]. split; auto. split; [|discriminate]. f_equal.
  - intros (_ & B). inversion B as [|? ? ? ? (v & k & E1 & E2 & H) _]; subst. vm_compute in E1, E2.
    injection E1 as <-. injection E2 as <-. destruct H as (_ & [H|(H & _)]); [vm_compute in H|]; discriminate.
Qed.
