(** C62: a histogram holds what its written expressions say, from the constructor to the cells. *)
From Coq Require Import String Permutation.
From Verif Require Import Num NumFacts Base Tree Instr InstrSpec Axis Calc AxisMain Content Fill FillSpec FillMain Elem HistFill HistSpec
  HistFillProofs HistFillMain3 HistFillMain4 Order Expr ExprSpec ExprGood ExprNames ExprDefs HistNew HistNewSpec HistNewProofs Props_Expr Props_Hist.
Open Scope string_scope.
Local Open Scope list_scope.

(** ** The constructor and the fill together.  The histogram is constructed from the texts of [w];
    the fill then adds, to the cell of every row as the texts say ([written_rows]), what that row
    adds, and nothing else changes.  A row that the filter rejects has weight 0. *)
Theorem C62_cells_hold_what_is_written : forall cast rnd user order w h srcs A len rows c,
  broadcasts user -> powers user -> is_order order ->
  new_hist py_sorted tree_sorted nodefs (w_axes w) (w_weight w) (w_filter w) = Ok h ->
  Permutation srcs (sources (hist_goals h)) -> driven h A len ->
  written_ready cast rnd user w A len rows c ->
  exists c', hist_fill cast rnd user order srcs h A c = (c', None) /\
    forall ks ss kd, in_shape (written_layout w) ss -> has_column (written_layout w) kd ->
      cell (written_layout w) c' ks ss (column_of (written_layout w) kd) =
      nadd (cell (written_layout w) c ks ss (column_of (written_layout w) kd))
           (nsum (map (row_adds (written_mode w) kd) (filter (in_cell ks ss) rows))).
Proof. intros cast rnd user order w h srcs A len rows c Hb Hp. apply written_fill; auto. Qed.

(** The fields that are required are among those that are written. *)
Theorem C62_reads_only_written_fields : forall w h s,
  new_hist py_sorted tree_sorted nodefs (w_axes w) (w_weight w) (w_filter w) = Ok h ->
  (forall f, In f (written_calls w) -> lib_find f axis_library = None) ->
  hist_mentions h s -> In s (written_reads w).
Proof. intros w h s H C. exact (whole_reads w h H C s). Qed.

(** With definitions ([D], parsed to [defs]): the histogram is that of the texts with the
    definitions put in place. *)
Definition sub_w (D : string -> option src) (x : wsrc) : wsrc :=
  match x with WNumber v => WNumber v | WExpr s => WExpr (substitute D s) end.
Theorem C62_definitions : forall D defs axes weight filt h,
  (forall n, match D n with
             | Some d => exists e, parsed d = Ok e /\ defs n = Some e
             | None => defs n = None
             end) ->
  D "inf" = None -> D "nan" = None ->
  new_hist py_sorted tree_sorted nodefs (map (fun p => (fst p, substitute D (snd p))) axes)
    (option_map (sub_w D) weight) (option_map (substitute D) filt) = Ok h ->
  new_hist py_sorted tree_sorted defs axes weight filt = Ok h.
Proof.
  intros D defs axes weight filt h HD Hinf Hnan H.
  assert (PS : forall s e, parsed (substitute D s) = Ok e -> parse_top py_sorted defs s = Ok e)
    by (intros s e; exact (C55_definitions_substitute D defs s e HD)).
  unfold new_hist in *. apply bind_ok in H as (es & Es & H).
  assert (Es' : mapM (fun p : axis * src => do e <- parse_top py_sorted defs (snd p); Ok (fst p, e)) axes = Ok es).
  { apply mapM_ok in Es. apply mapM_ok. clear - Es PS. revert es Es. induction axes as [|[a s] axes IH]; intros es Es; inversion Es; subst; constructor; auto.
    cbn [fst snd] in *. match goal with H : (do e <- _; _) = Ok _ |- _ => apply bind_ok in H as (e & E & X) end.
    rewrite (PS _ _ E). exact X. }
  rewrite Es'. cbn [bind]. apply bind_ok in H as (g & G & H). rewrite G. cbn [bind].
  apply bind_ok in H as (f & F & H). rewrite F. cbn [bind]. apply bind_ok in H as (p & P & H). rewrite P. cbn [bind].
  apply bind_ok in H as (fl & Fl & H). apply bind_ok in H as (wx & W & H). injection H as <-.
  assert (SR : forall v, substitute D (repr_src v) = repr_src v).
  { intros []; simpl; [destruct (qltb q qc0); reflexivity|rewrite Hinf..|rewrite Hnan]; reflexivity. }
  assert (SW : forall x, wsrc_src (sub_w D x) = substitute D (wsrc_src x)) by (intros []; simpl; auto).
  destruct filt as [s|]; cbn [option_map] in Fl.
  - apply bind_ok in Fl as (e & E & Fl). rewrite (PS _ _ E). cbn [bind]. destruct (filter_type_ok e); [|discriminate]. injection Fl as <-. cbn [bind].
    destruct weight as [x|]; cbn [option_map] in W.
    + assert (W' : (do e <- parsed (weighted_filter (substitute D s) (wsrc_src (sub_w D x))); do y <- weight_of tree_sorted e; Ok (Some y)) = Ok wx)
        by (destruct x; exact W).
      rewrite SW in W'. change (weighted_filter (substitute D s) (substitute D (wsrc_src x))) with (substitute D (weighted_filter s (wsrc_src x))) in W'.
      apply bind_ok in W' as (e' & E' & W'). apply bind_ok in W' as (y & Y & W'). injection W' as <-.
      assert (N : new_weight py_sorted tree_sorted defs (Some x) (Some (s, e)) = Ok (Some y)).
      { assert (K : (do e <- parse_top py_sorted defs (weighted_filter s (wsrc_src x)); do y <- weight_of tree_sorted e; Ok (Some y)) = Ok (Some y))
          by (rewrite (PS _ _ E'); cbn [bind]; rewrite Y; reflexivity). destruct x; exact K. }
      rewrite N. reflexivity.
    + cbn [new_weight] in *. rewrite W. reflexivity.
  - injection Fl as <-. cbn [bind]. destruct weight as [[v|s]|]; cbn [option_map sub_w new_weight] in *; try (rewrite W; reflexivity).
    apply bind_ok in W as (e & E & W). rewrite (PS _ _ E). cbn [bind]. apply bind_ok in W as (y & Y & W). rewrite Y. injection W as <-. reflexivity.
Qed.

Print Assumptions C62_cells_hold_what_is_written.
Print Assumptions C62_reads_only_written_fields.
Print Assumptions C62_definitions.

(** ** Example: Hist(groupby("g"), bin("x + y", 4, 0, 8), profile("2*y*x"), weight="w*w",
    filter="x < 3 and g != 'c'"). *)
Definition w62 : written := {|
  w_axes := [(AGroupby "g", XName "g");
             (ABin "x + y" 4 (nz 0) (nz 8) true true true true, XBin OAdd (XName "x") (XName "y"));
             (AProfile "2*y*x", XBin OMul (XBin OMul (s_num (nz 2)) (XName "y")) (XName "x"))];
  w_weight := Some (WExpr (XBin OMul (XName "w") (XName "w")));
  w_filter := Some (XAnd [XCmp (XName "x") [(OLt, s_num (nz 3))]; XCmp (XName "g") [(ONe, XLit (SStr "c"))]]) |}.
Definition h62 : hist := {|
  h_group := [(AGroupby "g", TName "g")];
  h_fixed := [(ABin "x + y" 4 (nz 0) (nz 8) true true true true, TCall "numpy.add" [TName "x"; TName "y"])];
  h_prof := [TCall "numpy.multiply" [TCall "numpy.multiply" [TName "x"; TName "y"]; TConst (knum (nz 2))]];
  h_weight := Some (WxTree (TCall "numpy.multiply"
    [TCall "where" [TCall "numpy.logical_and"
                      [TCall "numpy.not_equal" [TConst (KS (SStr "c")); TName "g"];
                       TCall "numpy.less" [TName "x"; TConst (knum (nz 3))]];
                    TConst (knum (nz 1)); TConst (knum (nz 0))];
     TCall "numpy.multiply" [TName "w"; TName "w"]])) |}.
Example new62 : new_hist py_sorted tree_sorted nodefs (w_axes w62) (w_weight w62) (w_filter w62) = Ok h62.
Proof. vm_compute. reflexivity. Qed.
Definition row62 (k : string) (i p w : Z) : row :=
  {| r_keys := [Some (GStr k)]; r_slots := [Some i]; r_prof := [(nz p, nmul (nz p) (nz p))]; r_w := nz w; r_w2 := nmul (nz w) (nz w) |}.
(** The arguments exA of Props_Hist.v: the filter rejects the second row (x = 3). *)
Definition rows62 : list row := [row62 "a" 2 2 4; row62 "b" 3 6 0; row62 "a" 1 0 49].
Ltac faith_tac :=
  unfold faithful; split; [vm_compute; repeat split; try (right; reflexivity); intros ? ? ?; tauto
    |split; [reflexivity|split; [simpl; repeat split; try no_nan_tac; try finite_tac|
      let H := fresh in intros ? ? H; vm_compute in H; destruct H]]].
Example ready62 : written_ready cast_x86 Fin powlib w62 exA 3 rows62 CNone.
Proof.
  split; [intros p H; in_cases H; discriminate|].
  split; [intros f H; vm_compute in H; destruct H|].
  split.
  { intros s H. vm_compute in H. repeat (destruct H as [<-|H]; [split; [left; discriminate|intros l E; inversion E; reflexivity]|]). destruct H. }
  split.
  { intros i Hi. destruct i as [|[|[|i]]]; [..|lia]; (split; [intros s H; in_cases H; faith_tac|split; [eexists; vm_compute; reflexivity|]]);
      intros n H1 H2; vm_compute in H2; exact H2. }
  split; [vm_compute; reflexivity|].
  split; [intros p H; in_cases H; exact I|].
  split; [intros i p e x _ H; in_cases H; discriminate|].
  split; [intros r k H Hk; in_cases H; simpl in Hk; destruct Hk as [Hk|[]]; inversion Hk; discriminate|].
  split; [unfold layout_ok; simpl; lia|]. split; [left; reflexivity|].
  right. unfold rows62. apply Forall_forall. intros r H. in_cases H; intros [K|[]]; discriminate K.
Qed.
Ltac dd_tac := repeat match goal with
  | |- data_driven (TCall _ _) => apply dd_call
  | |- data_driven _ => constructor
  | |- exists a, In a _ /\ _ =>
      first [eexists; split; [left; reflexivity|reflexivity] | eexists; split; [right; left; reflexivity|reflexivity]]
  | |- forall a, In a _ -> is_const a = false -> data_driven a =>
      let H := fresh in let H' := fresh in intros ? H H'; in_cases H; try discriminate H'
  end.
Example driven62 : driven h62 exA 3.
Proof.
  split; [intros t H; in_cases H; dd_tac|]. split; [intros t c H S; in_cases H; sub_tac|].
  left. exists "g". split; [exists (TName "g"); split; [left; reflexivity|constructor]|eexists; reflexivity].
Qed.
(** Cell a, bin 2: sum of weights 4, sum of weight times profile 8. *)
Example C62_example : exists c', hist_fill cast_x86 Fin powlib (fun _ l => l) (sources (hist_goals h62)) h62 exA CNone = (c', None) /\
  cell (written_layout w62) c' [GStr "a"] [2] 2 = nz 4 /\ cell (written_layout w62) c' [GStr "a"] [2] 0 = nz 8 /\
  cell (written_layout w62) c' [GStr "b"] [3] 2 = nz 0.
Proof.
  destruct (C62_cells_hold_what_is_written cast_x86 Fin powlib (fun _ l => l) w62 h62 (sources (hist_goals h62)) exA 3 rows62 CNone) as (c' & E & V);
    [exact powlib_broadcasts|exact powlib_powers|intros t l; auto|exact new62|auto|exact driven62|exact ready62|].
  exists c'. split; auto. split; [|split].
  - refine (eq_trans (V [GStr "a"] [2] SumW _ I) _); [vm_compute; repeat constructor|vm_compute; reflexivity].
  - refine (eq_trans (V [GStr "a"] [2] (SumWX 0) _ _) _); [vm_compute; repeat constructor|simpl; lia|vm_compute; reflexivity].
  - refine (eq_trans (V [GStr "b"] [3] SumW _ I) _); [vm_compute; repeat constructor|vm_compute; reflexivity].
Qed.

(** ** What is refused, and what is accepted but cannot be filled *)

(** A filter that is the name of a boolean field is refused. *)
Theorem C62_name_as_filter_refuted : forall axes weight n h,
  new_hist py_sorted tree_sorted nodefs axes weight (Some (XName n)) <> Ok h.
Proof.
  intros axes weight n h H. apply new_inv in H as (p & fl & _ & _ & _ & _ & (e & P & T & _) & _). injection P as <-. discriminate T.
Qed.
Print Assumptions C62_name_as_filter_refuted.

(** The filter "True" is accepted, but the histogram cannot be filled. *)
Theorem C62_constant_filter_refuted : exists h,
  new_hist py_sorted tree_sorted nodefs [(ABin "x" 4 (nz 0) (nz 8) true true true true, XName "x")] None (Some (XLit (SBool true))) = Ok h /\
  snd (hist_fill cast_x86 Fin powlib (fun _ l => l) (sources (hist_goals h)) h exA CNone) = Some TypeError.
Proof.
  exists {| h_group := []; h_fixed := [(ABin "x" 4 (nz 0) (nz 8) true true true true, TName "x")]; h_prof := [];
            h_weight := Some (WxTree (TCall "where" [TConst (KS (SBool true)); TConst (knum (nz 1)); TConst (knum (nz 0))])) |}.
  split; vm_compute; reflexivity.
Qed.
Print Assumptions C62_constant_filter_refuted.

(** An infinite number as weight together with a filter is read as the field "inf". *)
Theorem C62_infinite_weight_refuted : exists h A,
  new_hist py_sorted tree_sorted nodefs [(ABin "x" 4 (nz 0) (nz 8) true true true true, XName "x")] (Some (WNumber PInf))
    (Some (XCmp (XName "x") [(OLt, s_num (nz 3))])) = Ok h /\
  cell (hist_layout h) (fst (hist_fill cast_x86 Fin powlib (fun _ l => l) (sources (hist_goals h)) h A CNone)) [] [1] 0 = nz 5.
Proof.
  exists {| h_group := []; h_fixed := [(ABin "x" 4 (nz 0) (nz 8) true true true true, TName "x")]; h_prof := [];
            h_weight := Some (WxTree (TCall "numpy.multiply" [TCall "where" [TCall "numpy.less" [TName "x"; TConst (knum (nz 3))]; TConst (knum (nz 1)); TConst (knum (nz 0))]; TName "inf"])) |},
    (fun s => if String.eqb s "x" then Some (IAr [VNum (nz 1)]) else if String.eqb s "inf" then Some (ISc (VNum (nz 5))) else None).
  split; vm_compute; reflexivity.
Qed.
Print Assumptions C62_infinite_weight_refuted.
