(** C67: which expressions, and which histograms, are accepted. *)
From Coq Require Import String Permutation.
From Verif Require Import Num NumFacts Base Tree Instr InstrSpec Axis Calc AxisMain Content Fill FillSpec FillMain Elem HistFill HistSpec
  HistFillProofs HistFillMain HistFillMain3 HistFillMain4 Order Expr ExprSpec ExprGood ExprFacts ExprLower ExprMain ExprPlain ExprAcceptSpec ExprAccept
  ExprNames HistNew HistNewSpec HistNewProofs Props_Expr Props_Hist Props_HistNew.
Open Scope string_scope.
Local Open Scope list_scope.

(** ** An expression of the class of C21 and C22 that uses every operator where the language has it
    ([accept]) is accepted, lowered, and has the value it has as written, as soon as there is one
    row that gives it a value. *)
Theorem C67_expression_accepted : forall user field s v,
  broadcasts user -> powers user ->
  ExprGood.plain s -> typed s = true -> tame user field s ->
  (forall n sign, In (n, sign) (names_at None s) ->
     sign = true /\ forall x, field n = Ok x -> exists b, x = VBool b) ->
  seval user field s = Ok v ->
  accept user true s ->
  exists e t v', parsed s = Ok e /\ lowered e = Ok t /\ reval user field t = Ok v' /\ same_arg v v'.
Proof.
  intros user field s v Hb Hp PL TY TA HN S A.
  destruct (parse_accepts user Hb Hp field py_sorted py_sorted_perm s true v PL TA S A) as (e & E & _).
  destruct (C22_expression_value user field s v e Hb Hp PL TY TA HN S E) as (t & v' & T & R & SA).
  exists e, t, v'. repeat split; assumption.
Qed.
Print Assumptions C67_expression_accepted.

(** ** A histogram whose expressions are of the class is constructed. *)

(** The texts use every operator where the language has it; the filter is a comparison or logic.
    With a filter, the weight stands in a product. *)
Definition acceptable user (w : written) : Prop :=
  (forall p, In p (w_axes w) -> fst p <> ANull /\ accept user true (snd p)) /\
  match w_weight w with
  | Some (WExpr s) => accept user (match w_filter w with None => true | Some _ => false end) s
  | _ => True
  end /\
  match w_filter w with
  | Some f => accept user true f /\ logical f = true /\ match f with XName _ => False | _ => True end
  | None => True
  end.

Section New.
  Variable cast : Num -> Z.
  Variable rnd : Qc -> Num.
  Variable user : string -> list arg -> res val.
  Hypothesis Hb : broadcasts user.
  Hypothesis Hp : powers user.
  Variable field : string -> res val.
  Notation faith := (faithful user field).

  Lemma text_parsed rel s a : faith s -> seval user field s = Ok a -> accept user rel s ->
    exists e t v', parse py_sorted nodefs rel s = Ok e /\ (rel = true -> lowered e = Ok t /\ reval user field t = Ok v' /\ same_arg a v') /\ (logical s = true -> shaped s e).
  Proof.
    intros (PL & TY & TA & HN) S A.
    destruct (parse_accepts user Hb Hp field py_sorted py_sorted_perm s rel a PL TA S A) as (e & E & _ & B).
    destruct rel.
    - destruct (C22_expression_value user field s a e Hb Hp PL TY TA HN S E) as (t & v' & T & R & SA). exists e, t, v'. auto.
    - exists e, (TName ""), a. split; [exact E|]. split; [discriminate|exact B].
  Qed.
  Lemma axis_total s v : faith s -> src_value user field s = Ok v -> accept user true s -> exists e t, parsed s = Ok e /\ lowers e = Ok t.
  Proof.
    intros F V A. unfold src_value in V. apply bind_ok in V as (a & S & _). destruct (text_parsed true s a F S A) as (e & t & ? & E & L & _).
    destruct (L eq_refl) as (T & _). exists e. destruct e; eexists; (split; [exact E|first [reflexivity|exact T]]).
  Qed.
  Lemma trees_total keep (axes : list (axis * src)) : (forall p, In p axes -> exists e t, parsed (snd p) = Ok e /\ lowers e = Ok t) ->
    exists es, mapM (fun p : axis * src => do e <- parsed (snd p); Ok (fst p, e)) axes = Ok es /\ exists g, trees tree_sorted keep es = Ok g.
  Proof.
    induction axes as [|[a s] axes IH]; intros H; [exists []; split; [reflexivity|exists []; reflexivity]|].
    destruct IH as (es & Es & g & G); [intros p K; apply H; right; exact K|].
    destruct (H (a, s)) as (e & t & P & L); [left; reflexivity|]. cbn [fst snd] in P.
    exists ((a, e) :: es). cbn [mapM fst snd]. rewrite P. cbn [bind]. rewrite Es. split; [reflexivity|].
    unfold trees in *. cbn [filter fst]. destruct (keep a); [|eauto]. cbn [mapM fst snd]. rewrite L. cbn [bind]. rewrite G. cbn [bind]. eauto.
  Qed.
  Lemma weight_total e s x : faith s -> parsed s = Ok e -> src_number user field s = Ok x -> isnan x = false ->
    exists y, weight_of tree_sorted e = Ok y.
  Proof.
    intros F P N Z. unfold src_number in N. apply bind_ok in N as (v & V & N). destruct (parsed_value user Hb Hp field s e v F P V) as (t & T & E).
    assert (G : exists y, (do t <- lowered e; Ok (WxTree t)) = Ok y) by (rewrite T; cbn [bind]; eauto).
    destruct e as [c| | | | | | | |]; try exact G. injection T as <-. unfold value in E. cbn [reval bind] in E.
    destruct c as [[y|y|y|]| |]; try discriminate E; injection E as <-; try discriminate N. injection N as ->.
    destruct x; try discriminate Z; eexists; reflexivity.
  Qed.

  Theorem new_total w r : faithful_row user field w -> written_row cast rnd user field w = Ok r -> isnan (r_w r) = false ->
    acceptable user w -> exists h, new_hist py_sorted tree_sorted nodefs (w_axes w) (w_weight w) (w_filter w) = Ok h.
  Proof.
    intros (HF & HW) R Z (A1 & A2 & A3). unfold written_row in R.
    apply bind_ok in R as (ks & K & R). apply bind_ok in R as (ss & S & R). apply bind_ok in R as (ps & P & R). apply bind_ok in R as (x & X & R). injection R as <-. cbn [r_w] in Z.
    assert (VAL : forall p, In p (w_axes w) -> exists v, src_value user field (snd p) = Ok v).
    { intros p I. apply mapM_ok in K. apply mapM_ok in S. apply mapM_ok in P.
      assert (FIND : forall {X} keep (F : axis * src -> res X) ys, Forall2 (fun p y => F p = Ok y) (axes_of keep w) ys -> keep (fst p) = true -> exists y, F p = Ok y).
      { intros X0 keep F ys H KP. assert (Ip : In p (axes_of keep w)) by (apply filter_In; auto). clear - H Ip. induction H as [|q y l ys E H IH]; [destruct Ip|].
        destruct Ip as [->|Ip]; eauto. }
      destruct (is_group (fst p)) eqn:G.
      { destruct (FIND _ _ _ _ K G) as (y & Y). cbn beta in Y. apply bind_ok in Y as (v & V & _). eauto. }
      destruct (is_fixed (fst p)) eqn:Fx.
      { destruct (FIND _ _ _ _ S Fx) as (y & Y). cbn beta in Y. apply bind_ok in Y as (v & V & _). eauto. }
      assert (Pr : is_profile (fst p) = true).
      { destruct (A1 p I) as (N & _). destruct (fst p); try discriminate G; try discriminate Fx; try reflexivity; congruence. }
      destruct (FIND _ _ _ _ P Pr) as (y & Y). cbn beta in Y. apply bind_ok in Y as (v & V & _). unfold src_number in V. apply bind_ok in V as (v' & V & _). eauto. }
    assert (AX : forall p, In p (w_axes w) -> exists e t, parsed (snd p) = Ok e /\ lowers e = Ok t).
    { intros p I. destruct (VAL p I) as (v & V). apply (axis_total _ v); [apply HF; apply in_app_iff; left; apply in_map; exact I|exact V|apply A1; exact I]. }
    unfold new_hist. change (parse_top py_sorted nodefs) with parsed.
    destruct (trees_total is_group _ AX) as (es & Es & g & G). destruct (trees_total is_fixed _ AX) as (es1 & Es1 & f & Fx).
    destruct (trees_total is_profile _ AX) as (es2 & Es2 & pr & Pr). rewrite Es in Es1, Es2. injection Es1 as <-. injection Es2 as <-.
    rewrite Es. cbn [bind]. rewrite G. cbn [bind]. rewrite Fx. cbn [bind]. rewrite Pr. cbn [bind].
    unfold written_weight in X. apply bind_ok in X as (y & Y & X).
    destruct (w_filter w) as [fs|] eqn:EF.
    - destruct A3 as (AF & LF & NF). apply bind_ok in X as (b & B & X).
      assert (FF : faith fs) by (apply HF; unfold written_exprs; rewrite EF; apply in_app_iff; right; apply in_app_iff; right; left; reflexivity).
      destruct (src_truth_arg user field fs b B) as (a & Sa & Ta). destruct (text_parsed true fs a FF Sa AF) as (e & t & ? & E & L & SH). destruct (L eq_refl) as (T & _).
      assert (OK : filter_type_ok e = true).
      { specialize (SH LF). unfold shaped in SH. destruct fs; try discriminate LF; try destruct NF; destruct e; try discriminate SH; reflexivity. }
      rewrite E. cbn [bind]. rewrite OK. cbn [bind].
      destruct (w_weight w) as [wt|] eqn:EW.
      + unfold faithful_weight in HW. rewrite EW, EF in HW. destruct HW as ((q & Q) & SP).
        assert (WF : faith (wsrc_src wt) /\ src_number user field (wsrc_src wt) = Ok (Fin q) /\ accept user false (wsrc_src wt)).
        { unfold given_weight in Q. rewrite EW in Q. destruct wt as [v|ws].
          - injection Q as ->. cbn [wsrc_src]. destruct (repr_faithful user field q) as (F1 & F2). split; [exact F1|]. split; [exact F2|]. cbn. destruct (qltb q qc0); exact I.
          - cbn [wsrc_src]. split; [|split; [exact Q|exact A2]]. apply HF. unfold written_exprs. rewrite EW. apply in_app_iff. right. left. reflexivity. }
        destruct WF as (WF & WN & WA). destruct (product_faithful user field fs (wsrc_src wt) b q FF WF B WN SP) as (PF & PN).
        assert (PA : accept user true (weighted_filter fs (wsrc_src wt))).
        { cbn. repeat split; auto. }
        destruct (src_number_arg user field _ _ PN) as (a' & Sa' & _). destruct (text_parsed true _ a' PF Sa' PA) as (e' & t' & ? & E' & ?).
        destruct (weight_total e' _ _ PF E' PN) as (y' & Y'); [destruct b; reflexivity|].
        assert (NW : new_weight py_sorted tree_sorted nodefs (Some wt) (Some (fs, e)) = Ok (Some y')).
        { unfold new_weight. change (parse_top py_sorted nodefs) with parsed. destruct wt; rewrite E'; cbn [bind]; rewrite Y'; reflexivity. }
        rewrite NW. cbn [bind]. eauto.
      + cbn [new_weight Expr.totree]. rewrite T. cbn [bind]. eauto.
    - cbn [bind]. destruct (w_weight w) as [[v|ws]|] eqn:EW; cbn [new_weight bind]; [eauto| |eauto].
      injection X as ->. unfold given_weight in Y. rewrite EW in Y.
      assert (WF : faith ws) by (apply HF; unfold written_exprs; rewrite EW; apply in_app_iff; right; left; reflexivity).
      destruct (src_number_arg user field _ _ Y) as (a' & Sa' & _). destruct (text_parsed true _ a' WF Sa' A2) as (e' & t' & ? & E' & ?).
      destruct (weight_total e' _ _ WF E' Y Z) as (y' & Y'). change (parse_top py_sorted nodefs) with parsed. rewrite E'. cbn [bind]. rewrite Y'. cbn [bind]. eauto.
  Qed.
End New.

Theorem C62_accepted : forall cast rnd user field w r,
  broadcasts user -> powers user -> acceptable user w ->
  faithful_row user field w -> written_row cast rnd user field w = Ok r -> isnan (r_w r) = false ->
  exists h, new_hist py_sorted tree_sorted nodefs (w_axes w) (w_weight w) (w_filter w) = Ok h.
Proof. intros cast rnd user field w r Hb Hp A F R Z. exact (new_total cast rnd user Hb Hp field w r F R Z A). Qed.
Print Assumptions C62_accepted.

(** ** Cases.  (x + 1)**2 < y and z in {1, -2}: the base varies. *)
Definition c67_src : src :=
  XAnd [XCmp (XBin OPow (XBin OAdd (XName "x") (lit 1)) (lit 2)) [(OLt, XName "y")];
        XCmp (XName "z") [(OIn, XSet [lit 1; XNeg (lit 2)])]].
Definition c67_row (x : Z) (s : string) : res val := Ok (VNum (nz (if String.eqb s "y" then 100 else x))).
Example C67_accept : accept powlib true c67_src.
Proof.
  cbn. repeat split; try discriminate. left. exists (c67_row 1), (c67_row 2), (AV (VNum (nz 2))), (AV (VNum (nz 3))).
  split; [cbn; repeat split; eexists; eexists; split; reflexivity|]. split; [cbn; repeat split; eexists; eexists; split; reflexivity|].
  split; [vm_compute; reflexivity|]. split; [vm_compute; reflexivity|].
  intros [H|[(v & H1 & H2)|(l & m & H & _)]]; [vm_compute in H; discriminate H| |discriminate H].
  rewrite <- H1 in H2. vm_compute in H2. discriminate H2.
Qed.
Example C67_case : exists e t, parsed c67_src = Ok e /\ lowered e = Ok t /\ reval powlib (c67_row 1) t = Ok (AV (VBool true)).
Proof.
  destruct (C67_expression_accepted powlib (c67_row 1) c67_src (AV (VBool true)) powlib_broadcasts powlib_powers) as (e & t & v' & E & T & R & S).
  - vm_compute. repeat split; discriminate.
  - reflexivity.
  - cbn. repeat split; try no_nan_tac; try finite_tac.
  - intros n sg H. vm_compute in H. destruct H.
  - vm_compute. reflexivity.
  - exact C67_accept.
  - assert (v' = AV (VBool true)) as ->.
    { assert (A : exists b, v' = AV (VBool b)).
      { revert R. vm_compute in E. injection E as <-. vm_compute in T. injection T as <-. vm_compute. intros R. injection R as <-. eauto. }
      destruct A as (b & ->). destruct S as [S|[(v & H1 & H2)|(l & m & H & _)]]; [congruence| |discriminate H]. injection H1 as <-. injection H2 as <-. reflexivity. }
    eauto.
Qed.
(** The histogram of C62. *)
Example C62_accepted_case : exists h, new_hist py_sorted tree_sorted nodefs (w_axes w62) (w_weight w62) (w_filter w62) = Ok h.
Proof.
  destruct ready62 as (_ & _ & _ & F & _).
  refine (C62_accepted cast_x86 Fin powlib (field_at exA 0) w62 (row62 "a" 2 2 4) powlib_broadcasts powlib_powers _ (F 0%nat _) _ _).
  - split; [|split].
    + intros p H. in_cases H; (split; [discriminate|cbn; auto]).
    + cbn. auto.
    + cbn. repeat split; discriminate.
  - lia.
  - vm_compute. reflexivity.
  - reflexivity.
Qed.

(** ** What is refused although it has a value as written *)

(** Two constants with **, %, // or ^. *)
Theorem C67_constants_refuted : forall o s t,
  In o [OPow; OMod; OFloorDiv; OXor] -> parsed (XBin o (XLit s) (XLit t)) = Err KeyError.
Proof. intros o s t H. in_cases H; reflexivity. Qed.
(** Also when the operands only turn out to be constants: (x - x)**2. *)
Theorem C67_cancelled_refuted :
  parsed (XBin OPow (XBin OSub (XName "x") (XName "x")) (lit 2)) = Err KeyError /\
  forall user field q, field "x" = Ok (VNum (Fin q)) -> exists v, seval user field (XBin OSub (XName "x") (XName "x")) = Ok (AV (VNum v)).
Proof. split; [vm_compute; reflexivity|]. intros user field q H. cbn. rewrite H. cbn. eauto. Qed.
(** Bitwise and / or of a field and anything. *)
Theorem C67_bitwise_refuted : forall o n b e, o = OBitAnd \/ o = OBitOr ->
  parsed (XBin o (XName n) b) <> Ok e /\ parsed (XBin o b (XName n)) <> Ok e.
Proof.
  intros o n b e H. split; intros P; cbn [parse nodefs bind] in P.
  - apply bind_ok in P as (y & _ & P). destruct H as [->| ->]; destruct y; discriminate P.
  - apply bind_ok in P as (y & _ & P). destruct H as [->| ->]; destruct y; discriminate P.
Qed.
(** A comparison used as a number, in a sum or in a product: (x < 3)*y. *)
Theorem C67_comparison_as_number_refuted : forall o l r b e, parsed (XBin o (XCmp l r) b) <> Ok e /\ parsed (XNeg (XCmp l r)) <> Ok e.
Proof. intros o l r b e. split; intros P; discriminate P. Qed.
(** A function or a constant as an operand of and: isnan(x) and y < 3; True and y < 3. *)
Theorem C67_call_in_logic_refuted : forall f s t e,
  parsed (XAnd [XCall f [XName s]; t]) <> Ok e /\ (forall c, parsed (XAnd [XLit c; t]) <> Ok e).
Proof.
  intros f s t e. split; [|intros c]; intros P; cbn [parse] in P; apply bind_ok in P as (l & L & P).
  - apply bind_ok in L as (x & X & L). cbn in X. injection X as <-. apply bind_ok in L as (ys & _ & L). injection L as <-. discriminate P.
  - cbn [bind] in L. apply bind_ok in L as (ys & _ & L). injection L as <-. discriminate P.
Qed.
Print Assumptions C67_constants_refuted.
Print Assumptions C67_cancelled_refuted.
Print Assumptions C67_bitwise_refuted.
Print Assumptions C67_comparison_as_number_refuted.
Print Assumptions C67_call_in_logic_refuted.
