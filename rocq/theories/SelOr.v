(** Compound selections on a groupby axis. *)
From Coq Require Import String Permutation.
From Verif Require Import Base Num NumFacts Axis AxisSpec Calc Content Fill FillSpec FillProofs FillProofs2 FillProofs3 FillMain
  Tree Order Expr HistAlg AlgSpec HistAlgProofs HistAlgMain Nd NdProofs Proj ProjSpec ProjProofs ProjMain ProjMain2 ProjFill ProjLaws ProjDrop Remap Select SelSpec SelContent SelMain SelFill SelHist.
Local Open Scope list_scope.

Section Or.
  Variable mb : string -> option Num.
  Variable parse : string -> expr.
  Variable tol : Num.
  (** Every clause compares [x] with a constant. *)
  Definition clauses (x : expr) (es : list expr) (cs : list (scmp * cst)) : Prop :=
    Forall2 (fun e cv => compares (asconst mb) e x (fst cv) (snd cv)) es cs.
  Definition key_says (cv : scmp * cst) : gkey -> res bool := key_cmp (fst cv) (snd cv).

  Lemma clause_ok e x c v g : compares (asconst mb) e x c v -> expr_same x (parse g) = true -> clause mb parse tol (AGroupby g) e = Ok (Some (key_cmp c v)).
  Proof. intros Hc Hs. unfold clause. rewrite (compares_normal _ _ _ _ _ Hc). cbn [bind]. unfold parsed. cbn [axis_expr]. rewrite Hs. reflexivity. Qed.
  Lemma clause_other e x c v a : compares (asconst mb) e x c v -> expr_same x (parse (axis_expr a)) = false -> clause mb parse tol a e = Ok None.
  Proof. intros Hc Hs. unfold clause. rewrite (compares_normal _ _ _ _ _ Hc). cbn [bind]. unfold parsed. rewrite Hs. reflexivity. Qed.
  (** A later disjunct. *)
  Lemma or_loop_more x g es cs : clauses x es cs -> expr_same x (parse g) = true -> forall s f,
    or_loop mb parse tol (AGroupby g) (map (fun e => EAnd [e]) es) (Some s) f =
    Ok (Some (match cs with [] => (Some s, f) | [cv] => (Some COr, Fr (CBase (key_says cv)) s) | _ => (Some COr, Fr (CBase (key_says (last cs (SEq, KSet [])))) COr) end)).
  Proof.
    intros H Hs. induction H as [|e cv es cs Hc H IH]; intros s f; auto. cbn [map or_loop and_loop]. rewrite (clause_ok e x _ _ g Hc Hs). cbn [bind and_loop]. rewrite IH.
    destruct cs as [|cv2 [|cv3 cs]]; reflexivity.
  Qed.
  Lemma or_loop_ok x g e1 c1 es cs f : compares (asconst mb) e1 x (fst c1) (snd c1) -> clauses x es cs -> expr_same x (parse g) = true ->
    exists f', or_loop mb parse tol (AGroupby g) (map (fun e => EAnd [e]) (e1 :: es)) None f =
    Ok (Some (match cs with [] => (Some (CBase (key_says c1)), f') | [cv] => (Some COr, Fr (CBase (key_says cv)) (CBase (key_says c1))) | _ => (Some COr, Fr (CBase (key_says (last cs (SEq, KSet [])))) COr) end)).
  Proof.
    intros H1 H Hs. eexists. cbn [map or_loop and_loop]. rewrite (clause_ok e1 x _ _ g H1 Hs). cbn [bind and_loop].
    rewrite (or_loop_more x g es cs H Hs). destruct cs as [|cv2 [|cv3 cs]]; reflexivity.
  Qed.
  Lemma or_loop_other x a es cs f : clauses x es cs -> es <> [] -> expr_same x (parse (axis_expr a)) = false ->
    or_loop mb parse tol a (map (fun e => EAnd [e]) es) None f = Ok None.
  Proof. intros H Hn Hs. destruct H as [|e cv es cs Hc H]; [congruence|]. cbn [map or_loop and_loop]. rewrite (clause_other e x _ _ a Hc Hs). reflexivity. Qed.
  Lemma endless pn n k : pn k = Ok false -> eval_clo n (CBase pn) COr COr k = Err RecursionError.
  Proof. intros H. induction n as [|n IH]; auto. cbn [eval_clo]. destruct n; cbn [eval_clo] in *; auto; rewrite H; cbn [bind]; auto. Qed.

  (** The group axis at position [p] is the only one with the quantity [x]. *)
  Definition only_group (h : hobj) (whole x : expr) (p : nat) (g : string) : Prop :=
    nth_error (o_group h) p = Some (AGroupby g) /\ expr_same x (parse g) = true /\
    (forall i b, nth_error (o_group h) i = Some b -> i < p -> expr_same x (parse (axis_expr b)) = false /\ expr_same whole (parse (axis_expr b)) = false).

  Lemma find_or whole l axes p g s f : 
    nth_error axes p = Some (AGroupby g) ->
    or_loop mb parse tol (AGroupby g) l None (Fr (CBase (fun _ => Err NameError)) (CBase (fun _ => Err NameError))) = Ok (Some (Some s, f)) ->
    (forall i b, nth_error axes i = Some b -> i < p -> is_group b = true /\ or_loop mb parse tol b l None (Fr (CBase (fun _ => Err NameError)) (CBase (fun _ => Err NameError))) = Ok None /\ expr_same (EOr l) (parse (axis_expr b)) = false) ->
    forall k c v cl w1 w2, find_hit mb parse tol whole (EOr l) c v k axes cl w1 w2 = Ok (k + p, (AGroupby g, CutKeys (eval_clo recursion_limit (slice1 f) (slice2 f) s))).
  Proof.
    revert p. induction axes as [|b axes IH]; intros p N Ho Hb k c v cl w1 w2; [destruct p; discriminate|]. cbn [find_hit]. destruct p as [|p].
    - inversion N; subst b. unfold logical, or_hit. cbn [is_group]. rewrite Ho. cbn [bind]. rewrite Nat.add_0_r. reflexivity.
    - destruct (Hb 0 b eq_refl ltac:(lia)) as (B1 & B2 & B3). unfold logical, or_hit. rewrite B1, B2. cbn [bind]. unfold parsed. rewrite B3.
      assert (E : match b with ACut _ => if expr_same whole (parse (axis_expr b)) then Ok (inl (ANull, CutSlice (zslice 1 2))) else Ok (inr (NotSelected None false)) | _ => Ok (@inr hit selres (NotSelected None false)) end = Ok (inr (NotSelected None false))) by (destruct b; auto; discriminate).
      rewrite E. cbn [bind]. rewrite (IH p N Ho) by (intros i b' Hi Hlt; apply (Hb (S i) b'); auto; lia). f_equal. f_equal. lia.
  Qed.
  Lemma select_or h l p g s f : nth_error (o_group h) p = Some (AGroupby g) ->
    or_loop mb parse tol (AGroupby g) l None (Fr (CBase (fun _ => Err NameError)) (CBase (fun _ => Err NameError))) = Ok (Some (Some s, f)) ->
    (forall i b, nth_error (o_group h) i = Some b -> i < p -> is_group b = true /\ or_loop mb parse tol b l None (Fr (CBase (fun _ => Err NameError)) (CBase (fun _ => Err NameError))) = Ok None /\ expr_same (EOr l) (parse (axis_expr b)) = false) ->
    hist_select mb parse tol (view h) (EOr l) = select_axis (view h) p (AGroupby g) (CutKeys (eval_clo recursion_limit (slice1 f) (slice2 f) s)) true.
  Proof.
    intros N Ho Hb. unfold hist_select, select1. cbn [normalizeexpr bind]. unfold view at 1 2. cbn [p_head with_content o_group o_fixed].
    assert (Hp : p < length (o_group h)) by (apply nth_error_Some; congruence).
    rewrite (find_or (EOr l) l (o_group h ++ o_fixed h) p g s f); auto.
    - rewrite nth_error_app1; auto.
    - intros i b Hi Hlt. rewrite nth_error_app1 in Hi by lia. apply (Hb i b); auto.
  Qed.
End Or.
