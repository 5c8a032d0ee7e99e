(** From the expression of a selection to what happens to the histogram. *)
From Coq Require Import String Permutation Lqa.
From Verif Require Import Base Num NumFacts Axis AxisSpec AxisProofs AxisProofs2 AxisMain Calc Content Fill FillSpec FillProofs FillProofs2 FillProofs3 FillMain
  Tree Order Expr ExprFacts HistAlg AlgSpec HistAlgProofs HistAlgMain Nd NdProofs Proj ProjSpec ProjProofs ProjMain ProjMain2 ProjFill ProjLaws ProjDrop Remap Select SelSpec SelAxis SelAxis2 SelContent SelMain SelFill.
Local Open Scope list_scope.

(** ** groupbin *)
Lemma gz_cmp w org cl v z j : (0 < this w)%Q ->
  in_interval (Fin (org + w * qz z)%Qc) (nadd (Fin (org + w * qz z)%Qc) (Fin w)) cl (negb cl) (Fin v) ->
  nltb (Fin (org + w * qz z)%Qc) (Fin (org + w * qz j)%Qc) = (if cl then nltb (Fin v) (Fin (org + w * qz j)%Qc) else nleb (Fin v) (Fin (org + w * qz j)%Qc)).
Proof.
  intros Hw H. unfold in_interval in H. rewrite nleb_nltb by reflexivity. cbn [nltb nadd] in *.
  assert (Z1 : (z < j)%Z -> (this (org + w * qz z + w) <= this (org + w * qz j))%Q).
  { intros L. qc_push. assert (inject_Z (z + 1) <= inject_Z j)%Q as L' by (rewrite <- Zle_Qle; lia). rewrite inject_Z_plus in L'. rewrite ?this_qz.
    assert (0 <= this w * (inject_Z j - (inject_Z z + inject_Z 1)))%Q by (apply Qmult_le_0_compat; lra). change (inject_Z 1) with 1%Q in *. lra. }
  assert (Z2 : (j <= z)%Z -> (this (org + w * qz j) <= this (org + w * qz z))%Q).
  { intros L. qc_push. assert (inject_Z j <= inject_Z z)%Q as L' by (rewrite <- Zle_Qle; lia). rewrite ?this_qz.
    assert (0 <= this w * (inject_Z z - inject_Z j))%Q by (apply Qmult_le_0_compat; lra). lra. }
  assert (Z3 : (z < j)%Z -> (this (org + w * qz z) < this (org + w * qz j))%Q).
  { intros L. specialize (Z1 L). revert Z1. qc_push. lra. }
  destruct (Z_lt_dec z j) as [L|L].
  - specialize (Z1 L). specialize (Z3 L). assert (qltb (org + w * qz z) (org + w * qz j) = true) as -> by (apply qltb_iff; auto).
    destruct H as (_ & H). symmetry. destruct cl; cbn [negb] in H.
    + apply qltb_iff. destruct H as [H|(H & _)]; [|discriminate]. apply qltb_iff in H. lra.
    + apply negb_true_iff, not_true_iff_false. rewrite qltb_iff. destruct H as [H|(_ & H & _)].
      * apply qltb_iff in H. lra.
      * assert (I : forall a b, Fin a = Fin b -> a = b) by congruence. apply I in H. subst v. lra.
  - assert (j <= z)%Z as L' by lia. specialize (Z2 L'). assert (qltb (org + w * qz z) (org + w * qz j) = false) as -> by (apply not_true_iff_false; rewrite qltb_iff; lra).
    destruct H as (H & _). symmetry. apply not_true_iff_false. destruct cl.
    + rewrite qltb_iff. destruct H as [H|(_ & H & _)]; [apply qltb_iff in H; lra|]. assert (I : forall a b, Fin a = Fin b -> a = b) by congruence. apply I in H. subst v. lra.
    + destruct H as [H|(H & _)]; [|discriminate]. apply qltb_iff in H. rewrite negb_true_iff, <- not_true_iff_false, qltb_iff. lra.
Qed.

Definition group_edge (w org e : Num) : Prop := exists z, e = nadd org (nmul w (nz z)).
Lemma groupbin_select_ok e w org nf cl ax c v x tol a' cut : mk_groupbin e (Fin w) (Fin org) nf cl = Ok ax -> as_real v = Some (Fin x) ->
  axis_select ax c v tol = Ok (Selected a' cut) ->
  exists e0 p, a' = ax /\ cut = CutKeys p /\ group_edge (Fin w) (Fin org) e0 /\ nltb (absdiff (Fin x) e0) tol = true /\
    forall y k, y <> NaN -> groupbin_key Fin nf cl (Fin w) (Fin org) y = Some k -> p k = Ok (satisfies c e0 y).
Proof.
  intros Hm Hv E. assert (Hax : ax = AGroupbin e (Fin w) (Fin org) nf cl) by (unfold mk_groupbin in Hm; destruct (nleb _ _); [discriminate|inversion Hm; auto]). subst ax.
  pose proof (mk_groupbin_ok _ _ _ _ _ _ Hm) as Hw.
  cbn [axis_select] in E. unfold groupbin_select in E. rewrite Hv in E. cbn [is_ninf is_pinf isnan andb] in E.
  apply bind_ok' in E. destruct E as (r & Er & E). cbn zeta in E.
  set (e0 := nadd (nmul (nz r) (Fin w)) (Fin org)) in *.
  assert (Ee : e0 = Fin (org + w * qz r)%Qc) by (unfold e0, nz; cbn [nmul nadd]; f_equal; apply Qc_ext; qc_push; ring).
  destruct (nltb (absdiff (Fin x) e0) tol) eqn:Et; [|discriminate].
  assert (K : forall y k, y <> NaN -> groupbin_key Fin nf cl (Fin w) (Fin org) y = Some k ->
    exists lo, k = GNum lo /\ lo <> NaN /\ nltb lo e0 = (if cl then nltb y e0 else nleb y e0)).
  { intros y k Hy Hk. destruct y as [y| | |]; [| | |congruence].
    - destruct (c05 e w org nf cl _ y Hm) as (z & E1 & E2). rewrite E1 in Hk. inversion Hk; subst k. eexists. split; [reflexivity|]. split; [discriminate|].
      rewrite Ee. apply gz_cmp; auto.
    - unfold groupbin_key in Hk. rewrite groupbin_inf in Hk by auto. inversion Hk; subst k. exists PInf. rewrite Ee. repeat split; try discriminate. destruct cl; reflexivity.
    - unfold groupbin_key in Hk. rewrite groupbin_inf in Hk by auto. inversion Hk; subst k. exists NInf. rewrite Ee. repeat split; try discriminate. destruct cl; reflexivity. }
  exists e0. destruct (cl && scmp_is c SLt || negb cl && scmp_is c SLe) eqn:C1; [|destruct (cl && scmp_is c SGe || negb cl && scmp_is c SGt) eqn:C2; [|discriminate]];
    inversion E; subst a' cut; eexists; (split; [reflexivity|]); (split; [reflexivity|]); (split; [exists r; unfold e0, nz; cbn [nmul nadd]; f_equal; apply Qc_ext; qc_push; ring|]); (split; [exact Et|]);
    intros y k Hy Hk; destruct (K y k Hy Hk) as (lo & -> & Hlo & L); cbn [key_cmp key_order]; f_equal.
  - rewrite L. destruct cl, c; try discriminate; reflexivity.
  - rewrite nleb_nltb by (rewrite ?Ee; destruct lo; auto; congruence). rewrite L. destruct cl, c; try discriminate; cbn [satisfies].
    + symmetry. apply nleb_nltb; rewrite ?Ee; auto. destruct y; auto; congruence.
    + rewrite nleb_nltb, negb_involutive by (rewrite ?Ee; auto; destruct y; auto; congruence). reflexivity.
Qed.
(** Comparisons with an infinity or with NaN that are accepted. *)
Lemma groupbin_select_inf e w org nf cl ax c v x tol a' cut : mk_groupbin e (Fin w) (Fin org) nf cl = Ok ax -> as_real v = Some x ->
  isfin x = false -> axis_select ax c v tol = Ok (Selected a' cut) ->
  exists p, a' = ax /\ cut = CutKeys p /\
    forall y k, groupbin_key Fin nf cl (Fin w) (Fin org) y = Some k -> p k = Ok (if scmp_is c SEq then isnan y else negb (isnan y)).
Proof.
  intros Hm Hv Hf E. assert (Hax : ax = AGroupbin e (Fin w) (Fin org) nf cl) by (unfold mk_groupbin in Hm; destruct (nleb _ _); [discriminate|inversion Hm; auto]). subst ax.
  pose proof (mk_groupbin_ok _ _ _ _ _ _ Hm) as Hw.
  assert (K : forall y k, groupbin_key Fin nf cl (Fin w) (Fin org) y = Some k -> nan_key k = isnan y).
  { intros y k Hk. destruct y as [y| | |].
    - destruct (c05 e w org nf cl _ y Hm) as (z & E1 & E2). rewrite E1 in Hk. inversion Hk; reflexivity.
    - unfold groupbin_key in Hk. rewrite groupbin_inf in Hk by auto. inversion Hk; reflexivity.
    - unfold groupbin_key in Hk. rewrite groupbin_inf in Hk by auto. inversion Hk; reflexivity.
    - rewrite (c05_nan _ _ _ _ _ _ Hm) in Hk. destruct nf; inversion Hk. reflexivity. }
  cbn [axis_select] in E. unfold groupbin_select in E. rewrite Hv in E.
  destruct x as [x| | |]; try discriminate; destruct c; cbn [is_ninf is_pinf isnan andb scmp_is orb] in E;
    try (unfold nsub in E; cbn [nneg nadd ndiv] in E; destruct (qltb w qc0); discriminate E);
    try (inversion E; subst a' cut; eexists; split; [reflexivity|]; split; [reflexivity|]; intros y k Hk; cbn [scmp_is]; rewrite (K y k Hk); reflexivity).
Qed.

(** ** Expressions *)
Section Hist.
  Variable mb : string -> option Num.
  Variable parse : string -> expr.
  Variable tol : Num.
  Lemma compares_normal e x c v : compares (asconst mb) e x c v -> normalizeexpr mb e = Ok (x, c, v).
  Proof. destruct 1 as [x k v H1 H2|x k v H1 H2|x k v H1 H2|x k v H1 H2|x k v H1 H2|x k v H1 H2|x k v H1 H2|x k v H1 H2|x k v H1 H2|x k v H1 H2]; cbn; rewrite H1, H2; reflexivity. Qed.
  Lemma logical_plain whole x c v a r : (forall l, x <> EOr l) -> expr_same whole (parse (axis_expr a)) = false \/ is_fixed a = false ->
    logical mb parse tol whole x c v a = Ok r ->
    if expr_same x (parse (axis_expr a)) then exists s, axis_select a c v tol = Ok s /\ match s with Selected a' t => r = inl (a', t) | _ => r = inr s end
    else r = inr (NotSelected None false).
  Proof.
    intros Hx Hw E. unfold logical, parsed in E.
    assert (E0 : (do o <- match x with EOr l => or_hit mb parse tol a l | _ => Ok None end; match o with Some r => Ok (inl r) | None => 
      match a with
      | ACut _ => if expr_same whole (parse (axis_expr a)) then Ok (inl (ANull, CutSlice (zslice 1 2)))
        else if expr_same x (parse (axis_expr a)) then do r <- axis_select a c v tol; match r with Selected a' s => Ok (inl (a', s)) | _ => Ok (inr r) end
        else Ok (inr (NotSelected None false))
      | _ => if expr_same x (parse (axis_expr a)) then do r <- axis_select a c v tol; match r with Selected a' s => Ok (inl (a', s)) | _ => Ok (inr r) end
        else Ok (inr (NotSelected None false)) end end) = Ok r) by exact E. clear E.
    assert (X : match x with EOr l => or_hit mb parse tol a l | _ => Ok None end = Ok (@None hit)) by (destruct x; auto; exfalso; eapply Hx; eauto).
    rewrite X in E0. cbn [bind] in E0.
    assert (E : (if expr_same x (parse (axis_expr a)) then do r <- axis_select a c v tol; match r with Selected a' s => Ok (inl (a', s)) | _ => Ok (inr r) end
        else Ok (inr (NotSelected None false))) = Ok r).
    { destruct a; auto. destruct Hw as [Hw|Hw]; [|discriminate]. rewrite Hw in E0. auto. }
    destruct (expr_same x (parse (axis_expr a))); [|inversion E; auto]. apply bind_ok' in E. destruct E as (s & Es & E). exists s. split; auto. destruct s; inversion E; auto.
  Qed.
  Lemma logical_first whole x c v a a' s : (forall l, x <> EOr l) -> expr_same whole (parse (axis_expr a)) = false \/ is_fixed a = false ->
    expr_same x (parse (axis_expr a)) = true -> axis_select a c v tol = Ok (Selected a' s) -> logical mb parse tol whole x c v a = Ok (inl (a', s)).
  Proof.
    intros Hx Hw Es Ea. unfold logical, parsed.
    assert (X : match x with EOr l => or_hit mb parse tol a l | _ => Ok None end = Ok (@None hit)) by (destruct x; auto; exfalso; eapply Hx; eauto).
    rewrite X. cbn [bind]. rewrite Es, Ea. cbn [bind]. destruct a; auto. destruct Hw as [Hw|Hw]; [|discriminate]. rewrite Hw. reflexivity.
  Qed.
  Lemma logical_other whole x c v a : (forall l, x <> EOr l) -> expr_same whole (parse (axis_expr a)) = false \/ is_fixed a = false ->
    expr_same x (parse (axis_expr a)) = false -> logical mb parse tol whole x c v a = Ok (inr (NotSelected None false)).
  Proof.
    intros Hx Hw Es. unfold logical, parsed.
    assert (X : match x with EOr l => or_hit mb parse tol a l | _ => Ok None end = Ok (@None hit)) by (destruct x; auto; exfalso; eapply Hx; eauto).
    rewrite X. cbn [bind]. rewrite Es. destruct a; auto. destruct Hw as [Hw|Hw]; [|discriminate]. rewrite Hw. reflexivity.
  Qed.
  Lemma find_hit_only whole x c v axes : (forall l, x <> EOr l) -> Forall (fun a => expr_same whole (parse (axis_expr a)) = false \/ is_fixed a = false) axes ->
    forall k cl w1 w2 p a' s, find_hit mb parse tol whole x c v k axes cl w1 w2 = Ok (p, (a', s)) ->
      exists a, k <= p /\ nth_error axes (p - k) = Some a /\ expr_same x (parse (axis_expr a)) = true /\ axis_select a c v tol = Ok (Selected a' s).
  Proof.
    intros Hx Hw. induction Hw as [|a axes Ha Hw IH]; intros k cl w1 w2 p a' s E; cbn [find_hit] in E.
    - destruct w1 as [b|]; [destruct (has_closedlow b)|]; discriminate.
    - apply bind_ok' in E. destruct E as (r & Er & E). apply logical_plain in Er; auto. destruct (expr_same x (parse (axis_expr a))) eqn:Es.
      + destruct Er as (t & Et & Er). destruct t as [a1 s1|close wrong]; subst r.
        * inversion E; subst. exists a. rewrite Nat.sub_diag. auto.
        * apply IH in E. destruct E as (b & L & N & X). exists b. split; [lia|]. replace (p - k) with (S (p - S k)) by lia. auto.
      + subst r. apply IH in E. destruct E as (b & L & N & X). exists b. split; [lia|]. replace (p - k) with (S (p - S k)) by lia. auto.
  Qed.
  Lemma find_hit_first whole x c v a a' s : (forall l, x <> EOr l) -> forall axes q, Forall (fun a => expr_same whole (parse (axis_expr a)) = false \/ is_fixed a = false) axes ->
    nth_error axes q = Some a -> (forall i b, nth_error axes i = Some b -> i < q -> expr_same x (parse (axis_expr b)) = false) ->
    expr_same x (parse (axis_expr a)) = true -> axis_select a c v tol = Ok (Selected a' s) ->
    forall k cl w1 w2, find_hit mb parse tol whole x c v k axes cl w1 w2 = Ok (k + q, (a', s)).
  Proof.
    intros Hx. induction axes as [|b axes IH]; intros q Hw N B Es Ea k cl w1 w2; [destruct q; discriminate|]. inversion Hw; subst. cbn [find_hit]. destruct q as [|q].
    - inversion N; subst b. rewrite (logical_first _ _ _ _ _ a' s) by auto. rewrite Nat.add_0_r. reflexivity.
    - rewrite logical_other; auto; [|apply (B 0 b); auto; lia]. cbn [bind]. rewrite (IH q) by (auto; intros i b0 Hi Hlt; apply (B (S i) b0); auto; lia). f_equal. f_equal. lia.
  Qed.

  Lemma not_same (a b : expr) : b <> a -> expr_same a b = false.
  Proof. intros H. destruct (expr_same a b) eqn:E; auto. apply expr_same_eq in E. congruence. Qed.
  Lemma only_axis_same h e x p a : only_axis parse h e x p a ->
    nth_error (o_group h ++ o_fixed h) p = Some a /\ expr_same x (parse (axis_expr a)) = true /\
    (forall i b, nth_error (o_group h ++ o_fixed h) i = Some b -> i <> p -> expr_same x (parse (axis_expr b)) = false) /\
    (forall b, In b (o_fixed h) -> expr_same e (parse (axis_expr b)) = false) /\ (forall l, x <> EOr l).
  Proof.
    intros (N & S & U & W & O). split; [auto|]. split; [apply expr_same_eq; auto|]. split; [intros; apply not_same; eauto|]. split; [intros; apply not_same; auto|auto].
  Qed.
  Lemma select_only h e x c v p a g : compares (asconst mb) e x c v -> Forall (fun a => is_group a = true) (o_group h) -> only_axis parse h e x p a ->
    hist_select mb parse tol (view h) e = Ok g -> exists a' s, axis_select a c v tol = Ok (Selected a' s) /\ select_axis (view h) p a' s true = Ok g.
  Proof.
    intros Hc Hg Ho E. apply only_axis_same in Ho. destruct Ho as (N & Es & U & W & Hx). assert (E1 : select1 mb parse tol (view h) e = Ok g) by (destruct Hc; exact E). clear E.
    assert (E2 : (do n <- normalizeexpr mb e; let '(x, c, v) := n in do r <- find_hit mb parse tol e x c v 0 (o_group h ++ o_fixed h) None None None; let '(p, (a, s)) := r in select_axis (view h) p a s true) = Ok g)
      by (destruct Hc; exact E1). rewrite (compares_normal _ _ _ _ Hc) in E2. cbn [bind] in E2.
    apply bind_ok' in E2. destruct E2 as ((p' & a' & s) & Ef & E). apply find_hit_only in Ef; auto.
    - destruct Ef as (b & _ & N' & Es' & Ea). rewrite Nat.sub_0_r in N'. destruct (Nat.eq_dec p' p) as [->|Hne]; [|rewrite (U p' b N' Hne) in Es'; discriminate].
      rewrite N in N'. inversion N'; subst b. eauto.
    - apply Forall_app. split; [|apply Forall_forall; auto]. eapply Forall_impl; [|exact Hg]. intros b Hb. right. destruct b; auto; discriminate.
  Qed.
  Lemma select_when h e x c v p a a' s : compares (asconst mb) e x c v -> Forall (fun a => is_group a = true) (o_group h) -> only_axis parse h e x p a ->
    axis_select a c v tol = Ok (Selected a' s) -> hist_select mb parse tol (view h) e = select_axis (view h) p a' s true.
  Proof.
    intros Hc Hg Ho Ea. apply only_axis_same in Ho. destruct Ho as (N & Es & U & W & Hx). transitivity (do n <- normalizeexpr mb e; let '(x, c, v) := n in do r <- find_hit mb parse tol e x c v 0 (o_group h ++ o_fixed h) None None None; let '(p, (a, s)) := r in select_axis (view h) p a s true).
    { destruct Hc; reflexivity. }
    rewrite (compares_normal _ _ _ _ Hc). cbn [bind]. rewrite (find_hit_first e x c v a a' s) with (q := p); auto.
    - apply Forall_app. split; [|apply Forall_forall; auto]. eapply Forall_impl; [|exact Hg]. intros b Hb. right. destruct b; auto; discriminate.
    - intros i b Hi Hlt. apply (U i b); auto. lia.
  Qed.
End Hist.
