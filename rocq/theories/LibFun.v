(** Proofs about erf and gamma. *)
From Coq Require Import String Lqa.
From Verif Require Import Num NumFacts Base Tree Elem Expr ExprSpec ExprFacts ExprLower Instr InstrSpec Lib LibSpec LibProofs LibFunSpec.
Local Open Scope string_scope.

(** ** The polynomial of erf *)
Definition poly (t : Q) : Q :=
  ((((1061405429 # 1000000000) * t + (-1453152027 # 1000000000)) * t + (1421413741 # 1000000000)) * t + (-284496736 # 1000000000)) * t + (254829592 # 1000000000).

Lemma poly_pos t : (0 <= t)%Q -> (0 < poly t)%Q.
Proof.
  intro H. unfold poly.
  nra.
Qed.
Lemma sq (x : Q) : (0 <= x * x)%Q.
Proof. nra. Qed.
Lemma quotient_pos s t : (0 <= s)%Q -> (0 <= t)%Q ->
  (0 < (254829592 # 1000000000) + (-284496736 # 1000000000) * (t + s) + (1421413741 # 1000000000) * (t * t + t * s + s * s)
     + (-1453152027 # 1000000000) * ((t + s) * (t * t + s * s))
     + (1061405429 # 1000000000) * ((t * t + s * s) * (t * t + s * s) + (t * s) * (t * t + s * s) - (t * s) * (t * s)))%Q.
Proof.
  intros Hs Ht. set (p := (t + s)%Q). set (q := (t * t + s * s)%Q). set (m := (t * s)%Q).
  assert (Hm : (0 <= m)%Q) by (unfold m; nra).
  assert (Hq : (m <= q)%Q) by (unfold m, q; nra).
  assert (E : (t * t + m + s * s == (p * p + q) * (1 # 2))%Q) by (unfold p, q, m; field). setoid_rewrite E.
  assert (B : (0 <= m * q - m * m)%Q) by nra.
  assert (S1 : (0 <= (q - (1453152027 # 2122810858) * p) * (q - (1453152027 # 2122810858) * p))%Q) by apply sq.
  assert (S2 : (0 <= (p - (668 # 1000)) * (p - (668 # 1000)))%Q) by apply sq.
  assert (Q0 : (0 <= q)%Q) by (unfold q; nra). assert (P0 : (0 <= p)%Q) by (unfold p; lra).
  clearbody p q m. nra.
Qed.

Definition part (t : Q) : Q := (poly t * t)%Q.
Lemma part_incr s t : (0 <= s)%Q -> (s < t)%Q -> (part s < part t)%Q.
Proof.
  intros Hs Ht. assert (Q := quotient_pos s t Hs (Qlt_le_weak _ _ (Qle_lt_trans _ _ _ Hs Ht))).
  match type of Q with (0 < ?d)%Q => assert (E : (part t - part s == (t - s) * d)%Q) by (unfold part, poly; ring); assert (0 < (t - s) * d)%Q by (apply Qmult_lt_0_compat; lra) end.
  lra.
Qed.
Lemma part_pos t : (0 < t)%Q -> (0 < part t)%Q.
Proof. intro H. unfold part. apply Qmult_lt_0_compat; auto. apply poly_pos. lra. Qed.
Lemma part_below t : (0 < t)%Q -> (t <= 1)%Q -> (part t <= 999999999 # 1000000000)%Q.
Proof.
  intros H L. destruct (Qle_lt_or_eq _ _ L) as [L'|E].
  - assert (P := part_incr t 1 ltac:(lra) L'). assert (part 1 == 999999999 # 1000000000)%Q by reflexivity. lra.
  - unfold part, poly. rewrite E. discriminate.
Qed.

(** ** Reduction to fractions *)
Definition qabs (x : Qc) : Qc := (if qltb x qc0 then - x else x)%Qc.
Definition qt (x : Qc) : Qc := (qc1 / (qabs x * erf_p + qc1))%Qc.
Definition qpoly (t : Qc) : Qc := ((((erf_a5 * t + erf_a4) * t + erf_a3) * t + erf_a2) * t + erf_a1)%Qc.
Definition qy (x e : Qc) : Qc := (qc1 - qpoly (qt x) * qt x * e)%Qc.
Definition qsgn (x : Qc) : Qc := if qltb x qc0 then qz (-1) else qc1.

Lemma qabs_nonneg x : (0 <= this (qabs x))%Q.
Proof. unfold qabs. destruct (qltb x qc0) eqn:E; qcs; lra. Qed.
Lemma denom_pos x : (0 < this (qabs x * erf_p + qc1)%Qc)%Q.
Proof. assert (H := qabs_nonneg x). unfold erf_p. qcs. lra. Qed.
Lemma qt_mul x : (this (qt x) * (this (qabs x) * (3275911 # 10000000) + 1) == 1)%Q.
Proof.
  assert (D := denom_pos x). unfold qt, erf_p in *. qcs. field. lra.
Qed.
Lemma qt_pos x : (0 < this (qt x))%Q.
Proof. assert (M := qt_mul x). assert (H := qabs_nonneg x). nra. Qed.
Lemma qt_one x : (this (qt x) <= 1)%Q.
Proof. assert (M := qt_mul x). assert (H := qabs_nonneg x). assert (P := qt_pos x). nra. Qed.
Lemma qt_anti x y : (this (qabs x) < this (qabs y))%Q -> (this (qt y) < this (qt x))%Q.
Proof.
  intro L. assert (M := qt_mul x). assert (N := qt_mul y). assert (H := qabs_nonneg x).
  assert (P := qt_pos x). assert (P' := qt_pos y).
  set (a := this (qt x)) in *. set (b := this (qt y)) in *. set (u := this (qabs x)) in *. set (v := this (qabs y)) in *.
  clearbody a b u v. destruct (Qlt_le_dec b a) as [|C]; auto. exfalso.
  assert (a * (u * (3275911 # 10000000) + 1) < b * (v * (3275911 # 10000000) + 1))%Q; [|lra].
  apply Qle_lt_trans with (b * (u * (3275911 # 10000000) + 1))%Q; nra.
Qed.
Lemma qpoly_this t : (this (qpoly t) == poly (this t))%Q.
Proof. unfold qpoly, poly, erf_a1, erf_a2, erf_a3, erf_a4, erf_a5. qcs. reflexivity. Qed.
Lemma qy_this x e : (this (qy x e) == 1 - part (this (qt x)) * this e)%Q.
Proof. unfold qy, part. qcs. rewrite qpoly_this. reflexivity. Qed.

Section Erf.
  Variable tr : string -> list Num -> Num.

  Lemma abs_fin x : nabs (Fin x) = Fin (qabs x).
  Proof. reflexivity. Qed.
  Lemma t_fin x : ndiv none1 (nadd (nmul (Fin (qabs x)) (Fin erf_p)) none1) = Fin (qt x).
  Proof.
    cbn [nmul nadd none1]. unfold ndiv, none1. assert (D := denom_pos x).
    destruct (qeqb (qabs x * erf_p + qc1)%Qc qc0) eqn:E; [|reflexivity].
    apply qeqb_iff in E. rewrite E in D. exfalso. revert D. apply Qlt_irrefl.
  Qed.
  Lemma nerf_fin c x e : tr "exp" [Fin (- (qabs x * qabs x))%Qc] = Fin e ->
    nerf tr c (Fin x) = Fin (if c then qc1 - qsgn x * qy x e else qsgn x * qy x e)%Qc.
  Proof.
    intro T. unfold nerf. cbv zeta. rewrite abs_fin, t_fin. change (nneg (nmul (Fin (qabs x)) (Fin (qabs x)))) with (Fin (- (qabs x * qabs x))%Qc).
    rewrite T. cbn [nltb nzero]. unfold qsgn, qy, qpoly.
    destruct c, (qltb x qc0); reflexivity.
  Qed.

  Hypothesis Hexp : exp_ok tr.
  Lemma exp_at x : exists e, tr "exp" [Fin (- (qabs x * qabs x))%Qc] = Fin e /\ (0 <= this e)%Q /\ (this e <= 1)%Q.
  Proof.
    destruct Hexp as (H & _). apply (H (- (qabs x * qabs x))%Qc). assert (A := qabs_nonneg x). unfold Qcle. qcs. nra.
  Qed.
  Lemma exp_mono x y e f : (this (qabs x) <= this (qabs y))%Q ->
    tr "exp" [Fin (- (qabs x * qabs x))%Qc] = Fin e -> tr "exp" [Fin (- (qabs y * qabs y))%Qc] = Fin f -> (this f <= this e)%Q.
  Proof.
    intros L E F. destruct Hexp as (_ & M & _). apply (M (- (qabs y * qabs y))%Qc (- (qabs x * qabs x))%Qc f e); auto;
      assert (A := qabs_nonneg x); unfold Qcle; qcs; nra.
  Qed.
  Lemma qy_range x e : (0 <= this e)%Q -> (this e <= 1)%Q -> (0 < this (qy x e))%Q /\ (this (qy x e) <= 1)%Q.
  Proof.
    intros A B. rewrite qy_this. assert (P := part_pos _ (qt_pos x)). assert (R := part_below _ (qt_pos x) (qt_one x)). split; nra.
  Qed.
  Lemma qy_mono x y e f : (this (qabs x) <= this (qabs y))%Q -> (0 <= this f)%Q -> (this f <= this e)%Q -> (this (qy x e) <= this (qy y f))%Q.
  Proof.
    intros L F M. rewrite !qy_this. assert (P := part_pos _ (qt_pos x)). assert (P' := part_pos _ (qt_pos y)).
    assert (part (this (qt y)) <= part (this (qt x)))%Q.
    { destruct (Qle_lt_or_eq _ _ L) as [L'|E]; [apply Qlt_le_weak, part_incr; [apply Qlt_le_weak, qt_pos|apply qt_anti; auto]|].
      assert (qabs x = qabs y) as E' by (apply Qc_ext; auto). unfold qt. rewrite E'. apply Qle_refl. }
    nra.
  Qed.
  Lemma qy_strict x y e f : (this (qabs x) < this (qabs y))%Q -> (0 < this f)%Q -> (this f <= this e)%Q -> (this (qy x e) < this (qy y f))%Q.
  Proof.
    intros L F M. rewrite !qy_this. assert (P := part_pos _ (qt_pos x)). assert (P' := part_pos _ (qt_pos y)).
    assert (part (this (qt y)) < part (this (qt x)))%Q by (apply part_incr; [apply Qlt_le_weak, qt_pos|apply qt_anti; auto]).
    nra.
  Qed.
  Lemma qy_zero : qy qc0 qc1 = nano 1.
  Proof. apply Qc_ext. vm_compute. reflexivity. Qed.

  Lemma erf_fin x : exists e, tr "exp" [Fin (- (qabs x * qabs x))%Qc] = Fin e /\ (0 <= this e)%Q /\ (this e <= 1)%Q /\
    nerf tr false (Fin x) = Fin (qsgn x * qy x e)%Qc.
  Proof. destruct (exp_at x) as (e & E & A & B). exists e. repeat split; auto. apply (nerf_fin false); auto. Qed.
  Lemma erf_pinf : nerf tr false PInf = Fin qc1.
  Proof. destruct Hexp as (_ & _ & _ & I & _). unfold nerf. cbn -[qltb]. rewrite I. vm_compute. f_equal; apply Qc_ext; reflexivity. Qed.
  Lemma erf_ninf : nerf tr false NInf = Fin (qz (-1)).
  Proof. destruct Hexp as (_ & _ & _ & I & _). unfold nerf. cbn -[qltb]. rewrite I. vm_compute. f_equal; apply Qc_ext; reflexivity. Qed.
  Lemma erf_nan c : nerf tr c NaN = NaN.
  Proof. destruct c; reflexivity. Qed.
  Lemma erfc_erf x : nerf tr true x = nsub none1 (nerf tr false x).
  Proof. reflexivity. Qed.
End Erf.

(** ** The series of gamma *)
Fixpoint qseries (cofs : list Qc) (x ser : Qc) : Qc :=
  match cofs with
  | [] => ser
  | cof :: cofs => qseries cofs (x + qc1) (ser + cof / (x + qc1))
  end%Qc.
Lemma series_fin cofs : forall x ser,
  (forall k, (k < List.length cofs)%nat -> x + qz (Z.of_nat (S k)) <> qc0)%Qc ->
  gamma_series cofs (Fin x) (Fin ser) = Fin (qseries cofs x ser).
Proof.
  induction cofs as [|c cofs IH]; intros x ser H; [reflexivity|]. cbn [gamma_series qseries].
  assert (N : (x + qc1)%Qc <> qc0) by (apply (H 0%nat); cbn; lia).
  cbn [nadd none1]. unfold ndiv. assert (E : qeqb (x + qc1)%Qc qc0 = false) by (apply qeqb_false; auto). rewrite E. cbn [nadd].
  apply IH. intros k K F. apply (H (S k)); [cbn; lia|]. rewrite <- F. apply Qc_ext. qc_push. rewrite !Nat2Z.inj_succ, <- !Z.add_1_r, !inject_Z_plus. ring.
Qed.
(** A pole: the sum is infinite of that sign, whatever follows. *)
Lemma series_lanczos v : (0 < v)%Qc -> lanczos_series v (qseries gamma_cofs (v + - qc1) qc1)%Qc.
Proof.
  intro H. unfold lanczos_series, gamma_cofs, qseries. apply Qc_ext. qcs.
  assert (this v > 0)%Q by auto. field. repeat split; lra.
Qed.
Definition numer (v : Q) : Q :=
  let p0 := (v * (v + 1) * (v + 2) * (v + 3) * (v + 4) * (v + 5))%Q in
  (p0 + (7618009173 # 100000000) * ((v + 1) * (v + 2) * (v + 3) * (v + 4) * (v + 5))
   - (8650532033 # 100000000) * (v * (v + 2) * (v + 3) * (v + 4) * (v + 5))
   + (2401409822 # 100000000) * (v * (v + 1) * (v + 3) * (v + 4) * (v + 5))
   - (1231739516 # 1000000000) * (v * (v + 1) * (v + 2) * (v + 4) * (v + 5))
   + (120858003 # 100000000000) * (v * (v + 1) * (v + 2) * (v + 3) * (v + 5))
   - (536382 # 100000000000) * (v * (v + 1) * (v + 2) * (v + 3) * (v + 4)))%Q.
Definition denom (v : Q) : Q := (v * (v + 1) * (v + 2) * (v + 3) * (v + 4) * (v + 5))%Q.
Lemma series_frac v : (-(1) < this v)%Q -> ~ (this v == 0)%Q -> (this (qseries gamma_cofs (v + - qc1) qc1)%Qc * denom (this v) == numer (this v))%Q.
Proof.
  intros H N. unfold gamma_cofs, qseries, numer, denom. qcs. field. repeat split; try lra.
  all: intro E; apply N; lra.
Qed.
Lemma numer_expand v : (numer v == (((((v + (2745833332021 # 100000000000)) * v + (31404253474013 # 100000000000)) * v + (191495597636353 # 100000000000)) * v + (656620759091283 # 100000000000)) * v + (1200431913564922 # 100000000000)) * v + (91416110076 # 10000000))%Q.
Proof. unfold numer. ring. Qed.
Lemma numer_pos v : (-(1) < v)%Q -> (0 < numer v)%Q.
Proof.
  intro H. rewrite numer_expand. destruct (Qlt_le_dec v 0) as [L|L].
  - set (u := (- v)%Q). assert (U : (0 < u)%Q) by (unfold u; lra). assert (U1 : (u < 1)%Q) by (unfold u; lra).
    setoid_replace v with (- u)%Q by (unfold u; ring). clearbody u.
    assert (A : (0 <= (u - (914 # 1000)) * (u - (914 # 1000)))%Q) by apply sq.
    assert (B : (0 <= u * u)%Q) by apply sq. assert (B1 : (u * u <= 1)%Q) by nra.
    assert (C : (u * (u * u) <= 1)%Q) by nra. assert (C0 : (0 <= u * (u * u))%Q) by nra.
    assert (D : (0 <= (u * u) * (u * u))%Q) by apply sq.
    assert (F : ((u * u) * (u * (u * u)) <= 1)%Q) by nra.
    assert (G : (0 <= (u * (u * u)) * (u * (u * u)))%Q) by apply sq.
    match goal with |- (0 < ?e)%Q => setoid_replace e with ((u * (u * u)) * (u * (u * u)) - (2745833332021 # 100000000000) * ((u * u) * (u * (u * u)))
      + (31404253474013 # 100000000000) * ((u * u) * (u * u)) - (191495597636353 # 100000000000) * (u * (u * u)) + (656620759091283 # 100000000000) * (u * u)
      - (1200431913564922 # 100000000000) * u + (91416110076 # 10000000))%Q by ring end.
    nra.
  - assert (0 <= v * v)%Q by nra. assert (0 <= v * v * v)%Q by nra. assert (0 <= v * v * v * v)%Q by nra. assert (0 <= v * v * v * v * v)%Q by nra. assert (0 <= v * v * v * v * v * v)%Q by nra. nra.
Qed.
Lemma prod_pos x y : (0 < x)%Q -> (0 < y)%Q -> (0 < x * y)%Q.
Proof. nra. Qed.
Lemma rest_pos v : (-(1) < v)%Q -> (0 < (v + 1) * (v + 2) * (v + 3) * (v + 4) * (v + 5))%Q.
Proof. intro H. repeat apply prod_pos; lra. Qed.
Lemma series_pos v : (0 < this v)%Q -> (0 < this (qseries gamma_cofs (v + - qc1) qc1)%Qc)%Q.
Proof.
  intro H. assert (E := series_frac v ltac:(lra) ltac:(lra)). assert (P := numer_pos (this v) ltac:(lra)). assert (R := rest_pos (this v) ltac:(lra)).
  set (s := this (qseries _ _ _)) in *. assert (D : (denom (this v) == this v * ((this v + 1) * (this v + 2) * (this v + 3) * (this v + 4) * (this v + 5)))%Q) by (unfold denom; ring).
  rewrite D in E. set (r := ((this v + 1) * (this v + 2) * (this v + 3) * (this v + 4) * (this v + 5))%Q) in *. clearbody s r.
  assert (0 < this v * r)%Q by (apply prod_pos; auto). nra.
Qed.
Lemma series_neg v : (-(1) < this v)%Q -> (this v < 0)%Q -> (this (qseries gamma_cofs (v + - qc1) qc1)%Qc < 0)%Q.
Proof.
  intros M H. assert (E := series_frac v M ltac:(lra)). assert (P := numer_pos (this v) M). assert (R := rest_pos (this v) M).
  set (s := this (qseries _ _ _)) in *. assert (D : (denom (this v) == this v * ((this v + 1) * (this v + 2) * (this v + 3) * (this v + 4) * (this v + 5)))%Q) by (unfold denom; ring).
  rewrite D in E. set (r := ((this v + 1) * (this v + 2) * (this v + 3) * (this v + 4) * (this v + 5))%Q) in *. clearbody s r.
  assert (0 < (- this v) * r)%Q by (apply prod_pos; lra). nra.
Qed.

(** ** A literal argument that is refused *)
Lemma literal_raises user field f c t : (exists e, efun user f [AC c] = Err e) -> subtree (TCall f [TConst c]) t ->
  exists e, reval user field t = Err e.
Proof.
  intros (e0 & N) H. remember (TCall f [TConst c]) as u. induction H; subst.
  - rewrite reval_call. cbn [mapM reval bind]. rewrite N. cbn. eauto.
  - destruct IHsubtree as (e & IH); auto. rewrite reval_call. edestruct (mapM_err (reval user field)) as (e' & ->); eauto.
    cbn. eauto.
Qed.
