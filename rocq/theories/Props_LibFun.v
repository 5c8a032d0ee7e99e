(** C75: erf, erfc, gamma, lgamma and factorial. *)
From Coq Require Import String Permutation.
From Verif Require Import Num NumFacts Base Tree Elem Instr InstrSpec Axis Calc Content Fill FillSpec Expr ExprSpec ExprGood ExprFacts ExprMain ExprPlain
  HistFill HistSpec HistNew HistNewSpec Lib LibSpec LibProofs LibFunSpec LibFun Props_Expr Props_Hist Props_HistNew.
Local Open Scope string_scope.

Ltac qcl := qcs; change (inject_Z (-1)) with (-(1))%Q in *; change (inject_Z 1) with 1%Q in *; lra.

(** The two ways to write such a function. *)
Definition ways (f : string) : list fname := [Bare f; Dotted "math" f].
Ltac way H := destruct H as [<-|[<-|[]]].

Lemma one_times q : (qc1 * q)%Qc = q.
Proof. change qc1 with 1%Qc. ring. Qed.
Lemma minus_times q : (qz (-1) * q)%Qc = (- q)%Qc.
Proof. apply Qc_ext. qcs. change (inject_Z (-1)) with (-(1))%Q. ring. Qed.

(** ** erf and erfc *)

(** erf is formula 7.1.26 for numbers that are not negative, and minus that for negative ones. *)
Theorem C75_erf_formula : forall tr n x, exp_ok tr -> In n (ways "erf") -> exists e r,
  tr "exp" [Fin (- (x * x))%Qc] = Fin e /\
  (((0 <= x)%Qc -> erf_7_1_26 x e r /\ call tr n [Fin x] = Ok (VNum (Fin r))) /\
   ((x < 0)%Qc -> erf_7_1_26 (- x) e r /\ call tr n [Fin x] = Ok (VNum (Fin (- r)%Qc)))).
Proof.
  intros tr n x H W. destruct (erf_fin tr H x) as (e & E & _ & _ & V). exists e, (qy x e).
  assert (S : (qabs x * qabs x)%Qc = (x * x)%Qc) by (unfold qabs; destruct (qltb x qc0); ring).
  rewrite S in E. split; auto.
  assert (C : call tr n [Fin x] = Ok (VNum (nerf tr false (Fin x)))) by (way W; reflexivity). rewrite C, V. clear C V.
  assert (F : erf_7_1_26 (qabs x) e (qy x e)).
  { exists (qt x). split.
    - apply Qc_ext. assert (M := qt_mul x). unfold nano. qcs. etransitivity; [|exact M]. field.
    - change (nano 254829592) with erf_a1. change (nano (-284496736)) with erf_a2. change (nano 1421413741) with erf_a3.
      change (nano (-1453152027)) with erf_a4. change (nano 1061405429) with erf_a5.
      unfold qy, qpoly. generalize erf_a1 erf_a2 erf_a3 erf_a4 erf_a5 (qt x). intros. cbn [multiplied]. change qc1 with 1%Qc. ring. }
  split; intro L.
  - assert (N : qltb x qc0 = false) by (apply qltb_false; auto). unfold qabs in F. rewrite N in F. split; auto.
    unfold qsgn. rewrite N, one_times. reflexivity.
  - assert (N : qltb x qc0 = true) by (apply qltb_iff; auto). unfold qabs in F. rewrite N in F. split; auto.
    unfold qsgn. rewrite N, minus_times. reflexivity.
Qed.

(** Its values lie between -1 and 1 and have the sign of the argument. *)
Theorem C75_erf_range : forall tr n x, exp_ok tr -> In n (ways "erf") -> x <> NaN -> exists r,
  call tr n [x] = Ok (VNum (Fin r)) /\ (qz (-1) <= r <= 1)%Qc /\
  (nltb x (nz 0) = true -> (r < 0)%Qc) /\ (nltb x (nz 0) = false -> (0 < r)%Qc).
Proof.
  intros tr n x H W N.
  assert (C : call tr n [x] = Ok (VNum (nerf tr false x))) by (way W; reflexivity). rewrite C. destruct x as [x| | |]; try congruence.
  - destruct (erf_fin tr H x) as (e & E & A & B & V). rewrite V. eexists. split; [reflexivity|].
    destruct (qy_range x e A B) as (P & Q). set (y := qy x e) in *. clearbody y. unfold qsgn. cbn [nltb nz]. change (qz 0) with qc0.
    destruct (qltb x qc0); rewrite ?one_times, ?minus_times; (split; [split|split]); intros; try discriminate; qcl.
  - rewrite (erf_pinf tr H). eexists. split; [reflexivity|]. split; [split; discriminate|]. split; [discriminate|]. intros _. reflexivity.
  - rewrite (erf_ninf tr H). eexists. split; [reflexivity|]. split; [split; discriminate|]. split; [|discriminate]. intros _. reflexivity.
Qed.

Lemma erf_more tr : exp_ok tr -> forall x, exists e, nerf tr false (Fin x) = Fin (qsgn x * qy x e)%Qc /\ tr "exp" [Fin (- (qabs x * qabs x))%Qc] = Fin e /\
  (0 < this (qy x e))%Q /\ (this (qy x e) <= 1)%Q /\ (0 <= this e)%Q /\ (exp_strict tr -> (0 < this e)%Q /\ (this (qy x e) < 1)%Q).
Proof.
  intros H z. destruct (erf_fin tr H z) as (e & E & A & B & V). exists e. destruct (qy_range z e A B) as (P & Q). split; [auto|]. split; [auto|]. split; [auto|]. split; [auto|]. split; [auto|].
  intro S. assert (K : (0 < this e)%Q).
  { apply (S (- (qabs z * qabs z))%Qc e); [|exact E]. assert (Z := qabs_nonneg z). unfold Qcle. rewrite this_opp, this_mul. change (this 0%Qc) with 0%Q. nra. }
  split; [exact K|]. rewrite qy_this. assert (0 < part (this (qt z)) * this e)%Q by (apply prod_pos; [apply part_pos, qt_pos|exact K]). lra.
Qed.

Lemma erf_mono_neg tr x y e f : exp_ok tr -> (this x < this y)%Q -> qltb x qc0 = true -> qltb y qc0 = true ->
  tr "exp" [Fin (- (qabs x * qabs x))%Qc] = Fin e -> tr "exp" [Fin (- (qabs y * qabs y))%Qc] = Fin f -> (0 <= this e)%Q ->
  (this (qy y f) <= this (qy x e))%Q /\ ((0 < this e)%Q -> (this (qy y f) < this (qy x e))%Q).
Proof.
  intros H L Ex Ey E F A. assert (M : (this (qabs y) < this (qabs x))%Q) by (clear - L Ex Ey; unfold qabs; rewrite Ex, Ey; qcl).
  assert (K := exp_mono tr H y x f e (Qlt_le_weak _ _ M) F E). split; [apply qy_mono|intro P; apply qy_strict]; auto. apply Qlt_le_weak, M.
Qed.
Lemma erf_mono_pos tr x y e f : exp_ok tr -> (this x < this y)%Q -> qltb x qc0 = false -> qltb y qc0 = false ->
  tr "exp" [Fin (- (qabs x * qabs x))%Qc] = Fin e -> tr "exp" [Fin (- (qabs y * qabs y))%Qc] = Fin f -> (0 <= this f)%Q ->
  (this (qy x e) <= this (qy y f))%Q /\ ((0 < this f)%Q -> (this (qy x e) < this (qy y f))%Q).
Proof.
  intros H L Ex Ey E F A. assert (M : (this (qabs x) < this (qabs y))%Q) by (clear - L Ex Ey; unfold qabs; rewrite Ex, Ey; qcl).
  assert (K := exp_mono tr H x y e f (Qlt_le_weak _ _ M) E F). split; [apply qy_mono|intro P; apply qy_strict]; auto. apply Qlt_le_weak, M.
Qed.
(** The signed values, from the values of [y] at the two places. *)
Lemma sgn_mono x y a b : (this x < this y)%Q -> (0 < this a)%Q -> (0 < this b)%Q ->
  (qltb x qc0 = true -> qltb y qc0 = true -> (this b <= this a)%Q) -> (qltb x qc0 = false -> qltb y qc0 = false -> (this a <= this b)%Q) ->
  (qsgn x * a <= qsgn y * b)%Qc.
Proof.
  intros L A B N P. unfold qsgn. destruct (qltb x qc0) eqn:Ex, (qltb y qc0) eqn:Ey; rewrite ?one_times, ?minus_times; unfold Qcle; rewrite ?this_opp; auto; try lra.
  exfalso. clear - L Ex Ey. qcl.
Qed.
Lemma sgn_strict x y a b : (this x < this y)%Q -> (0 < this a)%Q -> (0 < this b)%Q ->
  (qltb x qc0 = true -> qltb y qc0 = true -> (this b < this a)%Q) -> (qltb x qc0 = false -> qltb y qc0 = false -> (this a < this b)%Q) ->
  (qsgn x * a < qsgn y * b)%Qc.
Proof.
  intros L A B N P. unfold qsgn. destruct (qltb x qc0) eqn:Ex, (qltb y qc0) eqn:Ey; rewrite ?one_times, ?minus_times; unfold Qclt; rewrite ?this_opp; auto; try lra.
  exfalso. clear - L Ex Ey. qcl.
Qed.
Lemma sgn_range x a : (0 < this a)%Q -> (this a <= 1)%Q -> (qz (-1) <= qsgn x * a)%Qc /\ (qsgn x * a <= qc1)%Qc /\
  ((this a < 1)%Q -> (qz (-1) < qsgn x * a)%Qc /\ (qsgn x * a < qc1)%Qc).
Proof.
  intros P Q. unfold qsgn. destruct (qltb x qc0); rewrite ?one_times, ?minus_times; unfold Qcle, Qclt; rewrite ?this_opp, this_qz, this_qc1; change (inject_Z (-1)) with (-(1))%Q; repeat split; lra.
Qed.

(** It never decreases, and increases between finite numbers as long as exp does not underflow. *)
Theorem C75_erf_monotone : forall tr n x y, exp_ok tr -> In n (ways "erf") -> nltb x y = true -> exists r s,
  call tr n [x] = Ok (VNum (Fin r)) /\ call tr n [y] = Ok (VNum (Fin s)) /\ (r <= s)%Qc /\
  (exp_strict tr -> (r < s)%Qc).
Proof.
  intros tr n x y H W L.
  assert (C : forall x, call tr n [x] = Ok (VNum (nerf tr false x))) by (way W; reflexivity).
  rewrite (C x), (C y). assert (R := erf_more tr H). clear C W. destruct x as [x| | |], y as [y| | |]; try discriminate L.
  - cbn [nltb] in L. apply qltb_iff in L. destruct (R x) as (e & Vx & E & A & B & A0 & S1), (R y) as (f & Vy & F & A' & B' & A0' & S2). clear R.
    rewrite Vx, Vy. exists (qsgn x * qy x e)%Qc, (qsgn y * qy y f)%Qc. split; [reflexivity|]. split; [reflexivity|]. split.
    + apply sgn_mono; auto; intros X Y; [apply (erf_mono_neg tr x y e f)|apply (erf_mono_pos tr x y e f)]; auto.
    + intro Z. apply sgn_strict; auto; intros X Y; [apply (erf_mono_neg tr x y e f)|apply (erf_mono_pos tr x y e f)]; auto; [apply (S1 Z)|apply (S2 Z)].
  - destruct (R x) as (e & V & E & A & B & A0 & S1). rewrite V, (erf_pinf tr H). exists (qsgn x * qy x e)%Qc, qc1. split; [reflexivity|]. split; [reflexivity|].
    destruct (sgn_range x _ A B) as (_ & P & Q). split; auto. intro Z. apply Q, (S1 Z).
  - destruct (R y) as (e & V & E & A & B & A0 & S1). rewrite V, (erf_ninf tr H). exists (qz (-1)), (qsgn y * qy y e)%Qc. split; [reflexivity|]. split; [reflexivity|].
    destruct (sgn_range y _ A B) as (P & _ & Q). split; auto. intro Z. apply Q, (S1 Z).
  - rewrite (erf_pinf tr H), (erf_ninf tr H). exists (qz (-1)), qc1. split; [reflexivity|]. split; [reflexivity|]. split; [discriminate|intros _; reflexivity].
Qed.

Lemma opp_times a b : (- a * b)%Qc = (- (a * b))%Qc.
Proof. ring. Qed.
Lemma abs_opp x : qabs (- x)%Qc = qabs x.
Proof. unfold qabs. destruct (qltb x qc0) eqn:X, (qltb (- x)%Qc qc0) eqn:Y; apply Qc_ext; qcs; try ring; lra. Qed.
Lemma sgn_opp x : neqb (Fin x) (nz 0) = false -> qsgn (- x)%Qc = (- qsgn x)%Qc.
Proof.
  intro N. cbn [neqb nz] in N. apply qeqb_false in N.
  unfold qsgn. destruct (qltb x qc0) eqn:X, (qltb (- x)%Qc qc0) eqn:Y; apply Qc_ext; qcs; try reflexivity; try lra.
  exfalso. apply N. apply Qc_ext. qcs. change (inject_Z 0) with 0%Q. lra.
Qed.
(** erf(-x) is -erf(x), zero apart. *)
Theorem C75_erf_odd : forall tr n x, exp_ok tr -> In n (ways "erf") -> neqb x (nz 0) = false ->
  exists v, call tr n [x] = Ok (VNum v) /\ call tr n [nneg x] = Ok (VNum (nneg v)).
Proof.
  intros tr n x H W N.
  assert (C : forall x, call tr n [x] = Ok (VNum (nerf tr false x))) by (way W; reflexivity). rewrite !C. eexists. split; [reflexivity|].
  assert (Q : nerf tr false (nneg x) = nneg (nerf tr false x)); [|rewrite Q; auto]. destruct x as [x| | |].
  - cbn [nneg]. destruct (erf_fin tr H x) as (e & E & _ & _ & ->).
    assert (A := abs_opp x).
    rewrite (nerf_fin tr false (- x)%Qc e); [|rewrite A; auto]. cbn [nneg]. f_equal.
    assert (T : qy (- x)%Qc e = qy x e) by (unfold qy, qt; rewrite A; auto). rewrite T.
    rewrite (sgn_opp x N), opp_times. reflexivity.
  - cbn [nneg]. rewrite (erf_pinf tr H), (erf_ninf tr H). reflexivity.
  - cbn [nneg]. rewrite (erf_pinf tr H), (erf_ninf tr H). reflexivity.
  - reflexivity.
Qed.

(** erfc is 1 - erf, everywhere. *)
Theorem C75_erfc : forall tr n m x v, In n (ways "erf") -> In m (ways "erfc") ->
  call tr n [x] = Ok (VNum v) -> call tr m [x] = Ok (VNum (nsub (nz 1) v)).
Proof.
  intros tr n m x v N M E.
  assert (C : call tr n [x] = Ok (VNum (nerf tr false x))) by (way N; reflexivity). rewrite C in E. injection E as <-.
  way M; reflexivity.
Qed.

Theorem C75_erf_special : forall tr n, exp_ok tr -> In n (ways "erf") ->
  call tr n [PInf] = Ok (VNum (nz 1)) /\ call tr n [NInf] = Ok (VNum (nz (-1))) /\ call tr n [NaN] = Ok (VNum NaN).
Proof.
  intros tr n H W.
  assert (C : forall x, call tr n [x] = Ok (VNum (nerf tr false x))) by (way W; reflexivity). rewrite !C, (erf_pinf tr H), (erf_ninf tr H). repeat split.
Qed.

(** erf(0) is not 0 but a thousand-millionth, and no number has erf 0; erf(-0) is not -erf(0). *)
Theorem C75_erf_zero_refuted : forall tr n, exp_ok tr -> In n (ways "erf") ->
  call tr n [nz 0] = Ok (VNum (Fin (nano 1))) /\ forall x, call tr n [x] <> Ok (VNum (nz 0)).
Proof.
  intros tr n H W. split.
  - assert (C : call tr n [nz 0] = Ok (VNum (nerf tr false (nz 0)))) by (way W; reflexivity). rewrite C.
    destruct H as (_ & _ & E & _). unfold nz. change (qz 0) with qc0. rewrite (nerf_fin tr false qc0 qc1).
    + change (qsgn qc0) with qc1. rewrite qy_zero, one_times. reflexivity.
    + replace (- (qabs qc0 * qabs qc0))%Qc with 0%Qc; [rewrite E; reflexivity|]. change (qabs qc0) with qc0. change qc0 with 0%Qc. ring.
  - intros x X. destruct (neqb x x) eqn:Nx.
    + assert (N : x <> NaN) by (intros ->; discriminate). destruct (C75_erf_range tr n x H W N) as (r & R & _ & A & B). rewrite R in X. injection X as ->.
      destruct (nltb x (nz 0)); [specialize (A eq_refl); discriminate A|specialize (B eq_refl); discriminate B].
    + destruct x; try discriminate; [rewrite (proj2 (qeqb_iff q q) eq_refl) in Nx || (cbn in Nx; rewrite qeqb_refl in Nx); discriminate|].
      assert (C : call tr n [NaN] = Ok (VNum NaN)) by (way W; reflexivity). rewrite C in X. discriminate.
Qed.

(** ** gamma, lgamma and factorial *)
Lemma lgamma_fin tr v a b : (0 < v)%Qc -> tr "log" [Fin (v + qfrac 9 2)%Qc] = Fin a ->
  tr "log" [Fin (sqrt_2pi * qseries gamma_cofs (v + - qc1) qc1)%Qc] = Fin b ->
  nlgamma tr (Fin v) = Fin ((v - qfrac 1 2) * a - (v + qfrac 9 2) + b)%Qc.
Proof.
  intros P A B. unfold nlgamma. cbv zeta. change (nsub (Fin v) none1) with (Fin (v + - qc1)%Qc).
  unfold none1 at 1. rewrite series_fin.
  2: { intros k _ E. apply (f_equal this) in E. assert (E' : (this (v + - qc1 + qz (Z.of_nat (S k)))%Qc == 0)%Q) by (rewrite E; reflexivity).
       assert (K : (0 <= inject_Z (Z.of_nat k))%Q) by (change 0%Q with (inject_Z 0); rewrite <- Zle_Qle; lia).
       clear E. rewrite Nat2Z.inj_succ, <- Z.add_1_r, qz_add in E'. qcs. change (this (qz 1)) with 1%Q in *. change (inject_Z 1) with 1%Q in *. lra. }
  cbn [nadd]. replace (v + - qc1 + qfrac 11 2)%Qc with (v + qfrac 9 2)%Qc by (apply Qc_ext; qcs; ring). rewrite A.
  change (nmul (Fin gamma_stp) (Fin ?s)) with (Fin (gamma_stp * s)%Qc). change gamma_stp with sqrt_2pi. 
  rewrite B.
  cbn [nsub nmul nadd nneg]. f_equal. apply Qc_ext. qcs. ring.
Qed.
Lemma lgamma_pos tr v : log_ok tr -> (0 < v)%Qc -> exists r, nlgamma tr (Fin v) = Fin r /\ lanczos tr v r.
Proof.
  intros (L & _) P. destruct (L (v + qfrac 9 2)%Qc) as (a & A); [qcs; lra|].
  destruct (L (sqrt_2pi * qseries gamma_cofs (v + - qc1) qc1)%Qc) as (b & B).
  { assert (S := series_pos v P). unfold Qclt, sqrt_2pi. rewrite this_mul, this_qfrac. apply prod_pos; [reflexivity|auto]. }
  eexists. split; [apply lgamma_fin; eauto|]. exists (qseries gamma_cofs (v + - qc1) qc1)%Qc, a, b. split; [apply series_lanczos; auto|auto].
Qed.

(** For a positive number, lgamma is Lanczos' approximation of the logarithm of the gamma function,
    and gamma is its exponential: it is positive, never NaN. *)
Theorem C75_lgamma : forall tr n v, log_ok tr -> In n (ways "lgamma") -> (0 < v)%Qc -> gives tr n [Fin v] (lanczos tr v).
Proof.
  intros tr n v L W P. destruct (lgamma_pos tr v L P) as (r & E & R). exists r. split; auto.
  assert (C : call tr n [Fin v] = Ok (VNum (nlgamma tr (Fin v)))) by (way W; reflexivity). rewrite C, E. reflexivity.
Qed.
Theorem C75_gamma : forall tr n m v, log_ok tr -> exp_positive tr -> In n (ways "gamma") -> In m (ways "lgamma") -> (0 < v)%Qc ->
  exists r g, call tr m [Fin v] = Ok (VNum (Fin r)) /\ call tr n [Fin v] = Ok (VNum g) /\ g = tr "exp" [Fin r] /\ positive g.
Proof.
  intros tr n m v L X W M P. destruct (lgamma_pos tr v L P) as (r & E & R).
  assert (C : call tr n [Fin v] = Ok (VNum (ngamma tr (Fin v)))) by (way W; reflexivity).
  assert (D : call tr m [Fin v] = Ok (VNum (nlgamma tr (Fin v)))) by (way M; reflexivity). rewrite C, D. unfold ngamma. rewrite E.
  destruct (X r) as (g & G & Q). exists r, g. rewrite G. auto.
Qed.

Definition dist (a b : Qc) : Qc := if qltb a b then (b - a)%Qc else (a - b)%Qc.
Lemma dist_ok a b : distance a b (dist a b).
Proof. unfold dist, distance. destruct (qltb a b) eqn:E; split; auto; qcs; lra. Qed.
Lemma nearest_unique x a b : is_nearest x a -> is_nearest x b -> a = b.
Proof.
  intros (H1 & H2) (H3 & H4).
  destruct (H2 b _ _ H3 (dist_ok x _) (dist_ok x _)) as (A1 & A2). destruct (H4 a _ _ H1 (dist_ok x _) (dist_ok x _)) as (B1 & B2).
  assert (D : dist x a = dist x b) by (apply Qcle_antisym; auto).
  destruct (Qc_eq_dec a b) as [|N]; auto. exfalso.
  destruct (A2 D) as (z1 & ->); [congruence|]. destruct (B2 (eq_sym D)) as (z2 & ->); [congruence|].
  (* two different even numbers at the same distance: the number between them is nearer *)
  destruct (H2 (qz (z1 + z2)) _ _ (ex_intro _ _ eq_refl) (dist_ok x _) (dist_ok x _)) as (C1 & _).
  assert (NN : ~ (inject_Z z1 == inject_Z z2)%Q) by (rewrite inject_Z_injective; intros ->; apply N; auto).
  assert (D' : (this (dist x (qz (2 * z1))) == this (dist x (qz (2 * z2))))%Q) by (rewrite D; reflexivity).
  clear - C1 D' NN. unfold dist in *.
  destruct (qltb x (qz (2 * z1))) eqn:E1, (qltb x (qz (2 * z2))) eqn:E2, (qltb x (qz (z1 + z2))) eqn:E3;
    qcs; rewrite ?inject_Z_mult, ?inject_Z_plus in *; change (inject_Z 2) with 2%Q in *; apply NN; lra.
Qed.

(** factorial of a number that is not negative: the gamma function one further, at the nearest whole
    number, rounded to a whole number, or infinite. *)
Theorem C75_factorial : forall tr n m x k, log_ok tr -> exp_positive tr -> In n (ways "factorial") -> In m (ways "gamma") ->
  is_nearest x (qz k) -> (0 <= k)%Z -> exists g v,
  call tr m [Fin (qz k + 1)%Qc] = Ok (VNum g) /\ call tr n [Fin x] = Ok (VNum v) /\
  ((g = PInf /\ v = PInf) \/ exists a b, g = Fin a /\ v = Fin b /\ is_nearest a b).
Proof.
  intros tr n m x k L X W M Hk K.
  assert (E : qz (qrint x) = qz k) by (apply (nearest_unique x); [apply rint_ok|exact Hk]).
  apply qz_inj in E.
  assert (P : (0 < qz k + 1)%Qc).
  { assert (0 <= inject_Z k)%Q by (change 0%Q with (inject_Z 0); rewrite <- Zle_Qle; auto). qcs. lra. }
  destruct (lgamma_pos tr _ L P) as (r & R & _). destruct (X r) as (g & G & [->|(q & -> & Q)]).
  - exists PInf, PInf. split; [|split; [|left; auto]].
    + assert (C : call tr m [Fin (qz k + 1)%Qc] = Ok (VNum (ngamma tr (Fin (qz k + 1)%Qc)))) by (way M; reflexivity). rewrite C. unfold ngamma. rewrite R, G. auto.
    + assert (C : call tr n [Fin x] = Ok (VNum (nfactorial tr (Fin x)))) by (way W; reflexivity). rewrite C. unfold nfactorial. cbn [nround]. rewrite E.
      change (nadd (nz k) none1) with (Fin (qz k + 1)%Qc). rewrite R, G. auto.
  - exists (Fin q), (nz (qrint q)). split; [|split; [|right; do 2 eexists; split; [|split; [|apply rint_ok]]; reflexivity]].
    + assert (C : call tr m [Fin (qz k + 1)%Qc] = Ok (VNum (ngamma tr (Fin (qz k + 1)%Qc)))) by (way M; reflexivity). rewrite C. unfold ngamma. rewrite R, G. auto.
    + assert (C : call tr n [Fin x] = Ok (VNum (nfactorial tr (Fin x)))) by (way W; reflexivity). rewrite C. unfold nfactorial. cbn [nround]. rewrite E.
      change (nadd (nz k) none1) with (Fin (qz k + 1)%Qc). rewrite R, G. auto.
Qed.

(** The gamma function of a negative number that is not whole is a number; here it is NaN between -1
    and 0 and below -4.5. *)
Theorem C75_gamma_negative_refuted : forall tr n v, log_ok tr -> tr "exp" [NaN] = NaN -> In n (ways "gamma") ->
  ((qz (-1) < v /\ v < 0) \/ v < qfrac (-9) 2)%Qc -> call tr n [Fin v] = Ok (VNum NaN).
Proof.
  intros tr n v (_ & L) X W R.
  assert (C : call tr n [Fin v] = Ok (VNum (ngamma tr (Fin v)))) by (way W; reflexivity). rewrite C. unfold ngamma.
  assert (N : nlgamma tr (Fin v) = NaN); [|rewrite N, X; auto].
  unfold nlgamma. cbv zeta. change (nsub (Fin v) none1) with (Fin (v + - qc1)%Qc). destruct R as [[R1 R2]|R].
  - unfold none1 at 1. rewrite series_fin.
    2: { intros k _ E. assert (E' : (this (v + - qc1 + qz (Z.of_nat (S k)))%Qc == 0)%Q) by (rewrite E; reflexivity).
         rewrite Nat2Z.inj_succ, <- Z.add_1_r, qz_add in E'. qcs.
         destruct k as [|k]; [change (inject_Z (Z.of_nat 0)) with 0%Q in *; change (inject_Z 1) with 1%Q in *; change (inject_Z (-1)) with (-(1))%Q in *; lra|].
         assert (K : (1 <= inject_Z (Z.of_nat (S k)))%Q) by (change 1%Q with (inject_Z 1); rewrite <- Zle_Qle; lia).
         change (inject_Z 1) with 1%Q in *; change (inject_Z (-1)) with (-(1))%Q in *; lra. }
    change (nmul (Fin gamma_stp) (Fin ?s)) with (Fin (gamma_stp * s)%Qc).
    rewrite (L (gamma_stp * _)%Qc).
    + match goal with |- nadd ?a NaN = NaN => destruct a; reflexivity end.
    + assert (S : (this (qseries gamma_cofs (v + - qc1) qc1)%Qc < 0)%Q) by (apply series_neg; [qcs; change (inject_Z (-1)) with (-(1))%Q in *; lra|auto]).
      unfold Qclt, gamma_stp. rewrite this_mul, this_qfrac. set (s := this (qseries _ _ _)) in *. clearbody s. change (this 0%Qc) with 0%Q. lra.
  - change (nadd (Fin (v + - qc1)%Qc) (Fin (qfrac 11 2))) with (Fin (v + - qc1 + qfrac 11 2)%Qc). rewrite (L (v + - qc1 + qfrac 11 2)%Qc); [|qcs; lra].
    assert (M : forall a, nmul a NaN = NaN) by (intros []; reflexivity). rewrite M. reflexivity.
Qed.

(** Of a literal they raise TypeError, although the same number in a column is fine, and although
    every other function takes either. *)
Theorem C75_gamma_of_literal_refuted : forall tr f c v, In f ["gamma"; "lgamma"; "factorial"] ->
  efun (numlib_len tr) f [AC c] = Err TypeError /\ efun (numlib_len tr) f [AV v] = efun (numlib tr) f [AV v].
Proof. intros tr f c v H. repeat (destruct H as [<-|H]); [..|destruct H]; split; reflexivity. Qed.
Theorem C75_other_functions : forall tr f l, ~ In f ["gamma"; "lgamma"; "factorial"] -> efun (numlib_len tr) f l = efun (numlib tr) f l.
Proof.
  intros tr f l H. assert (E : numlib_len tr f l = numlib tr f l); [|unfold efun; rewrite E; auto].
  unfold numlib_len. destruct l as [|[c|v] [|b l]]; auto. destruct (counts_its_argument f) eqn:E; auto. exfalso. apply H.
  apply existsb_exists in E as (k & K & E). apply String.eqb_eq in E as ->. auto.
Qed.
(** So an expression that contains such a call raises for every row. *)
Theorem C75_literal_raises_refuted : forall tr field f k t,
  In f ["gamma"; "lgamma"; "factorial"] -> subtree (TCall f [TConst k]) t -> exists e, reval (numlib_len tr) field t = Err e.
Proof.
  intros tr field f k t Hf Hs. apply (literal_raises (numlib_len tr) field f k t); auto.
  exists TypeError. apply (C75_gamma_of_literal_refuted tr f k (VBool true)); auto.
Qed.

Print Assumptions C75_erf_formula.
Print Assumptions C75_erf_range.
Print Assumptions C75_erf_monotone.
Print Assumptions C75_erf_odd.
Print Assumptions C75_erfc.
Print Assumptions C75_erf_special.
Print Assumptions C75_erf_zero_refuted.
Print Assumptions C75_lgamma.
Print Assumptions C75_gamma.
Print Assumptions C75_factorial.
Print Assumptions C75_gamma_negative_refuted.
Print Assumptions C75_gamma_of_literal_refuted.
Print Assumptions C75_other_functions.
Print Assumptions C75_literal_raises_refuted.

(** ** Cases *)

(** An exp and a log that meet the hypotheses: 1/(1-q) below 0 and 1+q above; q-1. *)
Definition tr75 (f : string) (l : list Num) : Num :=
  if String.eqb f "exp" then
    match l with
    | [Fin q] => if qleb q qc0 then Fin (1 / (1 - q))%Qc else Fin (1 + q)%Qc
    | [PInf] => PInf
    | [NInf] => Fin 0%Qc
    | _ => NaN
    end
  else match l with [Fin q] => if qltb q qc0 then NaN else Fin (q - 1)%Qc | _ => NaN end.
Lemma inv75 q : (q <= 0)%Qc -> (this (1 / (1 - q))%Qc * (1 - this q) == 1)%Q /\ (0 < this (1 / (1 - q))%Qc)%Q.
Proof.
  intro H. assert (M : (this (1 / (1 - q))%Qc * (1 - this q) == 1)%Q) by (qcs; field; lra).
  split; auto. set (a := this (1 / (1 - q))%Qc) in *. clearbody a. qcs. nra.
Qed.
Example C75_case_exp : exp_ok tr75 /\ exp_strict tr75.
Proof.
  assert (E : forall q, (q <= 0)%Qc -> tr75 "exp" [Fin q] = Fin (1 / (1 - q))%Qc).
  { intros q H. unfold tr75. cbn [String.eqb Ascii.eqb Bool.eqb]. change (qleb q qc0) with (qleb q qc0). rewrite (proj2 (qleb_iff q qc0) H). reflexivity. }
  split; [split; [|split]|].
  - intros q H. rewrite E by auto. eexists. split; [reflexivity|]. destruct (inv75 q H) as (A & B).
    set (a := (1 / (1 - q))%Qc) in *. clearbody a. split; qcs; [lra|nra].
  - intros q r e f L R X Y. rewrite E in X by (eapply Qcle_trans; eauto). rewrite E in Y by auto. injection X as <-. injection Y as <-.
    destruct (inv75 q) as (A & B); [eapply Qcle_trans; eauto|]. destruct (inv75 r R) as (A' & B').
    set (a := (1 / (1 - q))%Qc) in *. set (b := (1 / (1 - r))%Qc) in *. clearbody a b. qcs. clear E. nra.
  - split; [reflexivity|]. split; reflexivity.
  - intros q e H X. rewrite E in X by auto. injection X as <-. apply (inv75 q H).
Qed.
Example C75_case_log : log_ok tr75 /\ exp_positive tr75 /\ tr75 "exp" [NaN] = NaN.
Proof.
  split; [split|split]; [| | |reflexivity].
  - intros q H. exists (q - 1)%Qc. unfold tr75. cbn [String.eqb Ascii.eqb Bool.eqb]. rewrite (proj2 (qltb_false q qc0)); [reflexivity|]. apply Qclt_le_weak. auto.
  - intros q H. unfold tr75. cbn [String.eqb Ascii.eqb Bool.eqb]. rewrite (proj2 (qltb_iff q qc0)); [reflexivity|auto].
  - intros q. unfold tr75. cbn [String.eqb Ascii.eqb Bool.eqb]. destruct (qleb q qc0) eqn:E; eexists; (split; [reflexivity|]); right; eexists; (split; [reflexivity|]).
    + apply inv75. apply qleb_iff. auto.
    + qcs. lra.
Qed.
(** erf(0), erf(1), erf(-1), erfc(1) to six digits with this exp; gamma(-1/2); the expression x + gamma(5). *)
Definition micro (v : res val) : option Z := match v with Ok (VNum (Fin q)) => Some (qfloor (q * qz 1000000)) | _ => None end.
Example C75_case :
  map micro [call tr75 (Bare "erf") [nz 0]; call tr75 (Bare "erf") [nz 1]; call tr75 (Dotted "math" "erf") [nz (-1)]; call tr75 (Bare "erfc") [nz 1]] =
    [Some 0; Some 786208; Some (-786209); Some 213791]%Z /\
  call tr75 (Bare "gamma") [Fin (qfrac (-1) 2)] = Ok (VNum NaN) /\
  (exists e t, parsed (XBin OAdd (XName "x") (XCall "gamma" [XLit (SNum (nz 5))])) = Ok e /\ lowered e = Ok t /\ subtree (TCall "gamma" [TConst (KS (SNum (nz 5)))]) t).
Proof.
  split; [vm_compute; reflexivity|]. split; [vm_compute; reflexivity|].
  do 2 eexists. split; [reflexivity|]. split; [reflexivity|].
  eapply sub_call; [|constructor]. cbn. auto.
Qed.
