(** Facts about the rounding of FillR.v. *)
From Coq Require Import String Qabs.
From Verif Require Import Base Num NumFacts FillR FillRSpec.
Local Open Scope Q_scope.

(** ** Powers of two *)
Lemma p2_pos e : 0 < this (p2 e).
Proof.
  destruct e as [|p|p]; unfold p2.
  - reflexivity.
  - rewrite this_qz. change 0 with (inject_Z 0). rewrite <- Zlt_Qlt. apply Z.pow_pos_nonneg; lia.
  - rewrite this_qfrac. reflexivity.
Qed.
Lemma p2_nonneg e : (0 <= e)%Z -> p2 e = qz (2 ^ e).
Proof. destruct e; intros H; try reflexivity. lia. Qed.
Lemma p2_opp e : this (p2 (- e)) * this (p2 e) == 1.
Proof.
  assert (X : forall p, (1 # 2 ^ p) * inject_Z (2 ^ Z.pos p) == 1).
  { intros p. unfold Qeq, Qmult, inject_Z. cbn [Qnum Qden]. rewrite <- Pos2Z.inj_pow. lia. }
  destruct e as [|p|p]; cbn [Z.opp]; unfold p2; rewrite ?this_qz, ?this_qfrac.
  - reflexivity.
  - apply X.
  - rewrite Qmult_comm. apply X.
Qed.
Lemma p2_nat a b : (0 <= a)%Z -> (0 <= b)%Z -> this (p2 (a + b)) == this (p2 a) * this (p2 b).
Proof. intros. rewrite !p2_nonneg by lia. rewrite !this_qz, <- inject_Z_mult, Z.pow_add_r by lia. reflexivity. Qed.
Lemma p2_add a b : this (p2 (a + b)) == this (p2 a) * this (p2 b).
Proof.
  assert (K : forall x, this (p2 x) * this (p2 (- x)) == 1) by (intros; rewrite Qmult_comm; apply p2_opp).
  (* p2 x = 2^(x+n) / 2^n *)
  assert (N : forall x n, (0 <= n)%Z -> (0 <= x + n)%Z -> this (p2 x) == this (p2 (x + n)) * this (p2 (- n))).
  { intros x n Hn Hx. destruct (Z.le_ge_cases 0 x) as [P|P].
    - rewrite p2_nat by lia. rewrite <- Qmult_assoc, K. ring.
    - assert (E : this (p2 n) == this (p2 (x + n)) * this (p2 (- x))).
      { rewrite <- p2_nat by lia. replace (x + n + - x)%Z with n by lia. reflexivity. }
      assert (E2 : this (p2 x) * this (p2 n) == this (p2 (x + n))).
      { rewrite E. transitivity (this (p2 (x + n)) * (this (p2 x) * this (p2 (- x)))); [ring|]. rewrite K. ring. }
      rewrite <- E2, <- Qmult_assoc, K. ring. }
  set (n := (Z.abs a + Z.abs b)%Z).
  rewrite (N (a + b)%Z (n + n)%Z), (N a n), (N b n) by lia.
  replace (a + b + (n + n))%Z with ((a + n) + (b + n))%Z by lia. rewrite p2_nat by lia.
  assert (E : this (p2 (- (n + n))) == this (p2 (- n)) * this (p2 (- n))).
  { assert (E1 := p2_opp (n + n)). rewrite p2_nat in E1 by lia. assert (E2 := K n). pose proof (p2_pos n).
    transitivity (this (p2 (- (n + n))) * ((this (p2 n) * this (p2 (- n))) * (this (p2 n) * this (p2 (- n))))).
    { rewrite E2. ring. }
    transitivity ((this (p2 (- (n + n))) * (this (p2 n) * this (p2 n))) * (this (p2 (- n)) * this (p2 (- n)))); [ring|]. rewrite E1. ring. }
  rewrite E. ring.
Qed.
Lemma p2_le a b : (a <= b)%Z -> this (p2 a) <= this (p2 b).
Proof.
  intros H. replace b with (a + (b - a))%Z by lia. rewrite p2_add. pose proof (p2_pos a).
  assert (1 <= this (p2 (b - a))). { rewrite p2_nonneg, this_qz by lia. change 1 with (inject_Z 1). rewrite <- Zle_Qle. assert (0 < 2 ^ (b - a))%Z by (apply Z.pow_pos_nonneg; lia). lia. }
  nra.
Qed.
Lemma p2_lt_inv a b : this (p2 a) < this (p2 b) -> (a < b)%Z.
Proof. intros H. destruct (Z.lt_ge_cases a b) as [X|X]; auto. apply p2_le in X. lra. Qed.

(** ** Absolute values *)
Definition qabs (q : Qc) : Qc := (if qltb q qc0 then - q else q)%Qc.
Lemma this_qabs q : this (qabs q) == Qabs.Qabs (this q).
Proof.
  unfold qabs. destruct (qltb q qc0) eqn:E; qc_bool.
  - rewrite this_opp. rewrite Qabs.Qabs_neg; [reflexivity|]. rewrite this_qc0 in E. lra.
  - rewrite Qabs.Qabs_pos; [reflexivity|]. rewrite this_qc0 in E. lra.
Qed.

(** ** The exponent *)
Lemma exponent_spec q : q <> qc0 -> this (p2 (exponent q)) <= Qabs.Qabs (this q) /\ Qabs.Qabs (this q) < this (p2 (exponent q + 1)).
Proof.
  intros NZ. unfold exponent. fold (qabs q).
  set (a := Z.abs (Qnum (this q))). set (d := Zpos (Qden (this q))).
  assert (PA : (0 < a)%Z).
  { unfold a. assert (Qnum (this q) <> 0)%Z; [|lia]. intros E. apply NZ. apply Qc_ext. rewrite this_qc0. unfold Qeq. cbn. rewrite E. reflexivity. }
  assert (AQ : Qabs.Qabs (this q) * inject_Z d == inject_Z a).
  { unfold a, d. destruct (this q) as [n k]. unfold Qabs.Qabs, Qeq, Qmult, inject_Z. cbn. lia. }
  destruct (Z.log2_spec a PA) as [A1 A2]. destruct (Z.log2_spec d ltac:(reflexivity)) as [D1 D2].
  pose proof (Z.log2_nonneg a). pose proof (Z.log2_nonneg d).
  set (la := Z.log2 a) in *. set (ld := Z.log2 d) in *.
  assert (PD : 0 < inject_Z d) by (change 0 with (inject_Z 0); rewrite <- Zlt_Qlt; reflexivity).
  assert (U : Qabs.Qabs (this q) < this (p2 (la - ld + 1))).
  { apply Qmult_lt_r with (z := inject_Z d); auto. rewrite AQ.
    apply Qlt_le_trans with (y := inject_Z (2 ^ Z.succ la)); [rewrite <- Zlt_Qlt; auto|].
    apply Qle_trans with (y := this (p2 (la - ld + 1)) * inject_Z (2 ^ ld)).
    - rewrite <- this_qz, <- (p2_nonneg (Z.succ la)) by lia. rewrite <- (this_qz (2 ^ ld)), <- (p2_nonneg ld) by lia. rewrite <- p2_add.
      replace (la - ld + 1 + ld)%Z with (Z.succ la) by lia. apply Qle_refl.
    - pose proof (p2_pos (la - ld + 1)). assert (inject_Z (2 ^ ld) <= inject_Z d) by (rewrite <- Zle_Qle; auto). nra. }
  assert (W : this (p2 (la - ld - 1)) <= Qabs.Qabs (this q)).
  { apply Qmult_le_r with (z := inject_Z d); auto. rewrite AQ.
    apply Qle_trans with (y := inject_Z (2 ^ la)); [|rewrite <- Zle_Qle; auto].
    apply Qle_trans with (y := this (p2 (la - ld - 1)) * inject_Z (2 ^ Z.succ ld)).
    - pose proof (p2_pos (la - ld - 1)). assert (inject_Z d <= inject_Z (2 ^ Z.succ ld)) by (rewrite <- Zle_Qle; lia). nra.
    - rewrite <- !this_qz, <- !p2_nonneg by lia. rewrite <- p2_add. replace (la - ld - 1 + Z.succ ld)%Z with la by lia. apply Qle_refl. }
  destruct (qleb (p2 (la - ld)) (qabs q)) eqn:E; qc_bool; rewrite this_qabs in E.
  - split; auto.
  - split; auto. replace (la - ld - 1 + 1)%Z with (la - ld)%Z by lia. auto.
Qed.

(** ** Nearest integer *)
Lemma nearest_spec q : - (1 # 2) <= inject_Z (nearest q) - this q <= 1 # 2.
Proof.
  unfold nearest. destruct (qfloor_spec q) as [A B]. rewrite inject_Z_plus in B. change (inject_Z 1) with 1 in B.
  destruct (qltb (q - qz (qfloor q)) (qfrac 1 2)) eqn:E1; qc_bool; qc_push; [lra|].
  destruct (qltb (qfrac 1 2) (q - qz (qfloor q))) eqn:E2; qc_bool; qc_push.
  - rewrite inject_Z_plus. change (inject_Z 1) with 1. lra.
  - destruct (Z.even (qfloor q)); rewrite ?inject_Z_plus; change (inject_Z 1) with 1; lra.
Qed.
Lemma nearest_z z : nearest (qz z) = z.
Proof.
  unfold nearest. rewrite qfloor_qz. replace (qltb (qz z - qz z) (qfrac 1 2)) with true; auto. symmetry. qc_bool. qc_push. lra.
Qed.
(** ... is at least as close as any other integer. *)
Lemma nearest_best q k : Qabs.Qabs (inject_Z (nearest q) - this q) <= Qabs.Qabs (inject_Z k - this q).
Proof.
  destruct (nearest_spec q) as [A B]. set (n := nearest q) in *.
  destruct (Z.eq_dec k n) as [->|N]; [apply Qle_refl|].
  apply Qle_trans with (y := 1 # 2); [apply Qabs.Qabs_Qle_condition; lra|].
  destruct (Z.lt_ge_cases k n) as [H|H].
  - assert (X : inject_Z k <= inject_Z n - 1). { change 1 with (inject_Z 1). unfold Qminus. rewrite <- inject_Z_opp, <- inject_Z_plus, <- Zle_Qle. lia. }
    rewrite Qabs.Qabs_neg; lra.
  - assert (X : inject_Z n + 1 <= inject_Z k). { change 1 with (inject_Z 1). rewrite <- inject_Z_plus, <- Zle_Qle. lia. }
    rewrite Qabs.Qabs_pos; lra.
Qed.

(** ** Rounding *)
Lemma round53_0 : round53 qc0 = qc0.
Proof. apply Qc_ext. vm_compute. reflexivity. Qed.
Lemma round53_this q : this (round53 q) == inject_Z (nearest (q / p2 (exponent q - 52))) * this (p2 (exponent q - 52)).
Proof. unfold round53. rewrite this_mul, this_qz. reflexivity. Qed.
Lemma scaled q u : 0 < this u -> this (q / u)%Qc * this u == this q.
Proof. intros H. rewrite this_div. field. intros E. rewrite E in H. apply Qlt_irrefl in H. auto. Qed.
Lemma Qabs_scale a u : 0 < u -> Qabs (a * u) == Qabs a * u.
Proof. intros H. rewrite Qabs_Qmult. rewrite (Qabs_pos u); [reflexivity|]. lra. Qed.
Lemma round53_off q : Qabs (this (round53 q) - this q) ==
  Qabs (inject_Z (nearest (q / p2 (exponent q - 52))) - this (q / p2 (exponent q - 52))%Qc) * this (p2 (exponent q - 52)).
Proof.
  set (u := p2 (exponent q - 52)). pose proof (p2_pos (exponent q - 52)) as P. fold u in P.
  rewrite round53_this. fold u. rewrite <- Qabs_scale by auto. apply Qabs_wd. rewrite <- (scaled q u P). ring.
Qed.

Lemma round53_error q : Qabs (this (round53 q) - this q) <= this (p2 (-53)) * Qabs (this q).
Proof.
  destruct (Qc_eq_dec q qc0) as [->|NZ].
  { rewrite round53_0. vm_compute. discriminate. }
  destruct (exponent_spec q NZ) as [L _]. rewrite round53_off.
  set (u := p2 (exponent q - 52)). pose proof (p2_pos (exponent q - 52)) as P. fold u in P.
  assert (H : Qabs (inject_Z (nearest (q / u)) - this (q / u)%Qc) <= 1 # 2) by (apply Qabs_Qle_condition; apply nearest_spec).
  apply Qle_trans with (y := (1 # 2) * this u); [nra|].
  apply Qle_trans with (y := this (p2 (-53)) * this (p2 (exponent q))).
  - unfold u. rewrite <- p2_add. replace (-53 + exponent q)%Z with (-1 + (exponent q - 52))%Z by lia. rewrite p2_add.
    change (this (p2 (-1))) with (1 # 2). apply Qle_refl.
  - pose proof (p2_pos (-53)). nra.
Qed.

Lemma p2_z k : (0 <= k)%Z -> this (p2 k) == inject_Z (2 ^ k).
Proof. intros. rewrite p2_nonneg, this_qz by auto. reflexivity. Qed.

Lemma round53_multiple q k : q = (qz k * p2 (exponent q - 52))%Qc -> round53 q = q.
Proof.
  intros E. apply Qc_ext. rewrite round53_this. set (u := p2 (exponent q - 52)) in *. pose proof (p2_pos (exponent q - 52)) as P. fold u in P.
  assert (X : (q / u)%Qc = qz k).
  { apply Qc_ext. rewrite this_div. rewrite E at 1. rewrite this_mul. field. intros Z. rewrite Z in P. apply Qlt_irrefl in P. auto. }
  rewrite X, nearest_z. rewrite E. rewrite this_mul, this_qz. reflexivity.
Qed.

Lemma inject_abs m : Qabs (inject_Z m) == inject_Z (Z.abs m).
Proof. reflexivity. Qed.
Lemma round53_id q : float53 q -> round53 q = q.
Proof.
  intros (m & e & Hm & E). destruct (Qc_eq_dec q qc0) as [->|NZ]; [apply round53_0|].
  destruct (exponent_spec q NZ) as [L U].
  assert (A : Qabs (this q) == inject_Z (Z.abs m) * this (p2 e)).
  { rewrite E, this_mul, this_qz, Qabs_scale by apply p2_pos. rewrite inject_abs. reflexivity. }
  destruct (Z.eq_dec (Z.abs m) (2 ^ 53)) as [Em|Em].
  - (* a power of two *)
    rewrite Em in A. rewrite <- (p2_z 53) in A by lia. rewrite <- p2_add in A. rewrite A in L, U.
    assert (X : exponent q = (53 + e)%Z).
    { apply p2_lt_inv in U. destruct (Z.le_gt_cases (exponent q) (53 + e)) as [G|G]; [lia|].
      assert (G' : (53 + e + 1 <= exponent q)%Z) by lia. apply p2_le in G'. rewrite p2_add in G'.
      change (this (p2 1)) with 2 in G'. pose proof (p2_pos (53 + e)). lra. }
    apply round53_multiple with (k := (m / 2)%Z). rewrite X. apply Qc_ext. rewrite E at 1. rewrite !this_mul, !this_qz.
    replace (53 + e - 52)%Z with (e + 1)%Z by lia. rewrite p2_add. change (this (p2 1)) with (inject_Z 2).
    assert (Y : m = (m / 2 * 2)%Z). { assert (D : (m mod 2 = 0)%Z). { destruct (Z.abs_eq_or_opp m) as [Q|Q]; [replace m with (2 ^ 53)%Z by lia|replace m with (- 2 ^ 53)%Z by lia]; reflexivity. } pose proof (Z.div_mod m 2). lia. }
    rewrite Y at 1. rewrite inject_Z_mult. ring.
  - assert (B : Qabs (this q) < this (p2 (53 + e))).
    { rewrite A, p2_add. rewrite (p2_z 53) by lia. apply Qmult_lt_r; [apply p2_pos|]. rewrite <- Zlt_Qlt. lia. }
    assert (X : (exponent q < 53 + e)%Z). { apply p2_lt_inv. lra. }
    apply round53_multiple with (k := (m * 2 ^ (e - (exponent q - 52)))%Z). apply Qc_ext. rewrite E at 1. rewrite !this_mul, !this_qz.
    rewrite inject_Z_mult. rewrite <- (p2_z (e - (exponent q - 52))) by lia. rewrite <- Qmult_assoc, <- p2_add.
    replace (e - (exponent q - 52) + (exponent q - 52))%Z with e by lia. reflexivity.
Qed.

Lemma float53_z z : (Z.abs z <= 2 ^ 53)%Z -> float53 (qz z).
Proof. intros H. exists z, 0%Z. split; auto. apply Qc_ext. rewrite this_mul. change (this (p2 0)) with 1. ring. Qed.
Lemma round53_z z : (Z.abs z <= 2 ^ 53)%Z -> round53 (qz z) = qz z.
Proof. intros H. apply round53_id, float53_z, H. Qed.

Lemma round53_float q : float53 (round53 q).
Proof.
  destruct (Qc_eq_dec q qc0) as [->|NZ].
  { rewrite round53_0. apply float53_z. lia. }
  destruct (exponent_spec q NZ) as [L U]. unfold round53. set (u := p2 (exponent q - 52)). pose proof (p2_pos (exponent q - 52)) as P. fold u in P.
  exists (nearest (q / u)), (exponent q - 52)%Z. split; auto.
  assert (B : Qabs (this (q / u)%Qc) < inject_Z (2 ^ 53)).
  { apply Qmult_lt_r with (z := this u); auto. rewrite <- Qabs_scale, scaled by auto. rewrite <- (p2_z 53) by lia. unfold u. rewrite <- p2_add.
    replace (53 + (exponent q - 52))%Z with (exponent q + 1)%Z by lia. auto. }
  destruct (nearest_spec (q / u)) as [N1 N2]. apply Qabs_Qlt_condition in B. destruct B as [B1 B2].
  set (n := nearest (q / u)) in *.
  assert (C1 : inject_Z n < inject_Z (2 ^ 53 + 1)). { rewrite inject_Z_plus. change (inject_Z 1) with 1. lra. }
  assert (C2 : inject_Z (- 2 ^ 53 - 1) < inject_Z n). { unfold Z.sub. rewrite inject_Z_plus, inject_Z_opp. change (inject_Z (- (1))) with (- (1)). lra. }
  rewrite <- Zlt_Qlt in C1, C2. lia.
Qed.

Lemma round53_closest q : closest q (round53 q).
Proof.
  split; [apply round53_float|]. intros r (m & e & Hm & E).
  destruct (Qc_eq_dec q qc0) as [->|NZ].
  { rewrite round53_0. change (this qc0) with 0. rewrite (Qabs_wd (0 - 0) 0) by reflexivity. apply Qabs_nonneg. }
  destruct (exponent_spec q NZ) as [L U]. set (x := exponent q) in *. set (u := p2 (x - 52)). pose proof (p2_pos (x - 52)) as P. fold u in P.
  assert (Z : forall k, Qabs (this (round53 q) - this q) <= Qabs (inject_Z k * this u - this q)).
  { intros k. rewrite round53_off. fold x u. rewrite (Qabs_wd (inject_Z k * this u - this q) ((inject_Z k - this (q / u)%Qc) * this u)).
    - rewrite Qabs_scale by auto. apply Qmult_le_compat_r; [apply nearest_best|lra].
    - rewrite <- (scaled q u P) at 1. ring. }
  destruct (Z.lt_ge_cases e (x - 52)) as [H|H].
  - (* smaller than the power of two below q *)
    assert (R : Qabs (this r) <= this (p2 x)).
    { rewrite E, this_mul, this_qz, Qabs_scale by apply p2_pos. rewrite inject_abs.
      apply Qle_trans with (y := this (p2 53) * this (p2 e)).
      - rewrite (p2_z 53) by lia. apply Qmult_le_compat_r; [rewrite <- Zle_Qle; auto|]. pose proof (p2_pos e). lra.
      - rewrite <- p2_add. apply p2_le. lia. }
    assert (X : this (p2 x) == inject_Z (2 ^ 52) * this u). { unfold u. rewrite <- (p2_z 52), <- p2_add by lia. replace (52 + (x - 52))%Z with x by lia. reflexivity. }
    apply Qabs_Qle_condition in R. destruct R as [R1 R2].
    destruct (Qlt_le_dec (this q) 0) as [S|S].
    + rewrite Qabs_neg in L by lra. specialize (Z (- 2 ^ 52)%Z). rewrite inject_Z_opp in Z.
      rewrite (Qabs_pos (this r - this q)) by lra. eapply Qle_trans; [exact Z|]. rewrite Qabs_pos by lra. lra.
    + rewrite Qabs_pos in L by lra. specialize (Z (2 ^ 52)%Z).
      rewrite (Qabs_neg (this r - this q)) by lra. eapply Qle_trans; [exact Z|]. rewrite Qabs_neg by lra. lra.
  - specialize (Z (m * 2 ^ (e - (x - 52)))%Z).
    assert (X : inject_Z (m * 2 ^ (e - (x - 52))) * this u == this r).
    { rewrite E, this_mul, this_qz, inject_Z_mult. rewrite <- (p2_z (e - (x - 52))) by lia. unfold u. rewrite <- Qmult_assoc, <- p2_add.
      replace (e - (x - 52) + (x - 52))%Z with e by lia. reflexivity. }
    eapply Qle_trans; [exact Z|]. rewrite (Qabs_wd _ (this r - this q)) by (rewrite X; reflexivity). apply Qle_refl.
Qed.

Lemma closest_half q a b : Qabs (this a - this q) <= Qabs (this b - this q) -> this a < this b -> this q <= (this a + this b) * (1 # 2).
Proof.
  intros H L. destruct (Qlt_le_dec ((this a + this b) * (1 # 2)) (this q)) as [X|X]; auto. exfalso.
  rewrite (Qabs_neg (this a - this q)) in H by lra. revert H. apply (Qabs_case (this b - this q) (fun y => - (this a - this q) <= y -> False)); intros; lra.
Qed.
Lemma closest_half' q a b : Qabs (this b - this q) <= Qabs (this a - this q) -> this a < this b -> (this a + this b) * (1 # 2) <= this q.
Proof.
  intros H L. destruct (Qlt_le_dec (this q) ((this a + this b) * (1 # 2))) as [X|X]; auto. exfalso.
  rewrite (Qabs_pos (this b - this q)) in H by lra. revert H. apply (Qabs_case (this a - this q) (fun y => this b - this q <= y -> False)); intros; lra.
Qed.
Lemma round53_mono x y : this x <= this y -> this (round53 x) <= this (round53 y).
Proof.
  intros H. destruct (Qlt_le_dec (this (round53 y)) (this (round53 x))) as [C|C]; auto. exfalso.
  destruct (round53_closest x) as [Fx Bx]. destruct (round53_closest y) as [Fy By].
  pose proof (closest_half' x _ _ (Bx _ Fy) C). pose proof (closest_half y _ _ (By _ Fx) C).
  assert (E : x = y) by (apply Qc_ext; lra). subst y. lra.
Qed.
