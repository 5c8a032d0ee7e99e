(** The width of the bins of a bin axis as the machine computes it. *)
From Coq Require Import String Qabs Lqa.
From Verif Require Import Base Num NumFacts Axis Calc Content Fill FillR FillRSpec RoundProofs Tree Order Expr AlgSpec Nd AxisAttr AxisAttrSpec.
Local Open Scope Q_scope.

Lemma inj_lt_52 a b : (a < b)%Z -> inject_Z a < inject_Z b. Proof. rewrite <- Zlt_Qlt. auto. Qed.
Lemma inj_le a b : (a <= b)%Z -> inject_Z a <= inject_Z b. Proof. rewrite <- Zle_Qle. auto. Qed.

Lemma nleb_fin x y : nleb (Fin x) (Fin y) = true <-> this x <= this y.
Proof.
  rewrite nleb_iff. cbn [nltb isnan]. rewrite qltb_iff. split.
  - intros [H|[H _]]; [lra|]. injection H as ->. lra.
  - intros H. destruct (Qlt_le_dec (this x) (this y)) as [L|L]; [left; exact L|right]. split; auto. f_equal. apply Qc_ext. lra.
Qed.
Lemma inj_pred a : inject_Z (a - 1) == inject_Z a - 1.
Proof. unfold Z.sub. rewrite inject_Z_plus. reflexivity. Qed.

(** A positive number with 53 bits and its neighbour. *)
Lemma normal_form a : float53 a -> 0 < this a ->
  exists m g, (2 ^ 52 < m <= 2 ^ 53)%Z /\ a = (qz m * p2 g)%Qc /\ toward0 (Fin a) = Fin (qz (m - 1) * p2 g)%Qc.
Proof.
  intros F P. assert (NZ : a <> qc0). { intros ->. rewrite this_qc0 in P. lra. }
  destruct (exponent_spec a NZ) as [L U]. rewrite Qabs_pos in L, U by lra.
  pose proof (round53_id a F) as R. unfold round53 in R. set (E := exponent a) in *. set (k := nearest (a / p2 (E - 52))) in *.
  assert (HP : 0 < this (p2 (E - 52))) by apply p2_pos.
  assert (EE : this (p2 E) == inject_Z (2 ^ 52) * this (p2 (E - 52))).
  { rewrite <- (p2_z 52), <- p2_add by lia. replace (52 + (E - 52))%Z with E by lia. reflexivity. }
  assert (EE1 : this (p2 (E + 1)) == inject_Z (2 ^ 53) * this (p2 (E - 52))).
  { rewrite <- (p2_z 53), <- p2_add by lia. replace (53 + (E - 52))%Z with (E + 1)%Z by lia. reflexivity. }
  assert (RT : this a == inject_Z k * this (p2 (E - 52))). { rewrite <- R at 1. rewrite this_mul, this_qz. reflexivity. }
  assert (K1 : (2 ^ 52 <= k)%Z). { rewrite Zle_Qle. apply Qmult_le_r with (z := this (p2 (E - 52))); auto. rewrite <- EE, <- RT. auto. }
  assert (K2 : (k < 2 ^ 53)%Z). { rewrite Zlt_Qlt. apply Qmult_lt_r with (z := this (p2 (E - 52))); auto. rewrite <- EE1, <- RT. auto. }
  assert (Q0 : qeqb a qc0 = false) by (destruct (qeqb a qc0) eqn:X; auto; apply qeqb_iff in X; congruence).
  unfold toward0. rewrite Q0.
  assert (S : qltb a qc0 = false). { qc_bool. rewrite this_qc0. lra. } rewrite S. fold E.
  destruct (qeqb a (p2 E)) eqn:Q1.
  - apply qeqb_iff in Q1. assert (EE3 : this (p2 E) == inject_Z (2 ^ 53) * this (p2 (E - 53))).
    { rewrite <- (p2_z 53), <- p2_add by lia. replace (53 + (E - 53))%Z with E by lia. reflexivity. }
    exists (2 ^ 53)%Z, (E - 53)%Z. split; [lia|]. split.
    + rewrite Q1 at 1. apply Qc_ext. rewrite this_mul, this_qz. exact EE3.
    + f_equal. rewrite Q1 at 1. apply Qc_ext. rewrite this_sub, this_mul, this_qz, EE3. rewrite inj_pred. ring.
  - exists k, (E - 52)%Z. split.
    + split; [|lia]. destruct (Z.eq_dec k (2 ^ 52)) as [Y|Y]; [|lia]. exfalso. rewrite Y, <- EE in RT. apply Qc_ext in RT.
      rewrite RT in Q1 at 1. assert (qeqb (p2 E) (p2 E) = true) by (apply qeqb_iff; auto). congruence.
    + split; [apply Qc_ext; rewrite this_mul, this_qz; exact RT|]. f_equal. apply Qc_ext. rewrite this_sub, this_mul, this_qz, RT. rewrite inj_pred. ring.
Qed.

Lemma toward0_below a : float53 a -> 0 < this a -> exists b, toward0 (Fin a) = Fin b /\ just_below a b.
Proof.
  intros F P. destruct (normal_form a F P) as (m & g & M & E & T). exists (qz (m - 1) * p2 g)%Qc. split; auto. pose proof (p2_pos g) as G. repeat split.
  - exists (m - 1)%Z, g. split; auto. lia.
  - rewrite E, !this_mul, !this_qz. apply Qmult_lt_r; auto. apply inj_lt_52. lia.
  - intros r (n & h & N & ->) L. rewrite E in L. rewrite !this_mul, !this_qz in *. pose proof (p2_pos h) as H.
    destruct (Z.le_gt_cases g h) as [C|C].
    + assert (X : this (p2 h) == inject_Z (2 ^ (h - g)) * this (p2 g)). { rewrite <- p2_z, <- p2_add by lia. replace (h - g + g)%Z with h by lia. reflexivity. }
      rewrite X in *. rewrite Qmult_assoc in *. rewrite <- inject_Z_mult in *. apply Qmult_lt_r in L; auto. rewrite <- Zlt_Qlt in L.
      apply Qmult_le_r; auto. apply inj_le. lia.
    + assert (X : this (p2 g) == inject_Z (2 ^ (g - h)) * this (p2 h)). { rewrite <- p2_z, <- p2_add by lia. replace (g - h + h)%Z with g by lia. reflexivity. }
      rewrite X. rewrite Qmult_assoc, <- inject_Z_mult. apply Qmult_le_r; auto. apply inj_le.
      apply Z.le_trans with (2 ^ 52 * 2)%Z; [lia|].
      assert (2 <= 2 ^ (g - h))%Z. { replace 2%Z with (2 ^ 1)%Z at 1 by reflexivity. apply Z.pow_le_mono_r; lia. } nia.
Qed.

Lemma rel q : 0 <= this q -> this q * (1 - (1 # 9007199254740992)) <= this (round53 q) <= this q * (1 + (1 # 9007199254740992)).
Proof.
  intros H. pose proof (round53_error q) as R. rewrite (Qabs_pos (this q)) in R by auto. apply Qabs_Qle_condition in R. change (this (p2 (-53))) with (1 # 9007199254740992) in R. lra.
Qed.

(** The loop stops after at most three subtractions. *)
Section Loop.
  Variables (m g : Z) (n : nat) (N : Qc).
  Hypothesis M : (2 ^ 52 < m <= 2 ^ 53)%Z.
  Definition step (j : nat) : Num := Fin (qz (m - Z.of_nat j) * p2 g)%Qc.
  Lemma step_next j : (j < 3)%nat -> fsub (step j) (Fin (p2 g)) = step (S j).
  Proof.
    intros J. unfold fsub, step, nsub, nadd, nneg, rnum.
    replace (qz (m - Z.of_nat j) * p2 g + - p2 g)%Qc with (qz (m - Z.of_nat (S j)) * p2 g)%Qc.
    - f_equal. apply round53_id. exists (m - Z.of_nat (S j))%Z, g. split; auto. lia.
    - apply Qc_ext. rewrite this_add, this_opp, !this_mul, !this_qz. replace (m - Z.of_nat (S j))%Z with (m - Z.of_nat j + - (1))%Z by lia. rewrite inject_Z_plus. change (inject_Z (- (1))) with (-(1)). ring.
  Qed.
  Hypothesis stop : nleb (Fin N) (fmul (step 3) (nnat n)) = false.
  Lemma turns_end t : forall k, (k + t = 3)%nat -> exists j, (k <= j <= 3)%nat /\ nleb (Fin N) (fmul (step j) (nnat n)) = false /\
    forall turns, (t < turns)%nat -> width_turns turns (step k) (Fin (p2 g)) (nnat n) (Fin N) = Some (step j).
  Proof.
    induction t as [|t IH]; intros k K.
    - assert (k = 3)%nat by lia. subst k. exists 3%nat. split; [lia|]. split; auto. intros [|turns] H; [lia|]. cbn [width_turns]. rewrite stop. reflexivity.
    - destruct (nleb (Fin N) (fmul (step k) (nnat n))) eqn:C.
      + destruct (IH (S k)) as (j & J & F & T); [lia|]. exists j. split; [lia|]. split; auto. intros [|turns] H; [lia|]. cbn [width_turns]. rewrite C, step_next by lia. apply T. lia.
      + exists k. split; [lia|]. split; auto. intros [|turns] H; [lia|]. cbn [width_turns]. rewrite C. reflexivity.
  Qed.
End Loop.

Theorem binwidth_ok n l h : (0 < n)%nat -> this l < this h ->
  exists w, (forall turns, (3 < turns)%nat -> bin_binwidth turns n (Fin l) (Fin h) = Some (Ok (Fin w))) /\
    float53 w /\ 0 < this w /\ this w * inject_Z (Z.of_nat n) < this (round53 (h - l)) /\
    Qabs (this w * inject_Z (Z.of_nat n) - (this h - this l)) <= (8 # 9007199254740992) * (this h - this l).
Proof.
  intros Hn HL. set (D := (h - l)%Qc). set (N := round53 D). set (d := inject_Z (Z.of_nat n)).
  assert (Dp : 0 < this D) by (unfold D; rewrite this_sub; lra).
  assert (d1 : 1 <= d) by (change 1 with (inject_Z 1); apply inj_le; lia).
  destruct (rel D) as [N1 N2]; [lra|]. fold N in N1, N2. assert (Np : 0 < this N) by lra.
  set (q0 := (N / qz (Z.of_nat n))%Qc).
  assert (Q0 : this q0 * d == this N). { unfold q0, d. rewrite this_div, this_qz. field. fold d. lra. }
  assert (Q0p : 0 < this q0) by nra.
  destruct (rel q0) as [A1 A2]; [lra|]. set (a := round53 q0) in *. assert (Ap : 0 < this a) by lra.
  destruct (normal_form a (round53_float q0) Ap) as (m & g & M & EA & T). pose proof (p2_pos g) as G.
  assert (EAt : this a == inject_Z m * this (p2 g)) by (rewrite EA, this_mul, this_qz; reflexivity).
  assert (M1 : inject_Z (2 ^ 52) <= inject_Z m) by (apply inj_le; lia). assert (M2 : inject_Z m <= inject_Z (2 ^ 53)) by (apply inj_le; lia).
  assert (GA : this (p2 g) <= (2 # 9007199254740992) * this a /\ (1 # 9007199254740992) * this a <= this (p2 g)).
  { rewrite EAt. split.
    - assert (X : 1 <= (2 # 9007199254740992) * inject_Z m). { apply Qle_trans with (y := (2 # 9007199254740992) * inject_Z (2 ^ 52)); [vm_compute; discriminate|]. apply Qmult_le_l; auto. reflexivity. } nra.
    - assert (X : (1 # 9007199254740992) * inject_Z m <= 1). { apply Qle_trans with (y := (1 # 9007199254740992) * inject_Z (2 ^ 53)); [apply Qmult_le_l; auto; reflexivity|vm_compute; discriminate]. } nra. }
  destruct GA as [GA1 GA2].
  assert (ST : forall j, this (qz (m - Z.of_nat j) * p2 g)%Qc == this a - inject_Z (Z.of_nat j) * this (p2 g)).
  { intros j. rewrite this_mul, this_qz, EAt. unfold Z.sub. rewrite inject_Z_plus, inject_Z_opp. ring. }
  assert (nn : nnat n = Fin (qz (Z.of_nat n))) by reflexivity.
  assert (stop : nleb (Fin N) (fmul (step m g 3) (nnat n)) = false).
  { rewrite nn. unfold fmul, step, nmul, rnum.
    set (x := (qz (m - Z.of_nat 3) * p2 g * qz (Z.of_nat n))%Qc).
    assert (X : this x == (this a - 3 * this (p2 g)) * d). { unfold x. rewrite this_mul, this_qz, ST. reflexivity. }
    assert (U : this x <= this N * (1 + (1 # 9007199254740992)) * (1 - (3 # 9007199254740992))).
    { rewrite X. assert (Y : this a * d <= this q0 * (1 + (1 # 9007199254740992)) * d) by (apply Qmult_le_compat_r; lra).
      assert (Y2 : (1 # 9007199254740992) * this a * d <= this (p2 g) * d) by (apply Qmult_le_compat_r; lra). lra. }
    assert (XP : 0 <= this x). { rewrite X. assert (0 <= this a - 3 * this (p2 g)) by lra. nra. }
    destruct (rel x XP) as [_ B].
    destruct (nleb (Fin N) (Fin (round53 x))) eqn:C; auto. apply nleb_fin in C. lra. }
  destruct (turns_end m g n N M stop 3 0 eq_refl) as (j & J & F & TT).
  assert (Hj : inject_Z (Z.of_nat j) <= 3). { change 3 with (inject_Z 3). apply inj_le. lia. }
  assert (Hj0 : 0 <= inject_Z (Z.of_nat j)). { change 0 with (inject_Z 0). apply inj_le. lia. }
  exists (qz (m - Z.of_nat j) * p2 g)%Qc. set (w := (qz (m - Z.of_nat j) * p2 g)%Qc). specialize (ST j). fold w in ST.
  assert (W1 : this a * (1 - (6 # 9007199254740992)) <= this w). { rewrite ST. nra. }
  assert (W2 : this w <= this a) by (rewrite ST; nra).
  split.
  { intros turns HT. unfold bin_binwidth. replace (Nat.eqb n 0) with false by (symmetry; apply Nat.eqb_neq; lia).
    assert (ED : fsub (Fin h) (Fin l) = Fin N) by reflexivity. rewrite ED.
    assert (EQ : fdiv (Fin N) (nnat n) = Fin a).
    { rewrite nn. unfold fdiv, ndiv. replace (qeqb (qz (Z.of_nat n)) qc0) with false; [reflexivity|]. symmetry. qc_bool. intros X. assert (X2 : this (qz (Z.of_nat n)) == this qc0) by (rewrite X; reflexivity). rewrite this_qz, this_qc0 in X2. fold d in X2. lra. }
    rewrite EQ. rewrite T. replace (fsub (Fin a) (Fin (qz (m - 1) * p2 g)%Qc)) with (Fin (p2 g)).
    - replace (Fin a) with (step m g 0); [rewrite TT by auto; reflexivity|]. unfold step. rewrite EA. do 3 f_equal. lia.
    - symmetry. unfold fsub, nsub, nadd, nneg, rnum. f_equal. replace (a + - (qz (m - 1) * p2 g))%Qc with (p2 g).
      + apply round53_id. exists 1%Z, g. split; [lia|]. apply Qc_ext. rewrite this_mul, this_qz. ring.
      + rewrite EA. apply Qc_ext. rewrite this_add, this_opp, !this_mul, !this_qz, inj_pred. ring. }
  split. { exists (m - Z.of_nat j)%Z, g. split; auto. lia. }
  assert (wp : 0 < this w). { assert (0 < 1 - (6 # 9007199254740992)) by reflexivity. nra. }
  split; auto.
  assert (WN : this w * d < this N).
  { rewrite nn in F. unfold fmul, step, nmul, rnum in F. fold w in F. assert (F' : ~ this N <= this (round53 (w * qz (Z.of_nat n)))) by (rewrite <- nleb_fin; congruence).
    destruct (Qlt_le_dec (this w * d) (this N)) as [Y|Y]; auto. exfalso.
    assert (Z0 : this N <= this (w * qz (Z.of_nat n))%Qc) by (rewrite this_mul, this_qz; exact Y).
    apply round53_mono in Z0. unfold N in Z0 at 1. rewrite (round53_id (round53 D)) in Z0 by apply round53_float. fold N in Z0. lra. }
  split; auto.
  assert (DD : this D == this h - this l) by (unfold D; apply this_sub). rewrite <- DD. apply Qabs_Qle_condition. split.
  - assert (Y : this q0 * (1 - (1 # 9007199254740992)) * d <= this a * d) by (apply Qmult_le_compat_r; lra).
    assert (Y2 : this a * (1 - (6 # 9007199254740992)) * d <= this w * d) by (apply Qmult_le_compat_r; lra). lra.
  - apply Qle_trans with (y := (1 # 9007199254740992) * this D); [lra|]. apply Qmult_le_r; [auto|]. vm_compute. discriminate.
Qed.
