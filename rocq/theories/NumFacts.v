(** Facts about the numbers of Num.v: transfer to Q, comparisons, the commutative monoid of sums. *)
From Coq Require Import Permutation.
From Verif Require Import Num.

(** ** Transfer of Qc statements to Q, where [lra]/[nra] apply *)
Lemma this_add (x y : Qc) : (this (x + y)%Qc == this x + this y)%Q.
Proof. unfold Qcplus; apply Qred_correct. Qed.
Lemma this_mul (x y : Qc) : (this (x * y)%Qc == this x * this y)%Q.
Proof. unfold Qcmult; apply Qred_correct. Qed.
Lemma this_opp (x : Qc) : (this (- x)%Qc == - this x)%Q.
Proof. unfold Qcopp; apply Qred_correct. Qed.
Lemma this_sub (x y : Qc) : (this (x - y)%Qc == this x - this y)%Q.
Proof. unfold Qcminus; rewrite this_add, this_opp; reflexivity. Qed.
Lemma this_inv (x : Qc) : (this (/ x)%Qc == / this x)%Q.
Proof. unfold Qcinv; apply Qred_correct. Qed.
Lemma this_div (x y : Qc) : (this (x / y)%Qc == this x / this y)%Q.
Proof. unfold Qcdiv; rewrite this_mul, this_inv; reflexivity. Qed.
Lemma this_qz z : (this (qz z) == inject_Z z)%Q.
Proof. unfold qz; apply Qred_correct. Qed.
Lemma this_qfrac n d : (this (qfrac n d) == n # d)%Q.
Proof. unfold qfrac; apply Qred_correct. Qed.
Lemma this_qc0 : (this qc0 == 0)%Q. Proof. reflexivity. Qed.
Lemma this_qc1 : (this qc1 == 1)%Q. Proof. reflexivity. Qed.
Lemma Qc_ext (x y : Qc) : (this x == this y)%Q -> x = y.
Proof. apply Qc_is_canon. Qed.
Lemma Qc_ext_iff (x y : Qc) : x = y <-> (this x == this y)%Q.
Proof. split; [intros ->; reflexivity | apply Qc_ext]. Qed.

Lemma qleb_iff x y : qleb x y = true <-> (this x <= this y)%Q.
Proof. unfold qleb; apply Qle_bool_iff. Qed.
Lemma qleb_false x y : qleb x y = false <-> (this y < this x)%Q.
Proof.
  unfold qleb. split; intro H.
  - destruct (Qlt_le_dec (this y) (this x)) as [Hl|Hl]; [exact Hl|].
    apply Qle_bool_iff in Hl; congruence.
  - destruct (Qle_bool (this x) (this y)) eqn:E; [|reflexivity].
    apply Qle_bool_iff in E. exfalso; lra.
Qed.
Lemma qltb_iff x y : qltb x y = true <-> (this x < this y)%Q.
Proof. unfold qltb. rewrite negb_true_iff. apply (qleb_false y x). Qed.
Lemma qltb_false x y : qltb x y = false <-> (this y <= this x)%Q.
Proof. unfold qltb. rewrite negb_false_iff. apply (qleb_iff y x). Qed.
Lemma qeqb_iff x y : qeqb x y = true <-> x = y.
Proof. unfold qeqb. rewrite Qeq_bool_iff, <- Qc_ext_iff. reflexivity. Qed.
Lemma qeqb_false x y : qeqb x y = false <-> x <> y.
Proof. rewrite <- qeqb_iff. destruct (qeqb x y); split; congruence. Qed.
Lemma qeqb_refl x : qeqb x x = true.
Proof. apply qeqb_iff; reflexivity. Qed.

(** Push [this] through arithmetic everywhere, then linear arithmetic on Q applies. *)
Ltac qc_push :=
  repeat (rewrite ?this_add, ?this_mul, ?this_opp, ?this_sub, ?this_div, ?this_inv, ?this_qz,
            ?this_qfrac, ?this_qc0, ?this_qc1 in * ).

Ltac qc_bool :=
  repeat match goal with
  | H : qleb _ _ = true |- _ => apply qleb_iff in H
  | H : qleb _ _ = false |- _ => apply qleb_false in H
  | H : qltb _ _ = true |- _ => apply qltb_iff in H
  | H : qltb _ _ = false |- _ => apply qltb_false in H
  | H : qeqb _ _ = true |- _ => apply qeqb_iff in H
  | H : qeqb _ _ = false |- _ => apply qeqb_false in H
  | |- qleb _ _ = true => apply qleb_iff
  | |- qleb _ _ = false => apply qleb_false
  | |- qltb _ _ = true => apply qltb_iff
  | |- qltb _ _ = false => apply qltb_false
  | |- qeqb _ _ = true => apply qeqb_iff
  | |- qeqb _ _ = false => apply qeqb_false
  end.

Ltac qlra := qc_bool; qc_push; try lra.
Ltac qc_eq := apply Qc_ext; qc_push; try (ring || field); try lra.

Lemma qz_inj a b : qz a = qz b -> a = b.
Proof.
  intro H. apply (f_equal this) in H.
  assert (Hq : (inject_Z a == inject_Z b)%Q) by (rewrite <- (this_qz a), <- (this_qz b), H; reflexivity).
  unfold Qeq in Hq; simpl in Hq; lia.
Qed.
Lemma qz_add a b : qz (a + b) = (qz a + qz b)%Qc.
Proof. qc_eq. rewrite inject_Z_plus; reflexivity. Qed.
Lemma qz_mul a b : qz (a * b) = (qz a * qz b)%Qc.
Proof. qc_eq. rewrite inject_Z_mult; reflexivity. Qed.
Lemma qz_opp a : qz (- a) = (- qz a)%Qc.
Proof. qc_eq. rewrite inject_Z_opp; reflexivity. Qed.

(** ** floor and ceil *)
Lemma qfloor_spec x : (inject_Z (qfloor x) <= this x)%Q /\ (this x < inject_Z (qfloor x + 1))%Q.
Proof. split; [apply Qfloor_le | apply Qlt_floor]. Qed.
Lemma qceil_spec x : (inject_Z (qceil x - 1) < this x)%Q /\ (this x <= inject_Z (qceil x))%Q.
Proof. split; [apply Qceiling_lt | apply Qle_ceiling]. Qed.
Lemma qfloor_unique x z : (inject_Z z <= this x)%Q -> (this x < inject_Z (z + 1))%Q -> qfloor x = z.
Proof.
  intros H1 H2. destruct (qfloor_spec x) as [H3 H4].
  assert (inject_Z (qfloor x) < inject_Z (z + 1))%Q by lra.
  assert (inject_Z z < inject_Z (qfloor x + 1))%Q by lra.
  rewrite <- Zlt_Qlt in *. lia.
Qed.
Lemma qceil_unique x z : (inject_Z (z - 1) < this x)%Q -> (this x <= inject_Z z)%Q -> qceil x = z.
Proof.
  intros H1 H2. destruct (qceil_spec x) as [H3 H4].
  assert (inject_Z (qceil x - 1) < inject_Z z)%Q by lra.
  assert (inject_Z (z - 1) < inject_Z (qceil x))%Q by lra.
  rewrite <- Zlt_Qlt in *. lia.
Qed.
Lemma qfloor_le_iff x z : (z <= qfloor x)%Z <-> (inject_Z z <= this x)%Q.
Proof.
  destruct (qfloor_spec x) as [H3 H4]. split; intro H.
  - rewrite Zle_Qle in H. lra.
  - assert (inject_Z z < inject_Z (qfloor x + 1))%Q by lra. rewrite <- Zlt_Qlt in *. lia.
Qed.
Lemma qceil_le_iff x z : (qceil x <= z)%Z <-> (this x <= inject_Z z)%Q.
Proof.
  destruct (qceil_spec x) as [H3 H4]. split; intro H.
  - rewrite Zle_Qle in H. lra.
  - assert (inject_Z (qceil x - 1) < inject_Z z)%Q by lra. rewrite <- Zlt_Qlt in *. lia.
Qed.
Lemma qfloor_mono x y : (this x <= this y)%Q -> (qfloor x <= qfloor y)%Z.
Proof. intro H. apply qfloor_le_iff. destruct (qfloor_spec x). lra. Qed.
Lemma qceil_mono x y : (this x <= this y)%Q -> (qceil x <= qceil y)%Z.
Proof. intro H. apply qceil_le_iff. destruct (qceil_spec y). lra. Qed.
Lemma qfloor_qz z : qfloor (qz z) = z.
Proof. apply qfloor_unique; rewrite this_qz; [lra | rewrite <- Zlt_Qlt; lia]. Qed.
Lemma qceil_qz z : qceil (qz z) = z.
Proof. apply qceil_unique; rewrite this_qz; [rewrite <- Zlt_Qlt; lia | lra]. Qed.

(** ** Comparisons of extended numbers *)
Lemma neqb_refl a : isnan a = false -> neqb a a = true.
Proof. destruct a; simpl; try discriminate; intros _; [apply qeqb_refl|reflexivity|reflexivity]. Qed.
Lemma neqb_eq a b : neqb a b = true -> a = b.
Proof.
  destruct a, b; simpl; try discriminate; try reflexivity. intro H. apply qeqb_iff in H. congruence.
Qed.
Lemma neqb_iff a b : neqb a b = true <-> a = b /\ isnan a = false.
Proof.
  split; [|intros [-> H]; apply neqb_refl, H].
  intro H. split; [apply neqb_eq, H|]. destruct a; simpl in *; congruence.
Qed.
Lemma neqb_sym a b : neqb a b = neqb b a.
Proof.
  destruct a, b; simpl; try reflexivity.
  destruct (qeqb q q0) eqn:E.
  - apply qeqb_iff in E; subst. symmetry; apply qeqb_refl.
  - symmetry. apply qeqb_false. apply qeqb_false in E. congruence.
Qed.

Ltac num_case := repeat match goal with a : Num |- _ => destruct a end; simpl in *.

Lemma nltb_trans a b c : nltb a b = true -> nltb b c = true -> nltb a c = true.
Proof.
  destruct a, b, c; simpl; try discriminate; try reflexivity. intros; qlra.
Qed.
Lemma nltb_irrefl a : nltb a a = false.
Proof. destruct a; simpl; try reflexivity. qlra. Qed.
Lemma nltb_asym a b : nltb a b = true -> nltb b a = false.
Proof.
  intro H. destruct (nltb b a) eqn:E; [|reflexivity].
  rewrite <- (nltb_irrefl a). symmetry. eapply nltb_trans; eauto.
Qed.
Lemma nleb_iff a b : nleb a b = true <-> nltb a b = true \/ (a = b /\ isnan a = false).
Proof. unfold nleb. rewrite orb_true_iff, neqb_iff. reflexivity. Qed.
Lemma nleb_refl a : isnan a = false -> nleb a a = true.
Proof. intro H. apply nleb_iff. right; auto. Qed.
Lemma nleb_nltb a b : isnan a = false -> isnan b = false -> nleb a b = negb (nltb b a).
Proof.
  intros Ha Hb. unfold nleb. destruct a, b; simpl in *; try discriminate; try reflexivity.
  destruct (qltb q q0) eqn:E1; simpl.
  - symmetry. apply negb_true_iff. qlra.
  - destruct (qeqb q q0) eqn:E2.
    + apply qeqb_iff in E2; subst. symmetry. apply negb_true_iff. qlra.
    + symmetry. apply negb_false_iff. apply qltb_iff. apply qltb_false in E1.
      apply qeqb_false in E2.
      destruct (Qlt_le_dec (this q0) (this q)) as [H|H]; [exact H|].
      exfalso. apply E2. apply Qc_ext. lra.
Qed.
Lemma nltb_nleb a b : nltb a b = true -> nleb a b = true.
Proof. intro H. unfold nleb. rewrite H. reflexivity. Qed.
Lemma nleb_trans a b c : nleb a b = true -> nleb b c = true -> nleb a c = true.
Proof.
  rewrite !nleb_iff. intros [H1|[-> H1]] [H2|[-> H2]]; auto.
  left; eapply nltb_trans; eauto.
Qed.
Lemma nltb_nleb_trans a b c : nltb a b = true -> nleb b c = true -> nltb a c = true.
Proof. rewrite nleb_iff. intros H1 [H2|[-> H2]]; [eapply nltb_trans; eauto | exact H1]. Qed.
Lemma nleb_nltb_trans a b c : nleb a b = true -> nltb b c = true -> nltb a c = true.
Proof. rewrite nleb_iff. intros [H1|[-> H1]] H2; [eapply nltb_trans; eauto | exact H2]. Qed.
Lemma ntrichotomy a b : isnan a = false -> isnan b = false ->
  nltb a b = true \/ a = b \/ nltb b a = true.
Proof.
  intros Ha Hb. pose proof (nleb_nltb b a Hb Ha) as H.
  destruct (nltb a b) eqn:E; [auto|]. simpl in H. apply nleb_iff in H. destruct H as [H|[H _]]; auto.
Qed.
Lemma nltb_notnan a b : nltb a b = true -> isnan a = false /\ isnan b = false.
Proof. destruct a, b; simpl; intro H; try discriminate; auto. Qed.
Lemma nleb_notnan a b : nleb a b = true -> isnan a = false /\ isnan b = false.
Proof. rewrite nleb_iff. intros [H|[-> H]]; [apply nltb_notnan, H|auto]. Qed.

(** ** Sums: a commutative monoid, special values included *)
Lemma nadd_comm a b : nadd a b = nadd b a.
Proof. destruct a, b; simpl; try reflexivity. f_equal. qc_eq. Qed.
Lemma nadd_assoc a b c : nadd a (nadd b c) = nadd (nadd a b) c.
Proof. destruct a, b, c; simpl; try reflexivity. f_equal. qc_eq. Qed.
Lemma nadd_0_l a : nadd nzero a = a.
Proof. destruct a; simpl; try reflexivity. f_equal. qc_eq. Qed.
Lemma nadd_0_r a : nadd a nzero = a.
Proof. rewrite nadd_comm. apply nadd_0_l. Qed.
Lemma nadd_swap a b c d : nadd (nadd a b) (nadd c d) = nadd (nadd a c) (nadd b d).
Proof.
  rewrite <- !nadd_assoc. f_equal. rewrite !nadd_assoc. f_equal. apply nadd_comm.
Qed.
Lemma nadd_fin x y : nadd (Fin x) (Fin y) = Fin (x + y)%Qc.
Proof. reflexivity. Qed.

Lemma nsum_app l m : nsum (l ++ m) = nadd (nsum l) (nsum m).
Proof.
  induction l as [|x l IH]; cbn [app nsum fold_right].
  - symmetry; apply nadd_0_l.
  - fold (nsum (l ++ m)). fold (nsum l). rewrite IH. apply nadd_assoc.
Qed.
Lemma nsum_cons x l : nsum (x :: l) = nadd x (nsum l).
Proof. reflexivity. Qed.
Lemma nsum_perm l m : Permutation l m -> nsum l = nsum m.
Proof.
  induction 1; cbn [nsum fold_right]; try reflexivity.
  - unfold nsum in IHPermutation. rewrite IHPermutation. reflexivity.
  - rewrite !nadd_assoc. f_equal. apply nadd_comm.
  - congruence.
Qed.
Lemma nsum_zero l : (forall x, In x l -> x = nzero) -> nsum l = nzero.
Proof.
  induction l as [|x l IH]; intro H; [reflexivity|].
  rewrite nsum_cons, (H x) by (left; reflexivity). rewrite nadd_0_l. apply IH.
  intros y Hy; apply H; right; exact Hy.
Qed.
Lemma nsum_repeat_zero n : nsum (repeat nzero n) = nzero.
Proof. apply nsum_zero. intros x Hx. apply repeat_spec in Hx. exact Hx. Qed.
Lemma nsum_map_add {A} (f g : A -> Num) l :
  nsum (map (fun x => nadd (f x) (g x)) l) = nadd (nsum (map f l)) (nsum (map g l)).
Proof.
  induction l as [|x l IH]; cbn [map]; [symmetry; apply nadd_0_l|].
  rewrite !nsum_cons, IH. apply nadd_swap.
Qed.
Lemma nsum_swap {A B} (f : A -> B -> Num) la lb :
  nsum (map (fun a => nsum (map (f a) lb)) la) = nsum (map (fun b => nsum (map (fun a => f a b) la)) lb).
Proof.
  induction la as [|a la IH]; cbn [map].
  - symmetry. apply nsum_zero. intros x Hx. apply in_map_iff in Hx.
    destruct Hx as (b & Hb & _). rewrite <- Hb. reflexivity.
  - rewrite nsum_cons, IH, <- nsum_map_add. reflexivity.
Qed.
Lemma nsum_const_one n : nsum (repeat none1 n) = nnat n.
Proof.
  induction n as [|n IH]; [reflexivity|].
  cbn [repeat]. rewrite nsum_cons, IH. unfold nnat, nz, none1, qc1. simpl. f_equal.
  rewrite <- qz_add. f_equal. lia.
Qed.

(** ** Multiplication *)
Lemma nmul_comm a b : nmul a b = nmul b a.
Proof. destruct a, b; simpl; try reflexivity. f_equal. qc_eq. Qed.
Lemma nmul_1_l a : nmul none1 a = a.
Proof. destruct a; simpl; try reflexivity. f_equal. qc_eq. Qed.
Lemma nmul_1_r a : nmul a none1 = a.
Proof. rewrite nmul_comm; apply nmul_1_l. Qed.
Lemma nneg_invol a : nneg (nneg a) = a.
Proof. destruct a; simpl; try reflexivity. f_equal. qc_eq. Qed.

Lemma ninf_sign_cases q :
  ((0 < this q)%Q /\ ninf_sign q = PInf) \/ ((this q < 0)%Q /\ ninf_sign q = NInf)
  \/ (q = qc0 /\ ninf_sign q = NaN).
Proof.
  unfold ninf_sign. destruct (qltb qc0 q) eqn:E1; [left; split; [qlra|reflexivity]|].
  destruct (qltb q qc0) eqn:E2; [right; left; split; [qlra|reflexivity]|].
  right; right; split; [|reflexivity]. apply Qc_ext. qlra.
Qed.

Lemma nmul_add_distr_fin (v : Qc) a b : nmul (Fin v) (nadd a b) = nadd (nmul (Fin v) a) (nmul (Fin v) b).
Proof.
  destruct (ninf_sign_cases v) as [[H1 H2]|[[H1 H2]|[H1 H2]]];
    destruct a, b; simpl; rewrite ?H2; simpl; try reflexivity; try (f_equal; qc_eq).
Qed.
Lemma nsum_map_mul_fin (v : Qc) l : nsum (map (nmul (Fin v)) l) = nmul (Fin v) (nsum l).
Proof.
  induction l as [|x l IH].
  - simpl. unfold nzero. f_equal. qc_eq.
  - cbn [map]. rewrite !nsum_cons, IH, nmul_add_distr_fin. reflexivity.
Qed.
Lemma nmul_assoc_fin (u v : Qc) a : nmul (Fin u) (nmul (Fin v) a) = nmul (Fin (u * v)%Qc) a.
Proof.
  destruct a; simpl; try reflexivity; [f_equal; qc_eq| |];
  destruct (ninf_sign_cases u) as [[Hu1 Hu2]|[[Hu1 Hu2]|[Hu1 Hu2]]];
  destruct (ninf_sign_cases v) as [[Hv1 Hv2]|[[Hv1 Hv2]|[Hv1 Hv2]]];
  destruct (ninf_sign_cases (u * v)%Qc) as [[Hw1 Hw2]|[[Hw1 Hw2]|[Hw1 Hw2]]];
  rewrite Hv2, Hw2; simpl; rewrite ?Hu2; simpl; try reflexivity; exfalso;
  rewrite ?this_mul in *;
  try (apply (f_equal this) in Hw1; assert (Hz : (this u * this v == 0)%Q) by (rewrite <- this_mul, Hw1; reflexivity));
  subst; rewrite ?this_qc0 in *; try nra.
Qed.
