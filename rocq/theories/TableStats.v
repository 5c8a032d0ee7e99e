(** The columns of a table in terms of the data that were filled. *)
From Coq Require Import String Permutation.
From Verif Require Import Base Num NumFacts Axis Calc Content Fill FillSpec FillProofs FillProofs2 FillProofs3 FillMain
  Tree Order Expr HistAlg AlgSpec HistAlgProofs HistAlgMain Nd Proj Select Table TableSpec TableProofs.
Local Open Scope list_scope.

(** Sums of rationals. *)
Definition qsum (l : list Qc) : Qc := fold_right Qcplus qc0 l.
Lemma qsum_cons x l : qsum (x :: l) = (x + qsum l)%Qc. Proof. reflexivity. Qed.
Lemma nsum_fin {A} (f : A -> Num) (q : A -> Qc) l : (forall r, In r l -> f r = Fin (q r)) -> nsum (map f l) = Fin (qsum (map q l)).
Proof.
  intros H. induction l as [|r l IH]; auto. cbn [map]. rewrite nsum_cons, IH by (intros; apply H; right; auto). rewrite H by (left; auto). reflexivity.
Qed.
Ltac qsum_tac := intros; match goal with l : list _ |- _ => induction l as [|? l IH]; [cbn; rewrite ?this_qc0; try lra; try field; auto|] end.
Lemma qsum_nonneg {A} (f : A -> Qc) l : (forall r, In r l -> (0 <= this (f r))%Q) -> (0 <= this (qsum (map f l)))%Q.
Proof.
  intros H. induction l as [|r l IH]; [cbn [map qsum fold_right]; rewrite this_qc0; lra|]. cbn [map]. rewrite qsum_cons, this_add.
  pose proof (H r (or_introl eq_refl)). assert (0 <= this (qsum (map f l)))%Q by (apply IH; intros; apply H; right; auto). lra.
Qed.
Lemma qsum_mono {A} (f g : A -> Qc) l : (forall r, In r l -> (this (f r) <= this (g r))%Q) -> (this (qsum (map f l)) <= this (qsum (map g l)))%Q.
Proof.
  intros H. induction l as [|r l IH]; [cbn [map qsum fold_right]; lra|]. cbn [map]. rewrite !qsum_cons, !this_add.
  pose proof (H r (or_introl eq_refl)). assert (this (qsum (map f l)) <= this (qsum (map g l)))%Q by (apply IH; intros; apply H; right; auto). lra.
Qed.
(** Linear combinations. *)
Lemma qsum_lin {A} (f g : A -> Qc) a b l : qsum (map (fun r => a * f r + b * g r)%Qc l) = (a * qsum (map f l) + b * qsum (map g l))%Qc.
Proof.
  induction l as [|r l IH]; [cbn [map qsum fold_right]; apply Qc_ext; rewrite this_add, !this_mul, this_qc0; ring|].
  cbn [map]. rewrite !qsum_cons, IH. ring.
Qed.
Lemma qsum_ext {A} (f g : A -> Qc) l : (forall r, In r l -> f r = g r) -> qsum (map f l) = qsum (map g l).
Proof. intros H. f_equal. apply map_ext_in. auto. Qed.

Section Sums.
  Context {A : Type}.
  Variables w x : A -> Qc.
  Variable l : list A.
  Definition sum_w : Qc := qsum (map w l).
  Definition sum_w2 : Qc := qsum (map (fun r => w r * w r)%Qc l).
  Definition sum_wx : Qc := qsum (map (fun r => x r * w r)%Qc l).
  Definition sum_wx2 : Qc := qsum (map (fun r => x r * x r * w r)%Qc l).
  Definition average : Qc := (sum_wx / sum_w)%Qc.
  (** The weighted mean of the squared distances from the average. *)
  Definition variance : Qc := (qsum (map (fun r => w r * ((x r - average) * (x r - average)))%Qc l) / sum_w)%Qc.

  Lemma pos_ne q : (0 < this q)%Q -> q <> 0%Qc.
  Proof. intros H E. rewrite E in H. change (0 < 0)%Q in H. lra. Qed.
  Lemma variance_alt : (0 < this sum_w)%Q -> (sum_wx2 / sum_w - average * average = variance)%Qc.
  Proof.
    intros HW. pose proof (pos_ne _ HW) as HW0. unfold variance.
    assert (E : qsum (map (fun r => w r * ((x r - average) * (x r - average)))%Qc l) = (sum_wx2 - (1 + 1) * average * sum_wx + average * average * sum_w)%Qc).
    { generalize average. intros m. rewrite (qsum_ext _ (fun r => 1 * (1 * (x r * x r * w r) + (- ((1 + 1) * m)) * (x r * w r)) + (m * m) * w r)%Qc) by (intros; ring).
      rewrite (qsum_lin (fun r => (1 * (x r * x r * w r) + (- ((1 + 1) * m)) * (x r * w r))%Qc) w), (qsum_lin (fun r => (x r * x r * w r)%Qc) (fun r => (x r * w r)%Qc)).
      fold sum_wx2 sum_wx sum_w. ring. }
    rewrite E. unfold average. field. auto.
  Qed.
  Lemma variance_nonneg : (0 < this sum_w)%Q -> (forall r, In r l -> (0 <= this (w r))%Q) -> (0 <= this variance)%Q.
  Proof.
    intros HW Hw. unfold variance. rewrite this_div. apply Qle_shift_div_l; auto. rewrite Qmult_0_l. apply qsum_nonneg. intros r Hr.
    rewrite !this_mul, !this_sub. specialize (Hw r Hr). pose proof (Qle_bool_iff 0 0). generalize (this (x r) - this average)%Q. intros y. nra.
  Qed.
  (** The average is between bounds of the data. *)
  Lemma average_bounds lo hi : (0 < this sum_w)%Q -> (forall r, In r l -> (0 <= this (w r))%Q) -> (forall r, In r l -> (this lo <= this (x r) <= this hi)%Q) ->
    (this lo <= this average <= this hi)%Q.
  Proof.
    intros HW Hw Hx. unfold average. rewrite this_div.
    assert (H1 : (this lo * this sum_w <= this sum_wx)%Q).
    { rewrite <- this_mul. replace (lo * sum_w)%Qc with (qsum (map (fun r => lo * w r + 0 * w r)%Qc l)) by (rewrite qsum_lin; fold sum_w; ring).
      apply qsum_mono. intros r Hr. rewrite this_add, !this_mul. change (this 0%Qc) with 0%Q. specialize (Hw r Hr). specialize (Hx r Hr). nra. }
    assert (H2 : (this sum_wx <= this hi * this sum_w)%Q).
    { rewrite <- this_mul. replace (hi * sum_w)%Qc with (qsum (map (fun r => hi * w r + 0 * w r)%Qc l)) by (rewrite qsum_lin; fold sum_w; ring).
      apply qsum_mono. intros r Hr. rewrite this_add, !this_mul. change (this 0%Qc) with 0%Q. specialize (Hw r Hr). specialize (Hx r Hr). nra. }
    split; [apply Qle_shift_div_l; auto|apply Qle_shift_div_r; auto].
  Qed.
  Lemma sum_ones : qsum (map (fun _ => qc1) l) = qz (Z.of_nat (length l)).
  Proof.
    induction l as [|r t IH]; [reflexivity|]. cbn [map length]. rewrite qsum_cons, IH. rewrite Nat2Z.inj_succ, <- Z.add_1_l, qz_add. reflexivity.
  Qed.
  (** The effective number of entries is at most the number of entries. *)
  Lemma square_of_sum : (this sum_w * this sum_w <= this (qz (Z.of_nat (length l))) * this sum_w2)%Q.
  Proof.
    assert (El : length l = 0 \/ 0 < length l) by lia. destruct El as [El|El].
    { apply length_zero_iff_nil in El. unfold sum_w, sum_w2. rewrite El. cbn [map qsum fold_right]. rewrite this_qc0. lra. }
    set (n := qz (Z.of_nat (length l))). assert (Hn : (0 < this n)%Q) by (unfold n; rewrite this_qz; unfold Qlt; cbn; lia).
    assert (E : qsum (map (fun r => ((n * w r - sum_w) * (n * w r - sum_w)))%Qc l) = (n * (n * sum_w2 - sum_w * sum_w))%Qc).
    { rewrite (qsum_ext _ (fun r => 1 * ((n * n) * (w r * w r) + (- ((1 + 1) * n * sum_w)) * w r) + (sum_w * sum_w) * qc1)%Qc) by (intros; unfold qc1; change (qz 1) with 1%Qc; ring).
      rewrite (qsum_lin (fun r => ((n * n) * (w r * w r) + (- ((1 + 1) * n * sum_w)) * w r)%Qc) (fun _ => qc1)), (qsum_lin (fun r => (w r * w r)%Qc) w).
      fold sum_w2 sum_w. rewrite sum_ones. fold n. ring. }
    assert (H : (0 <= this (n * (n * sum_w2 - sum_w * sum_w))%Qc)%Q).
    { rewrite <- E. apply qsum_nonneg. intros r _. rewrite this_mul. generalize (this (n * w r - sum_w)%Qc). intros y. nra. }
    rewrite this_mul, this_sub, !this_mul in H. nra.
  Qed.
  Lemma sum_w2_pos : (0 < this sum_w)%Q -> (0 < this sum_w2)%Q.
  Proof.
    intros HW. pose proof square_of_sum as H. assert (0 <= this (qz (Z.of_nat (length l))))%Q by (rewrite this_qz; unfold Qle; cbn; lia). nra.
  Qed.
End Sums.

(** ** Histograms filled once *)
(** The weight of each row and the value of its profile [p] are the rationals [w] and [x], and the squares are
    the squares. *)
Definition has_numbers (m : wmode) (p : nat) (w x : row -> Qc) (r : row) : Prop :=
  row_weight m r = Fin (w r) /\ row_weight2 m r = Fin (w r * w r)%Qc /\ nth p (r_prof r) (nzero, nzero) = (Fin (x r), Fin (x r * x r)%Qc).
Lemma ndiv_fin a b : b <> 0%Qc -> ndiv (Fin a) (Fin b) = Fin (a / b)%Qc.
Proof. intros H. cbn [ndiv]. destruct (qeqb b qc0) eqn:E; auto. apply qeqb_iff in E. contradiction. Qed.

Lemma filled_stats sqrt h m rows c ks ss p w x : o_content h = CNone -> fill_pre (o_layout h) (length (o_group h)) m rows CNone ->
  fill_rows (o_layout h) (length (o_group h)) m rows CNone = (c, None) -> in_shape (o_layout h) ss -> p < length (o_prof h) ->
  let rs := filter (in_cell ks ss) rows in let g := with_content h c in
  Forall (has_numbers m p w x) rs -> (0 < this (sum_w w rs))%Q ->
  entries g ks ss = Fin (sum_w w rs) /\
  effective g ks ss = Fin (sum_w w rs * sum_w w rs / sum_w2 w rs)%Qc /\
  mean g ks ss p = Fin (average w x rs) /\
  mean_error sqrt g ks ss p = sqrt (Fin (variance w x rs / (sum_w w rs * sum_w w rs / sum_w2 w rs))%Qc).
Proof.
  intros HN Hpre HE Hs Hp rs g Hnum HW. destruct (fill_ok _ _ _ _ _ Hpre) as (c1 & E1 & _ & Hv & _). rewrite HE in E1. inversion E1; subst c1.
  rewrite Forall_forall in Hnum. pose proof (pos_ne _ HW) as HW0. pose proof (pos_ne _ (sum_w2_pos w rs HW)) as HW20.
  assert (HC : forall kd, has_column (o_layout h) kd -> hcell g ks ss kd = nsum (map (row_adds m kd) rs)).
  { intros kd Hk. unfold hcell, g. change (o_layout (with_content h c)) with (o_layout h). cbn [o_content with_content]. rewrite Hv by auto.
    unfold cell. rewrite block_none. apply nadd_0_l. }
  assert (EW : entries g ks ss = Fin (sum_w w rs)).
  { unfold entries. rewrite HC by exact I. apply nsum_fin. intros r Hr. cbn [row_adds]. apply (Hnum r Hr). }
  assert (EF : effective g ks ss = Fin (sum_w w rs * sum_w w rs / sum_w2 w rs)%Qc).
  { unfold effective. rewrite EW. destruct (weighted g) eqn:Ewt.
    - rewrite HC by exact Ewt. rewrite (nsum_fin _ (fun r => (w r * w r)%Qc)) by (intros r Hr; cbn [row_adds]; apply (Hnum r Hr)).
      cbn [nmul]. rewrite ndiv_fin by auto. reflexivity.
    - destruct Hpre as (_ & Hm & _). unfold mode_ok in Hm. change (l_weighted (o_layout h)) with (weighted g) in Hm. rewrite Ewt in Hm.
      destruct m; try discriminate. f_equal.
      assert (E1' : forall r, In r rs -> w r = 1%Qc) by (intros r Hr; destruct (Hnum r Hr) as (X & _); cbn in X; injection X as X; rewrite <- X; reflexivity).
      assert (E2 : sum_w2 w rs = sum_w w rs). { unfold sum_w2, sum_w. apply qsum_ext. intros r Hr. rewrite (E1' r Hr). ring. }
      rewrite E2. field. auto. }
  assert (EX : hcell g ks ss (SumWX p) = Fin (sum_wx w x rs)).
  { rewrite HC by exact Hp. apply nsum_fin. intros r Hr. cbn [row_adds]. destruct (Hnum r Hr) as (-> & _ & ->). reflexivity. }
  assert (EX2 : hcell g ks ss (SumWX2 p) = Fin (sum_wx2 w x rs)).
  { rewrite HC by exact Hp. apply nsum_fin. intros r Hr. cbn [row_adds]. destruct (Hnum r Hr) as (-> & _ & ->). reflexivity. }
  split; [exact EW|]. split; [exact EF|].
  assert (EM : mean g ks ss p = Fin (average w x rs)) by (unfold mean; rewrite EX, EW, ndiv_fin by auto; reflexivity).
  split; [exact EM|]. unfold mean_error, mean_square. rewrite EM, EX2, EW, EF. rewrite ndiv_fin by auto.
  change (nsub (Fin (sum_wx2 w x rs / sum_w w rs)%Qc) (nmul (Fin (average w x rs)) (Fin (average w x rs)))) with (Fin (sum_wx2 w x rs / sum_w w rs + - (average w x rs * average w x rs))%Qc).
  rewrite ndiv_fin.
  - do 3 f_equal. rewrite <- (variance_alt w x rs HW). reflexivity.
  - apply pos_ne. rewrite this_div, this_mul. pose proof (sum_w2_pos w rs HW). apply Qlt_shift_div_l; auto. nra.
Qed.
