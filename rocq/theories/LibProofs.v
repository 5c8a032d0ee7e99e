(** Proofs about the functions of expressions. *)
From Coq Require Import String.
From Verif Require Import Num NumFacts Base Tree Elem Expr ExprSpec ExprFacts ExprLower Instr InstrSpec HistFill HistSpec Lib LibSpec.

Ltac qcs := unfold Qcle, Qclt in *; cbn [this Q2Qc] in *; qc_bool; qc_push; change (this 0%Qc) with 0%Q in *; change (this 1%Qc) with 1%Q in *.

(** ** Rounding *)
Lemma whole_qz z : whole (qz z). Proof. exists z. auto. Qed.

Lemma floor_ok q : is_floor q (qz (qfloor q)).
Proof.
  destruct (qfloor_spec q) as [A B]. split; [apply whole_qz|]. split; [qcs; auto|].
  intros s (z & ->) H. qcs. rewrite <- Zle_Qle. apply qfloor_le_iff. auto.
Qed.
Lemma ceil_ok q : is_ceil q (qz (qceil q)).
Proof.
  destruct (qceil_spec q) as [A B]. split; [apply whole_qz|]. split; [qcs; auto|].
  intros s (z & ->) H. qcs. rewrite <- Zle_Qle. apply qceil_le_iff. auto.
Qed.
Lemma trunc_ok q : is_trunc q (qz (qtrunc q)).
Proof.
  unfold is_trunc, qtrunc. destruct (qltb q qc0) eqn:E.
  - right. split; [|apply ceil_ok]. qcs. lra.
  - left. split; [|apply floor_ok]. qcs. lra.
Qed.

Lemma qz_step a b : (a < b)%Z -> (inject_Z a + 1 <= inject_Z b)%Q.
Proof. intro H. change 1%Q with (inject_Z 1). rewrite <- inject_Z_plus, <- Zle_Qle. lia. Qed.

(** Every other whole number is at least as far, as soon as [z] is within a half. *)
Lemma nearest_ok q z :
  (this q - inject_Z z <= 1 # 2)%Q -> (inject_Z z - this q <= 1 # 2)%Q ->
  ((this q - inject_Z z == 1 # 2)%Q \/ (inject_Z z - this q == 1 # 2)%Q -> Z.even z = true) ->
  is_nearest q (qz z).
Proof.
  intros A B C. split; [apply whole_qz|]. intros s d e (y & ->) (D1 & D2) (E1 & E2).
  assert (F : (this d <= 1 # 2)%Q) by (destruct D2 as [-> | ->]; qcs; lra).
  destruct (Z.lt_trichotomy y z) as [H|[->|H]].
  - apply qz_step in H.
    assert (G : (1 # 2 <= this e)%Q) by (destruct E2 as [-> | ->]; qcs; lra).
    split; [qcs; lra|]. intros -> _. assert (X : Z.even z = true).
    { apply C. destruct D2 as [D2|D2]; apply (f_equal this) in D2; [left|right].
      - assert (Y : (this e == this (q - qz z)%Qc)%Q) by (rewrite D2; reflexivity). qcs. lra.
      - assert (Y : (this e == this (qz z - q)%Qc)%Q) by (rewrite D2; reflexivity). qcs. lra. }
    apply Z.even_spec in X as (k & ->). exists k. auto.
  - split; [|intros _ []; auto]. destruct D2 as [-> | ->], E2 as [-> | ->]; qcs; lra.
  - apply qz_step in H.
    assert (G : (1 # 2 <= this e)%Q) by (destruct E2 as [-> | ->]; qcs; lra).
    split; [qcs; lra|]. intros -> _. assert (X : Z.even z = true).
    { apply C. destruct D2 as [D2|D2]; apply (f_equal this) in D2; [left|right].
      - assert (Y : (this e == this (q - qz z)%Qc)%Q) by (rewrite D2; reflexivity). qcs. lra.
      - assert (Y : (this e == this (qz z - q)%Qc)%Q) by (rewrite D2; reflexivity). qcs. lra. }
    apply Z.even_spec in X as (k & ->). exists k. auto.
Qed.
Lemma rint_ok q : is_nearest q (qz (qrint q)).
Proof.
  unfold qrint. destruct (qfloor_spec q) as [A B]. rewrite inject_Z_plus in B. change (inject_Z 1) with 1%Q in B.
  destruct (qltb (q - qz (qfloor q)) (qfrac 1 2)) eqn:E1.
  { apply nearest_ok; qcs; try lra. all: intros [H|H]; lra. }
  destruct (qltb (qfrac 1 2) (q - qz (qfloor q))) eqn:E2.
  { apply nearest_ok; rewrite ?inject_Z_plus; change (inject_Z 1) with 1%Q; qcs; try lra. all: intros [H|H]; lra. }
  destruct (Z.even (qfloor q)) eqn:E3.
  { apply nearest_ok; qcs; try lra. auto. }
  apply nearest_ok; rewrite ?inject_Z_plus; change (inject_Z 1) with 1%Q; qcs; try lra.
  intros _. rewrite Z.even_add, E3. reflexivity.
Qed.

(** ** Remainders *)
Lemma div_back (a b : Qc) : b <> qc0 -> a = (a / b * b)%Qc.
Proof. intro H. field. intro E. apply H. rewrite E. reflexivity. Qed.
Lemma mod_ok (a b : Qc) : b <> qc0 -> is_mod a b (a - b * qz (qfloor (a / b)))%Qc.
Proof.
  intro H. assert (E := div_back a b H). set (t := (a / b)%Qc) in *. split.
  { exists (qz (qfloor t)). split; [apply whole_qz|]. ring. }
  destruct (qfloor_spec t) as [A B]. rewrite inject_Z_plus in B. change (inject_Z 1) with 1%Q in B.
  assert (N : ~ (this b == 0)%Q) by (intro X; apply H; apply Qc_ext; exact X).
  apply (f_equal this) in E. assert (E' : (this a == this (t * b)%Qc)%Q) by (rewrite <- E; reflexivity). clear E.
  destruct (Qlt_le_dec 0 (this b)) as [P|P]; [left|right]; qcs; rewrite E'; split; nra.
Qed.

Lemma is_abs_fun x a : is_abs x a -> (this x <= this a)%Q /\ (- this x <= this a)%Q.
Proof. intros (A & [-> | ->]); qcs; lra. Qed.

(** Python's remainder is C's when the operands have the same sign, and only then, unless it is
    zero. *)
Lemma mod_fmod a b r : is_mod a b r ->
  ((0 <= a /\ 0 < b) \/ (a <= 0 /\ b < 0))%Qc -> is_fmod a b r.
Proof.
  intros (L & R) S. split; auto. split.
  - intros x y (X0 & X) (Y0 & Y). destruct X as [-> | ->], Y as [-> | ->], R, S; qcs; lra.
  - destruct R, S; qcs; (left; lra) || (right; lra) || lra.
Qed.
Lemma mod_not_fmod a b r : is_mod a b r ->
  ((a < 0 /\ 0 < b) \/ (0 < a /\ b < 0))%Qc -> ~ leaves a b 0 -> ~ is_fmod a b r.
Proof.
  intros (L & R) S N (_ & _ & F). apply N. assert (r = 0)%Qc; [|subst; auto].
  apply Qc_ext. destruct R, S, F; qcs; lra.
Qed.
Lemma mod_unique a b r s : is_mod a b r -> is_mod a b s -> r = s.
Proof.
  intros ((q & (z & ->) & A) & R) ((p & (y & ->) & B) & S).
  assert (E : (qz z * b + r = qz y * b + s)%Qc) by congruence. clear A B a. apply Qc_ext.
  assert (E' : (inject_Z z * this b + this r == inject_Z y * this b + this s)%Q).
  { apply (f_equal this) in E. assert (X : (this (qz z * b + r)%Qc == this (qz y * b + s)%Qc)%Q) by (rewrite E; reflexivity).
    qcs. exact X. } clear E.
  destruct (Z.lt_trichotomy z y) as [H|[->|H]].
  - apply qz_step in H. destruct R, S; qcs; nra.
  - lra.
  - apply qz_step in H. destruct R, S; qcs; nra.
Qed.

(** ** Whole powers *)
Lemma product_pow_fin q n : product_pow (Fin q) n = Fin (multiplied q n).
Proof.
  induction n as [|n IH]; cbn [product_pow multiplied].
  - unfold none1. f_equal; apply Qc_ext; reflexivity.
  - rewrite IH. reflexivity.
Qed.
Lemma power_whole tr x z : npower tr x (nz z) =
  if (0 <=? z)%Z then product_pow x (Z.to_nat z) else ndiv none1 (product_pow x (Z.to_nat (- z))).
Proof. unfold npower, nz. rewrite qfloor_qz, qeqb_refl. reflexivity. Qed.
Lemma product_npow x n : product_pow x n = npow x n.
Proof. induction n as [|n IH]; cbn; congruence. Qed.

(** ** The library as a parameter of the other theorems *)
Lemma numlib_broadcasts tr : broadcasts (numlib tr).
Proof.
  intros f l m H. unfold numlib. destruct (in_library tr f) as [[g|g|g|g d]|]; auto;
    (destruct H as [|a a' l m A H]; [reflexivity|]); (destruct H as [|b b' l m B H]; [|destruct H]); auto;
    unfold num2; rewrite ?(same_arg_num _ _ A), ?(same_arg_num _ _ B); reflexivity.
Qed.
Lemma numlib_pow tr a b : numlib tr "pow" [a; b] = num2 (npower tr) a b.
Proof. reflexivity. Qed.
Lemma numlib_powers tr : powers (numlib tr).
Proof.
  intros a b q x pos n Hn Ha Hb ->. rewrite numlib_pow. unfold num2. rewrite Ha, Hb. cbn [bind]. do 2 f_equal.
  destruct pos.
  - change (Fin (qz (Z.of_nat n))) with (nz (Z.of_nat n)). rewrite power_whole.
    destruct (Z.leb_spec 0 (Z.of_nat n)); [|lia]. rewrite Nat2Z.id. apply product_npow.
  - change (Fin (qz (- Z.of_nat n))) with (nz (- Z.of_nat n)). rewrite power_whole.
    destruct (Z.leb_spec 0 (- Z.of_nat n)); [lia|]. rewrite Z.opp_involutive, Nat2Z.id, product_npow. reflexivity.
Qed.

(** ** A call that raises on every row raises wherever it stands *)
Lemma mapM_err {A B} (g : A -> res B) l x e : In x l -> g x = Err e -> exists e', mapM g l = Err e'.
Proof.
  induction l as [|y l IH]; intros I E; [destruct I|]. cbn [mapM]. destruct I as [<-|I].
  - rewrite E. cbn. eauto.
  - destruct (g y) as [z|e1]; cbn; eauto. destruct (IH I E) as (e' & ->). cbn. eauto.
Qed.
Lemma part_raises user field f l t : (forall l, exists e, efun user f l = Err e) -> subtree (TCall f l) t ->
  exists e, reval user field t = Err e.
Proof.
  intros N H. remember (TCall f l) as u. induction H; subst.
  - rewrite reval_call. destruct (mapM (reval user field) l) as [vs|e]; cbn; eauto.
    destruct (N vs) as (e & ->). cbn. eauto.
  - destruct IHsubtree as (e & IH); auto. rewrite reval_call. edestruct (mapM_err (reval user field)) as (e' & ->); eauto.
    cbn. eauto.
Qed.
Lemma row_raises cast rnd user field h t e : In t (hist_exprs h) -> reval user field t = Err e ->
  exists e', row_of cast rnd user h field = Err e'.
Proof.
  intros I E. unfold hist_exprs in I. unfold row_of.
  assert (V : value user field t = Err e) by (unfold value; rewrite E; reflexivity).
  apply in_app_or in I as [I|I].
  { apply in_map_iff in I as (p & <- & I).
    edestruct (mapM_err (fun p => do v <- value user field (snd p); key_of rnd (fst p) v)) as (e' & ->); [exact I| |cbn; eauto].
    cbn beta. rewrite V. reflexivity. }
  destruct (mapM _ (h_group h)); cbn; eauto. apply in_app_or in I as [I|I].
  { apply in_map_iff in I as (p & <- & I).
    edestruct (mapM_err (fun p => do v <- value user field (snd p); slot_of cast rnd (fst p) v)) as (e' & ->); [exact I| |cbn; eauto].
    cbn beta. rewrite V. reflexivity. }
  destruct (mapM _ (h_fixed h)); cbn; eauto. apply in_app_or in I as [I|I].
  { edestruct (mapM_err (fun t => do x <- number user field t; Ok (x, nmul x x))) as (e' & ->); [exact I| |cbn; eauto].
    cbn beta. unfold number. rewrite V. reflexivity. }
  destruct (mapM _ (h_prof h)); cbn; eauto.
  destruct (h_weight h) as [[v|w]|]; try (destruct I; fail). destruct I as [->|[]].
  unfold number. rewrite V. cbn. eauto.
Qed.
Lemma rows_raise cast rnd user h A len f l t :
  (forall l, exists e, efun user f l = Err e) -> In t (hist_exprs h) -> subtree (TCall f l) t -> 0 < len ->
  exists e, rows_of cast rnd user h A len = Err e.
Proof.
  intros N I S L. unfold rows_of. destruct (part_raises user (field_at A 0) f l t N S) as (e & E).
  destruct (row_raises cast rnd user (field_at A 0) h t e I E) as (e' & E').
  apply (mapM_err _ _ 0 e'); auto. apply in_seq. lia.
Qed.
