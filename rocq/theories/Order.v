(** A total order on nested tuples, and sorting.

    Python compares expressions by class name and then by tuples of their parts, lexicographically
    (the [__lt__] methods of /repo/histbook/expr.py 507-1060); [sorted] and [list.sort] use that
    order.  Here every expression is encoded as a nested tuple [rose] (see Expr.v), and this file
    gives the lexicographic order on [rose] with a sort. *)
From Coq Require Import String Permutation Sorted.
From Verif Require Import Num NumFacts Base.

Inductive rose : Type :=
| RZ (z : Z)
| RS (s : string)
| RQ (q : Qc)
| RL (l : list rose).

Section RoseInd.
  Variable P : rose -> Prop.
  Hypothesis hZ : forall z, P (RZ z).
  Hypothesis hS : forall s, P (RS s).
  Hypothesis hQ : forall q, P (RQ q).
  Hypothesis hL : forall l, Forall P l -> P (RL l).
  Fixpoint rose_ind' (t : rose) : P t :=
    match t with
    | RZ z => hZ z
    | RS s => hS s
    | RQ q => hQ q
    | RL l => hL l ((fix go (l : list rose) : Forall P l :=
                       match l with
                       | [] => Forall_nil P
                       | x :: xs => Forall_cons x (rose_ind' x) (go xs)
                       end) l)
    end.
End RoseInd.

Definition qcmp (a b : Qc) : comparison := Qccompare a b.

(** Tuples compare lexicographically, a proper prefix first (Python's tuple comparison). *)
Fixpoint rcmp (a b : rose) : comparison :=
  match a, b with
  | RZ x, RZ y => Z.compare x y
  | RZ _, _ => Lt
  | RS _, RZ _ => Gt
  | RS x, RS y => String.compare x y
  | RS _, _ => Lt
  | RQ _, RZ _ | RQ _, RS _ => Gt
  | RQ x, RQ y => qcmp x y
  | RQ _, RL _ => Lt
  | RL l, RL m =>
      (fix go (l m : list rose) : comparison :=
         match l, m with
         | [], [] => Eq
         | [], _ => Lt
         | _, [] => Gt
         | x :: l, y :: m => match rcmp x y with Eq => go l m | c => c end
         end) l m
  | RL _, _ => Gt
  end.

Fixpoint lcmp (l m : list rose) : comparison :=
  match l, m with
  | [], [] => Eq
  | [], _ => Lt
  | _, [] => Gt
  | x :: l, y :: m => match rcmp x y with Eq => lcmp l m | c => c end
  end.

Lemma rcmp_list l m : rcmp (RL l) (RL m) = lcmp l m.
Proof. revert m. induction l as [|x l IH]; intros [|y m]; reflexivity || (simpl; destruct (rcmp x y); auto; apply IH). Qed.

Lemma qcmp_eq a b : qcmp a b = Eq <-> a = b.
Proof.
  unfold qcmp, Qccompare. rewrite Qc_ext_iff. symmetry. apply Qeq_alt.
Qed.
Lemma qcmp_opp a b : qcmp b a = CompOpp (qcmp a b).
Proof. unfold qcmp, Qccompare, Qcompare. apply Z.compare_antisym. Qed.
Lemma qcmp_trans a b c : qcmp a b = Lt -> qcmp b c = Lt -> qcmp a c = Lt.
Proof.
  unfold qcmp, Qccompare. rewrite <- !Qlt_alt. apply Qlt_trans.
Qed.

Lemma acmp_eq a b : Ascii.compare a b = Eq <-> a = b.
Proof.
  unfold Ascii.compare. rewrite N.compare_eq_iff. split; [|congruence].
  intros H. rewrite <- (Ascii.ascii_N_embedding a), <- (Ascii.ascii_N_embedding b). congruence.
Qed.
Lemma acmp_opp a b : Ascii.compare b a = CompOpp (Ascii.compare a b).
Proof. unfold Ascii.compare. apply N.compare_antisym. Qed.
Lemma acmp_trans a b c : Ascii.compare a b = Lt -> Ascii.compare b c = Lt -> Ascii.compare a c = Lt.
Proof. unfold Ascii.compare. rewrite !N.compare_lt_iff. lia. Qed.

Lemma scmp_eq a : forall b, String.compare a b = Eq <-> a = b.
Proof.
  induction a as [|x a IH]; intros [|y b]; simpl; try (split; congruence).
  destruct (Ascii.compare x y) eqn:E.
  - apply acmp_eq in E. rewrite IH. subst. split; congruence.
  - split; [congruence|]. intros H; injection H as -> ->. rewrite (proj2 (acmp_eq _ _)) in E by auto. congruence.
  - split; [congruence|]. intros H; injection H as -> ->. rewrite (proj2 (acmp_eq _ _)) in E by auto. congruence.
Qed.
Lemma scmp_opp a : forall b, String.compare b a = CompOpp (String.compare a b).
Proof.
  induction a as [|x a IH]; intros [|y b]; simpl; auto.
  rewrite (acmp_opp x y). destruct (Ascii.compare x y); simpl; auto.
Qed.
Lemma scmp_trans a : forall b c, String.compare a b = Lt -> String.compare b c = Lt -> String.compare a c = Lt.
Proof.
  induction a as [|x a IH]; intros [|y b] [|z c]; simpl; try congruence.
  destruct (Ascii.compare x y) eqn:E1; try congruence;
  destruct (Ascii.compare y z) eqn:E2; try congruence; intros H1 H2.
  - apply acmp_eq in E1, E2. subst. rewrite (proj2 (acmp_eq z z)) by auto. eauto.
  - apply acmp_eq in E1. subst. rewrite E2. auto.
  - apply acmp_eq in E2. subst. rewrite E1. auto.
  - rewrite (acmp_trans _ _ _ E1 E2). auto.
Qed.

Lemma rcmp_eq a : forall b, rcmp a b = Eq <-> a = b.
Proof.
  induction a as [x|x|x|l IH] using rose_ind'; intros [y|y|y|m];
    try (cbn; split; congruence).
  - cbn. rewrite Z.compare_eq_iff. split; congruence.
  - cbn. rewrite scmp_eq. split; congruence.
  - cbn. rewrite qcmp_eq. split; congruence.
  - rewrite rcmp_list. enough (lcmp l m = Eq <-> l = m) as -> by (split; congruence).
    revert m. induction IH as [|x l Hx Hl IHl]; intros [|y m]; simpl; try (split; congruence).
    destruct (rcmp x y) eqn:E.
    + apply Hx in E. subst. rewrite IHl. split; congruence.
    + split; [congruence|]. intros H; injection H as -> ->. rewrite (proj2 (Hx y)) in E by auto. congruence.
    + split; [congruence|]. intros H; injection H as -> ->. rewrite (proj2 (Hx y)) in E by auto. congruence.
Qed.
Lemma rcmp_opp a : forall b, rcmp b a = CompOpp (rcmp a b).
Proof.
  induction a as [x|x|x|l IH] using rose_ind'; intros [y|y|y|m]; try reflexivity.
  - apply Z.compare_antisym.
  - apply scmp_opp.
  - apply qcmp_opp.
  - rewrite !rcmp_list.
    revert m. induction IH as [|x l Hx Hl IHl]; intros [|y m]; simpl; auto.
    rewrite (Hx y). destruct (rcmp x y); simpl; auto.
Qed.
Lemma rcmp_trans a : forall b c, rcmp a b = Lt -> rcmp b c = Lt -> rcmp a c = Lt.
Proof.
  induction a as [x|x|x|l IH] using rose_ind'; intros [y|y|y|m] [z|z|z|n]; try (cbn; congruence).
  - cbn. rewrite !Z.compare_lt_iff. lia.
  - cbn. apply scmp_trans.
  - cbn. apply qcmp_trans.
  - rewrite !rcmp_list.
    revert m n. induction IH as [|x l Hx Hl IHl]; intros [|y m] [|z n]; simpl; try congruence.
    destruct (rcmp x y) eqn:E1; try congruence; destruct (rcmp y z) eqn:E2; try congruence; intros H1 H2.
    + apply rcmp_eq in E1, E2. subst. rewrite (proj2 (rcmp_eq z z)) by auto. eauto.
    + apply rcmp_eq in E1. subst. rewrite E2. auto.
    + apply rcmp_eq in E2. subst. rewrite E1. auto.
    + rewrite (Hx _ _ E1 E2). auto.
Qed.

(** Insertion sort along an encoding into [rose]. *)
Section Sort.
  Context {A : Type}.
  Variable enc : A -> rose.

  Definition lower (x y : A) : bool := match rcmp (enc x) (enc y) with Gt => false | _ => true end.

  Fixpoint insert (x : A) (l : list A) : list A :=
    match l with
    | [] => [x]
    | y :: r => if lower x y then x :: l else y :: insert x r
    end.
  Definition isort (l : list A) : list A := fold_right insert [] l.

  Lemma insert_perm x l : Permutation (x :: l) (insert x l).
  Proof.
    induction l as [|y l IH]; simpl; auto. destruct (lower x y); auto.
    rewrite perm_swap. constructor. auto.
  Qed.
  Lemma isort_perm l : Permutation l (isort l).
  Proof. induction l as [|x l IH]; simpl; auto. rewrite <- insert_perm. auto. Qed.

  Definition le (x y : A) : Prop := lower x y = true.
  Lemma le_total x y : le x y \/ le y x.
  Proof.
    unfold le, lower. rewrite (rcmp_opp (enc x) (enc y)). destruct (rcmp (enc x) (enc y)); simpl; auto.
  Qed.
  Lemma le_trans x y z : le x y -> le y z -> le x z.
  Proof.
    unfold le, lower. destruct (rcmp (enc x) (enc y)) eqn:E1; try congruence;
      destruct (rcmp (enc y) (enc z)) eqn:E2; try congruence; intros _ _.
    - apply rcmp_eq in E1, E2. rewrite E1, E2. rewrite (proj2 (rcmp_eq _ _)); auto.
    - apply rcmp_eq in E1. rewrite E1, E2; auto.
    - apply rcmp_eq in E2. rewrite <- E2, E1; auto.
    - rewrite (rcmp_trans _ _ _ E1 E2). auto.
  Qed.
  Hypothesis enc_inj : forall x y, enc x = enc y -> x = y.
  Lemma le_antisym x y : le x y -> le y x -> x = y.
  Proof.
    unfold le, lower. rewrite (rcmp_opp (enc x) (enc y)).
    destruct (rcmp (enc x) (enc y)) eqn:E; simpl; try congruence.
    intros _ _. apply enc_inj, rcmp_eq, E.
  Qed.

  Lemma insert_sorted x l : StronglySorted le l -> StronglySorted le (insert x l).
  Proof.
    induction 1 as [|y l Hl IH Hy]; simpl; [repeat constructor|].
    destruct (lower x y) eqn:E.
    - constructor; [constructor; auto|]. constructor; [exact E|].
      eapply Forall_impl; [|exact Hy]. intros z. apply le_trans. exact E.
    - constructor; auto. apply Forall_forall. intros z Hz.
      apply (Permutation_in _ (Permutation_sym (insert_perm x l))) in Hz.
      destruct Hz as [<-|Hz].
      + destruct (le_total x y) as [H|H]; auto. unfold le in H. congruence.
      + rewrite Forall_forall in Hy. auto.
  Qed.
  Lemma isort_sorted l : StronglySorted le (isort l).
  Proof. induction l; simpl; [constructor|apply insert_sorted; auto]. Qed.

  Lemma sorted_unique l : forall m, StronglySorted le l -> StronglySorted le m -> Permutation l m -> l = m.
  Proof.
    induction l as [|x l IH]; intros m Hl Hm P.
    - apply Permutation_nil in P. auto.
    - destruct m as [|y m]; [apply Permutation_sym, Permutation_nil in P; discriminate|].
      inversion Hl as [|? ? Sl Fx]; subst. inversion Hm as [|? ? Sm Fy]; subst.
      assert (x = y).
      { assert (Ix : In x (y :: m)) by (apply (Permutation_in _ P); left; auto).
        assert (Iy : In y (x :: l)) by (apply (Permutation_in _ (Permutation_sym P)); left; auto).
        destruct Ix as [->|Ix]; auto. destruct Iy as [<-|Iy]; auto.
        rewrite Forall_forall in Fx, Fy. apply le_antisym; auto. }
      subst y. f_equal. apply IH; auto. eapply Permutation_cons_inv; eauto.
  Qed.

  (** The sort does not depend on the order in which the elements arrive. *)
  Lemma isort_canon l m : Permutation l m -> isort l = isort m.
  Proof.
    intros P. apply sorted_unique; try apply isort_sorted.
    rewrite <- (isort_perm l), P. apply isort_perm.
  Qed.
End Sort.
