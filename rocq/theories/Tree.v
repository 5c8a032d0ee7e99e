(** Call trees: the expressions that the instruction scheduler works on.

    /repo/histbook/instr.py 117-229: [totree] returns expressions built only from Const, Name,
    Predicate (and BroadcastConst, a subclass of Name) and Call.  The classes are in
    /repo/histbook/expr.py 485-631 and 1027-1060.

    Simplifications: numeric literals are exact rationals, so [Const(1)] and [Const(1.0)] are the
    same constant, while Python's [1 == True] is not reproduced: the constants 1 and True differ
    here.  The tuple of edges in a [split] goal is a constant of its own kind. *)
From Coq Require Import String.
From Verif Require Import Num Base.

(** Scalars that can be written in an expression (expr.py 126-160). *)
Inductive scal : Type :=
| SNum (q : Num)
| SStr (s : string)
| SBool (b : bool)
| SNone.

(** Constants: a scalar, a set of scalars (right-hand side of "in"), or a tuple of edges. *)
Inductive cst : Type :=
| KS (s : scal)
| KSet (l : list scal)
| KTup (l : list Num).

Inductive tree : Type :=
| TConst (c : cst)                                  (* expr.py 485-517 Const *)
| TName (s : string)                                (* expr.py 519-545 Name *)
| TPred (s : string) (positive : bool)              (* expr.py 1027-1060 Predicate *)
| TBcast (c : cst)                                  (* expr.py 547-590 BroadcastConst(None, c) *)
| TCall (fcn : string) (args : list tree).          (* expr.py 592-631 Call *)

Section TreeInd.
  Variable P : tree -> Prop.
  Hypothesis hConst : forall c, P (TConst c).
  Hypothesis hName : forall s, P (TName s).
  Hypothesis hPred : forall s b, P (TPred s b).
  Hypothesis hBcast : forall c, P (TBcast c).
  Hypothesis hCall : forall f args, Forall P args -> P (TCall f args).
  Fixpoint tree_ind' (t : tree) : P t :=
    match t with
    | TConst c => hConst c
    | TName s => hName s
    | TPred s b => hPred s b
    | TBcast c => hBcast c
    | TCall f args =>
        hCall f args
          ((fix go (l : list tree) : Forall P l :=
              match l with
              | [] => Forall_nil P
              | x :: xs => Forall_cons x (tree_ind' x) (go xs)
              end) args)
    end.
End TreeInd.

(** Boolean equalities (so that examples compute), then decidable ones. *)
Definition num_same (a b : Num) : bool :=
  match a, b with
  | Fin p, Fin q => if Qc_eq_dec p q then true else false
  | PInf, PInf | NInf, NInf | NaN, NaN => true
  | _, _ => false
  end.
Definition scal_same (a b : scal) : bool :=
  match a, b with
  | SNum x, SNum y => num_same x y
  | SStr x, SStr y => String.eqb x y
  | SBool x, SBool y => Bool.eqb x y
  | SNone, SNone => true
  | _, _ => false
  end.
Fixpoint list_same {A} (f : A -> A -> bool) (a b : list A) : bool :=
  match a, b with
  | [], [] => true
  | x :: a, y :: b => f x y && list_same f a b
  | _, _ => false
  end.
Definition cst_same (a b : cst) : bool :=
  match a, b with
  | KS x, KS y => scal_same x y
  | KSet x, KSet y => list_same scal_same x y
  | KTup x, KTup y => list_same num_same x y
  | _, _ => false
  end.
(** [Expr.__eq__] on these classes (expr.py 504-505, 534-535, 570-571, 608-609, 1046-1047) is
    structural. *)
Fixpoint tree_same (a b : tree) : bool :=
  match a, b with
  | TConst x, TConst y => cst_same x y
  | TName x, TName y => String.eqb x y
  | TPred x p, TPred y q => String.eqb x y && Bool.eqb p q
  | TBcast x, TBcast y => cst_same x y
  | TCall f l, TCall g m =>
      String.eqb f g &&
      (fix go (l m : list tree) : bool :=
         match l, m with
         | [], [] => true
         | x :: l, y :: m => tree_same x y && go l m
         | _, _ => false
         end) l m
  | _, _ => false
  end.

Lemma num_same_eq a b : num_same a b = true <-> a = b.
Proof.
  destruct a as [p| | |], b as [q| | |]; simpl; try (split; congruence).
  destruct (Qc_eq_dec p q); split; congruence.
Qed.
Lemma scal_same_eq a b : scal_same a b = true <-> a = b.
Proof.
  destruct a, b; simpl; try (split; congruence).
  - rewrite num_same_eq. split; congruence.
  - rewrite String.eqb_eq. split; congruence.
  - rewrite Bool.eqb_true_iff. split; congruence.
Qed.
Lemma list_same_eq {A} (f : A -> A -> bool) (H : forall a b, f a b = true <-> a = b) :
  forall a b, list_same f a b = true <-> a = b.
Proof.
  induction a as [|x a IH]; intros [|y b]; simpl; try (split; congruence).
  rewrite Bool.andb_true_iff, H, IH. split; [intros [-> ->]; auto|intros E; injection E; auto].
Qed.
Lemma cst_same_eq a b : cst_same a b = true <-> a = b.
Proof.
  destruct a, b; simpl; try (split; congruence).
  - rewrite scal_same_eq. split; congruence.
  - rewrite (list_same_eq _ scal_same_eq). split; congruence.
  - rewrite (list_same_eq _ num_same_eq). split; congruence.
Qed.
Lemma tree_same_eq a : forall b, tree_same a b = true <-> a = b.
Proof.
  induction a as [c|s|s p|c|f l IH] using tree_ind'; intros [c'|s'|s' p'|c'|f' l']; simpl;
    try (split; congruence).
  - rewrite cst_same_eq. split; congruence.
  - rewrite String.eqb_eq. split; congruence.
  - rewrite Bool.andb_true_iff, String.eqb_eq, Bool.eqb_true_iff. split; [intros [-> ->]; auto|intros E; injection E; auto].
  - rewrite cst_same_eq. split; congruence.
  - rewrite Bool.andb_true_iff, String.eqb_eq.
    assert (H : forall m, (fix go (l m : list tree) : bool :=
         match l, m with
         | [], [] => true
         | x :: l, y :: m => tree_same x y && go l m
         | _, _ => false
         end) l m = true <-> l = m).
    { clear l' f'. induction l as [|x l IHl]; intros [|y m]; try (split; congruence).
      inversion IH; subst. rewrite Bool.andb_true_iff, H1, IHl by auto.
      split; [intros [-> ->]; auto|intros E; injection E; auto]. }
    rewrite H. split; [intros [-> ->]; auto|intros E; injection E; auto].
Qed.

Definition by_bool {P Q : Prop} (b : bool) (H : b = true <-> P) (H' : P -> ~ Q) (N : ~ P -> Q) : {P} + {Q} :=
  match b as c return (c = true <-> P) -> {P} + {Q} with
  | true => fun H => left (proj1 H eq_refl)
  | false => fun H => right (N (fun p => Bool.diff_false_true (proj2 H p)))
  end H.
Definition num_eq_dec (a b : Num) : {a = b} + {a <> b} :=
  by_bool _ (num_same_eq a b) (fun p n => n p) (fun n => n).
Definition scal_eq_dec (a b : scal) : {a = b} + {a <> b} :=
  by_bool _ (scal_same_eq a b) (fun p n => n p) (fun n => n).
Definition cst_eq_dec (a b : cst) : {a = b} + {a <> b} :=
  by_bool _ (cst_same_eq a b) (fun p n => n p) (fun n => n).
Definition tree_eq_dec (a b : tree) : {a = b} + {a <> b} :=
  by_bool _ (tree_same_eq a b) (fun p n => n p) (fun n => n).

Definition mem (x : tree) (l : list tree) : bool := if in_dec tree_eq_dec x l then true else false.

Lemma mem_In x l : mem x l = true <-> In x l.
Proof. unfold mem; destruct (in_dec tree_eq_dec x l); split; congruence || tauto. Qed.
Lemma mem_nIn x l : mem x l = false <-> ~ In x l.
Proof. unfold mem; destruct (in_dec tree_eq_dec x l); split; congruence || tauto. Qed.

Definition is_const (t : tree) : bool := match t with TConst _ => true | _ => false end.
Definition is_bcast (t : tree) : bool := match t with TBcast _ => true | _ => false end.
