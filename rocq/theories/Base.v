(** Exceptions as values, and the Python errors that the modelled code can raise. *)
From Coq Require Export List ZArith Lia Bool Arith.
Export ListNotations.

Inductive err : Type :=
| TypeError | ValueError | KeyError | IndexError | AttributeError | NameError
| AssertionError | ZeroDivisionError | OverflowError | NotImplementedError
| RecursionError | ExpressionError.

Inductive res (A : Type) : Type :=
| Ok (a : A)
| Err (e : err).
Arguments Ok {A} a.
Arguments Err {A} e.

Definition bind {A B} (r : res A) (f : A -> res B) : res B :=
  match r with Ok a => f a | Err e => Err e end.
Notation "'do' x <- r ; k" := (bind r (fun x => k)) (at level 200, x name, r at level 100, k at level 200).
Notation "'do' ' p <- r ; k" := (bind r (fun x => match x with p => k end))
  (at level 200, p pattern, r at level 100, k at level 200).

Definition rmap {A B} (f : A -> B) (r : res A) : res B :=
  match r with Ok a => Ok (f a) | Err e => Err e end.

(** A list comprehension whose body may raise: the first exception wins. *)
Fixpoint mapM {A B} (f : A -> res B) (l : list A) : res (list B) :=
  match l with
  | [] => Ok []
  | x :: xs => do y <- f x; do ys <- mapM f xs; Ok (y :: ys)
  end.

Definition is_ok {A} (r : res A) : bool := match r with Ok _ => true | Err _ => false end.

(** [1 if b else 0], which the code writes everywhere. *)
Definition b2n (b : bool) : nat := if b then 1 else 0.
Definition b2z (b : bool) : Z := if b then 1%Z else 0%Z.
