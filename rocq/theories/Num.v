(** Numbers.

    A Python float or a Numpy float64 is modelled as an exact rational extended with the three
    special values of IEEE-754.  Simplifications: results of arithmetic are not rounded, and
    +0.0 and -0.0 are not distinguished (x / 0 takes the sign of x).  Functions whose rounding
    matters take an explicit rounding function as a parameter (see Calc.v). *)
From Coq Require Export List ZArith QArith Qcanon Qround Lia Lqa Bool Arith.
Export ListNotations.
Open Scope nat_scope.

Inductive Num : Type :=
| Fin (q : Qc)
| PInf
| NInf
| NaN.

(** Boolean comparisons on rationals. *)
Definition qleb (x y : Qc) : bool := Qle_bool (this x) (this y).
Definition qltb (x y : Qc) : bool := negb (Qle_bool (this y) (this x)).
Definition qeqb (x y : Qc) : bool := Qeq_bool (this x) (this y).

(** Integers and quotients as rationals. *)
Definition qz (z : Z) : Qc := Q2Qc (inject_Z z).
Definition qfrac (n : Z) (d : positive) : Qc := Q2Qc (n # d).
Definition qc0 : Qc := qz 0.
Definition qc1 : Qc := qz 1.

(** numpy.floor and numpy.ceil on a finite value, as integers. *)
Definition qfloor (x : Qc) : Z := Qfloor (this x).
Definition qceil (x : Qc) : Z := Qceiling (this x).

(** IEEE-754 negation, addition, subtraction, multiplication and division. *)
Definition nneg (a : Num) : Num :=
  match a with
  | Fin x => Fin (- x)%Qc
  | PInf => NInf
  | NInf => PInf
  | NaN => NaN
  end.

Definition nadd (a b : Num) : Num :=
  match a, b with
  | NaN, _ | _, NaN => NaN
  | Fin x, Fin y => Fin (x + y)%Qc
  | PInf, NInf | NInf, PInf => NaN
  | PInf, _ | _, PInf => PInf
  | NInf, _ | _, NInf => NInf
  end.

Definition nsub (a b : Num) : Num := nadd a (nneg b).

(** An infinity of the sign of [q]; zero times infinity is NaN. *)
Definition ninf_sign (q : Qc) : Num :=
  if qltb qc0 q then PInf else if qltb q qc0 then NInf else NaN.

Definition nmul (a b : Num) : Num :=
  match a, b with
  | NaN, _ | _, NaN => NaN
  | Fin x, Fin y => Fin (x * y)%Qc
  | Fin x, PInf | PInf, Fin x => ninf_sign x
  | Fin x, NInf | NInf, Fin x => nneg (ninf_sign x)
  | PInf, PInf | NInf, NInf => PInf
  | PInf, NInf | NInf, PInf => NInf
  end.

Definition ndiv (a b : Num) : Num :=
  match a, b with
  | NaN, _ | _, NaN => NaN
  | Fin x, Fin y => if qeqb y qc0 then ninf_sign x else Fin (x / y)%Qc
  | Fin _, PInf | Fin _, NInf => Fin qc0
  | PInf, Fin y => if qltb y qc0 then NInf else PInf
  | NInf, Fin y => if qltb y qc0 then PInf else NInf
  | PInf, PInf | PInf, NInf | NInf, PInf | NInf, NInf => NaN
  end.

(** IEEE-754 comparisons: every comparison with NaN is false, except [<>]. *)
Definition nltb (a b : Num) : bool :=
  match a, b with
  | NaN, _ | _, NaN => false
  | Fin x, Fin y => qltb x y
  | NInf, NInf => false
  | NInf, _ => true
  | _, NInf => false
  | PInf, _ => false
  | _, PInf => true
  end.

Definition neqb (a b : Num) : bool :=
  match a, b with
  | Fin x, Fin y => qeqb x y
  | PInf, PInf => true
  | NInf, NInf => true
  | _, _ => false
  end.

Definition nleb (a b : Num) : bool := nltb a b || neqb a b.

Definition isnan (a : Num) : bool := match a with NaN => true | _ => false end.
Definition isfin (a : Num) : bool := match a with Fin _ => true | _ => false end.

Definition nzero : Num := Fin qc0.
Definition none1 : Num := Fin qc1.
Definition nz (z : Z) : Num := Fin (qz z).
Definition nnat (n : nat) : Num := nz (Z.of_nat n).

(** Sum of a list, left to right as numpy does (exact, so the order is immaterial: see NumFacts). *)
Definition nsum (l : list Num) : Num := fold_right nadd nzero l.
