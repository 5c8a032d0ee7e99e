(** What the functions of an expression are expected to compute: specification for Lib.v.  The
    definitions are the usual mathematical ones and do not mention the model. *)
From Coq Require Import String.
From Verif Require Import Num Base Tree Elem Lib.
Local Open Scope Qc_scope.

(** The whole numbers among the rationals. *)
Definition whole (r : Qc) : Prop := exists z, r = qz z.
Definition even_whole (r : Qc) : Prop := exists z, r = qz (2 * z).
(** [r] is the distance between [x] and [y]. *)
Definition distance (x y r : Qc) : Prop := 0 <= r /\ (r = x - y \/ r = y - x).

(** The largest whole number not above [x]; the smallest not below; the one of them that is nearer
    to zero; the nearest one, the even one of two. *)
Definition is_floor (x r : Qc) : Prop := whole r /\ r <= x /\ forall s, whole s -> s <= x -> s <= r.
Definition is_ceil (x r : Qc) : Prop := whole r /\ x <= r /\ forall s, whole s -> x <= s -> r <= s.
Definition is_trunc (x r : Qc) : Prop := (0 <= x /\ is_floor x r) \/ (x <= 0 /\ is_ceil x r).
Definition is_nearest (x r : Qc) : Prop :=
  whole r /\ forall s d e, whole s -> distance x r d -> distance x s e -> d <= e /\ (d = e -> s <> r -> even_whole r).

Definition is_abs (x r : Qc) : Prop := 0 <= r /\ (r = x \/ r = - x).
Definition is_sign (x r : Qc) : Prop := (x < 0 /\ r = qz (-1)) \/ (x = 0 /\ r = qz 0) \/ (0 < x /\ r = qz 1).

(** Division with a remainder: [x] is a multiple of [y] plus [r], and [r] is smaller than [y].
    Python's % gives [r] the sign of the divisor, C's fmod that of the dividend. *)
Definition leaves (x y r : Qc) : Prop := exists q, whole q /\ x = q * y + r.
Definition is_mod (x y r : Qc) : Prop := leaves x y r /\ ((0 <= r /\ r < y) \/ (y < r /\ r <= 0)).
Definition is_fmod (x y r : Qc) : Prop :=
  leaves x y r /\ (forall a b, is_abs r a -> is_abs y b -> a < b) /\ ((0 <= x /\ 0 <= r) \/ (x <= 0 /\ r <= 0)).

(** [x] multiplied [n] times with itself. *)
Fixpoint multiplied (x : Qc) (n : nat) : Qc := match n with O => 1 | S n => x * multiplied x n end.

(** The value of a call on numbers, as the function is written. *)
Definition call tr (n : fname) (xs : list Num) : res val :=
  do f <- recognise n; efun (numlib tr) f (map (fun x => AV (VNum x)) xs).
(** It gives a finite number of which [P] holds. *)
Definition gives tr n xs (P : Qc -> Prop) : Prop := exists r, call tr n xs = Ok (VNum (Fin r)) /\ P r.
(** The ways to write a function. *)
Definition in_all (f : string) : list fname := [Bare f; Dotted "math" f; Dotted "numpy" f].
