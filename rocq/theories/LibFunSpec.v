(** What erf, erfc, gamma, lgamma and factorial are expected to be: specification for the last part
    of Lib.v.  [exp] and [log] are given; what is asked of them is stated here. *)
From Coq Require Import String.
From Verif Require Import Num Base Tree Elem Lib LibSpec.
Local Open Scope Qc_scope.
Local Open Scope string_scope.

(** Numpy's exp, as far as it matters here: not above zero it is finite, between 0 and 1 and does
    not decrease; it may underflow to 0. *)
Definition exp_ok (tr : string -> list Num -> Num) : Prop :=
  (forall q, q <= 0 -> exists e, tr "exp" [Fin q] = Fin e /\ 0 <= e /\ e <= 1) /\
  (forall q r e f, q <= r -> r <= 0 -> tr "exp" [Fin q] = Fin e -> tr "exp" [Fin r] = Fin f -> e <= f) /\
  tr "exp" [Fin 0] = Fin 1 /\ tr "exp" [NInf] = Fin 0 /\ tr "exp" [NaN] = NaN.
(** It is never 0 and increases strictly: without underflow. *)
Definition exp_strict (tr : string -> list Num -> Num) : Prop :=
  forall q e, q <= 0 -> tr "exp" [Fin q] = Fin e -> 0 < e.

(** The same where it may overflow: positive, and not NaN. *)
Definition positive (x : Num) : Prop := x = PInf \/ exists q, x = Fin q /\ 0 < q.
Definition exp_positive (tr : string -> list Num -> Num) : Prop := forall q, exists q', tr "exp" [Fin q] = q' /\ positive q'.
(** log: finite for positive numbers, NaN for negative ones. *)
Definition log_ok (tr : string -> list Num -> Num) : Prop :=
  (forall q, 0 < q -> exists r, tr "log" [Fin q] = Fin r) /\ (forall q, q < 0 -> tr "log" [Fin q] = NaN).

(** A decimal fraction with nine digits after the point. *)
Definition nano (z : Z) : Qc := qfrac z 1000000000.

(** Formula 7.1.26 of Abramowitz and Stegun for erf(x), x >= 0, where [e] is exp(-x^2). *)
Definition erf_7_1_26 (x e r : Qc) : Prop :=
  exists t, t * (1 + nano 327591100 * x) = 1 /\
  r = 1 - (nano 254829592 * t + nano (-284496736) * multiplied t 2 + nano 1421413741 * multiplied t 3
           + nano (-1453152027) * multiplied t 4 + nano 1061405429 * multiplied t 5) * e.

(** Lanczos' series: [s] = 1 + c1/x + c2/(x+1) + ... + c6/(x+5). *)
Definition lanczos_series (x s : Qc) : Prop :=
  s = 1 + qfrac 7618009173 100000000 / x - qfrac 8650532033 100000000 / (x + 1) + qfrac 2401409822 100000000 / (x + qz 2)
      - qfrac 1231739516 1000000000 / (x + qz 3) + qfrac 120858003 100000000000 / (x + qz 4) - qfrac 536382 100000000000 / (x + qz 5).
Definition sqrt_2pi : Qc := qfrac 250662827465 100000000000.
(** log(gamma(x)) is (x - 1/2) log(x + 9/2) - (x + 9/2) + log(sqrt(2 pi) s). *)
Definition lanczos tr (x r : Qc) : Prop :=
  exists s a b, lanczos_series x s /\ tr "log" [Fin (x + qfrac 9 2)] = Fin a /\ tr "log" [Fin (sqrt_2pi * s)] = Fin b /\
  r = (x - qfrac 1 2) * a - (x + qfrac 9 2) + b.
