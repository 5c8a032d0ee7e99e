(** What a ROOT histogram shows. *)
From Coq Require Import String.
From Verif Require Import Base Num Axis AxisSpec Calc Content Fill FillSpec Tree Order Expr HistAlg AlgSpec Nd Proj ProjSpec Select Table TableSpec Root.
Local Open Scope list_scope.

(** ROOT's edges: bin i, from 1 to n, goes from edge i - 1 up to edge i. *)
Definition root_edge (n : nat) (low high : Num) (i : nat) : Num := nadd low (nmul (ndiv (nnat i) (nnat n)) (nsub high low)).
(** ROOT's bin for a number: 0 below the low edge, n + 1 from the high edge. *)
Definition in_root_bin (n : nat) (low high : Num) (i : nat) (v : Num) : Prop :=
  (i = 0 /\ nltb v low = true) \/
  (1 <= i <= n /\ nleb (root_edge n low high (i - 1)) v = true /\ nltb v (root_edge n low high i) = true) \/
  (i = n + 1 /\ nleb high v = true).
Definition is_edge (n : nat) (low high : Num) (v : Num) : Prop := exists i, i <= n /\ v = root_edge n low high i.

(** GetBinContent and GetBinError of a profile, squared (TProfile.cxx, for the default error option):
    the sum over the number, and the spread over the square root of the number. *)
Definition prof_mean (q : tprofile) (i : nat) : Num :=
  let n := nth i (q_entries q) nzero in if neqb n nzero then nzero else ndiv (nth i (q_content q) nzero) n.
Definition nabs (x : Num) : Num := if nltb x nzero then nsub nzero x else x.
Definition prof_error2 (q : tprofile) (i : nat) : Num :=
  let n := nth i (q_entries q) nzero in
  if neqb n nzero then nzero else
  let e := nth i (q_errors q) nzero in
  ndiv (nabs (nsub (ndiv (nmul e e) n) (nmul (prof_mean q i) (prof_mean q i)))) n.

(** A bin of the axis with key [k] and ROOT bin [i] hold the same numbers; if the axis closes its bins at
    the high edge, other than the edges, which ROOT puts in the bin above. *)
Definition same_bin (n : nat) (low high : Num) (closedlow : bool) (i : nat) (k : key) : Prop :=
  forall v, v <> NaN -> (closedlow = true \/ ~ is_edge n low high v) -> (contains k v <-> in_root_bin n low high i v).
(** The array [x] of a ROOT histogram shows the numbers [f s] of the bins of a bin axis, and zero for the
    underflow or overflow that the axis does not have. *)
Definition root_shows (a : axis) (f : nat -> Num) (x : list Num) : Prop :=
  match a with
  | ABin _ n low high u o _ cl =>
    length x = n + 2 /\
    (forall s k, nth_error (keys a) s = Some k -> k <> KNaN -> exists i, i < n + 2 /\ same_bin n low high cl i k /\ nth i x nzero = f s) /\
    (u = false -> nth 0 x nzero = nzero) /\ (o = false -> nth (n + 1) x nzero = nzero)
  | _ => False
  end.

(** The sum over all bins of [h] that show slot [s] of the fixed axis [a], in all groups: [P] lists the
    groups. *)
Definition summed (h : hobj) (a : axis) (P : list (list gkey)) (s : nat) (kd : column_kind) : Num :=
  nsum (map (fun p => nsum (map (fun ss => hcell h p ss kd) (slots_over (keep_of [a] (o_fixed h)) (l_tots (o_layout h)) [s]))) P).
(** The count, the mean and its error, from these sums. *)
Definition summed_effective (h : hobj) (a : axis) (P : list (list gkey)) (s : nat) : Num :=
  let n := summed h a P s SumW in if weighted h then ndiv (nmul n n) (summed h a P s SumW2) else n.
Definition summed_mean (h : hobj) (a : axis) (P : list (list gkey)) (i s : nat) : Num :=
  let n := summed h a P s SumW in if nltb nzero n then ndiv (summed h a P s (SumWX i)) n else nzero.
Definition summed_error (sqrt : Num -> Num) (h : hobj) (a : axis) (P : list (list gkey)) (i s : nat) : Num :=
  let n := summed h a P s SumW in
  let m := ndiv (summed h a P s (SumWX i)) n in
  if nltb nzero n then sqrt (ndiv (nsub (ndiv (summed h a P s (SumWX2 i)) n) (nmul m m)) (summed_effective h a P s)) else nzero.
(** The number whose square root is set as the error of a TProfile's bin: where nothing is rounded and the
    entries are not weighted, the sum of squares. *)
Definition summed_root (sqrt : Num -> Num) (h : hobj) (a : axis) (P : list (list gkey)) (i s : nat) : Num :=
  let e := summed_error sqrt h a P i s in
  let m := summed_mean h a P i s in
  let n := summed h a P s SumW in nmul (nadd (nmul (nmul e e) n) (nmul m m)) n.
Definition exact_root (sqrt : Num -> Num) (x : Num) : Prop := nmul (sqrt x) (sqrt x) = x.
