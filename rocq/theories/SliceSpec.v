(** What a slice, a list of numbers or a mask picks out of [n] elements. *)
From Coq Require Import Sorted.
From Verif Require Import Num Base Axis Content Fill Access AccessSpec.
Local Open Scope list_scope.

(** Negative bounds count from the end. *)
Definition place_of (n : nat) (z : Z) : Z := (if z <? 0 then z + Z.of_nat n else z)%Z.
(** A slice begins at its first bound, moved to the nearest element when there is none there. *)
Definition begins (n : nat) (start : option Z) (step : Z) : Z :=
  (let last := Z.of_nat n - 1 in
   match start with
   | None => if step <? 0 then last else 0
   | Some z => if step <? 0 then Z.min last (place_of n z) else Z.max 0 (place_of n z)
   end)%Z.
(** Element [j] is a number of steps after the beginning, and before the second bound. *)
Definition in_slice (n : nat) (start stop : option Z) (step : Z) (j : nat) : Prop :=
  j < n /\ (exists i, Z.of_nat j = begins n start step + Z.of_nat i * step)%Z /\
  match stop with
  | None => True
  | Some z => if (step <? 0)%Z then (place_of n z < Z.of_nat j)%Z else (Z.of_nat j < place_of n z)%Z
  end.

Definition selects (n : nat) (i : item) (js : list nat) : Prop :=
  match i with
  | AtSlice start stop step => (forall j, In j js <-> in_slice n start stop step j) /\ StronglySorted (fun a b => if (step <? 0)%Z then b < a else a < b) js
  | AtList zs => Forall2 (means_index n) zs js
  | AtMask bs => (forall j, In j js <-> nth_error bs j = Some true) /\ StronglySorted lt js
  | _ => False
  end.
(** The indexes that pick something. *)
Definition acceptable (n : nat) (i : item) : Prop :=
  match i with
  | AtSlice _ _ step => step <> 0%Z
  | AtList zs => Forall (fun z => - Z.of_nat n <= z < Z.of_nat n)%Z zs
  | AtMask bs => List.length bs = n
  | _ => False
  end.
