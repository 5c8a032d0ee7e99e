(** What the data of a heat map must say. *)
From Coq Require Import String Sorted.
From Verif Require Import Base Num Axis AxisSpec Calc Content Fill FillSpec Tree Order Expr InstrSpec Elem HistFill HistSpec KeySpec HistAlg AlgSpec
  Nd Proj ProjSpec Select Table TableSpec Pandas PandasSpec Vega VegaSpec.
Local Open Scope list_scope.

Definition is_some {A} (x : option A) : bool := match x with Some _ => true | None => false end.
Definition is_groupbin (a : axis) : bool := match a with AGroupbin _ _ _ _ _ => true | _ => false end.
(** The two ends of a group of numbers: its key is the low end. *)
Definition group_ends (a : axis) (k : gkey) : option (Num * Num) :=
  match a, k with
  | AGroupbin _ w _ _ _, GNum n => if isfin n && isfin (nadd n w) then Some (n, nadd n w) else None
  | _, _ => None
  end.

Section Heat.
  (** Columns [jx] and [jy] are those of the two axes of the heat map. *)
  Variables (groups fixed : list axis) (id : option string) (jx jy : nat) (numbers : place -> list Num).
  Definition is_heat (j : nat) : bool := Nat.eqb j jx || Nat.eqb j jy.
  (** The two axes have the centres of the bins, if they have bins of numbers; all else has labels. *)
  Definition group_cell (j : nat) (a : axis) (k : gkey) (c : vcell) : Prop :=
    if is_heat j && is_groupbin a then exists lo hi, group_ends a k = Some (lo, hi) /\ c = VNumber (middle lo hi)
    else exists t, c = VText t /\ names_group a k t.
  Definition bin_cell (j : nat) (a : axis) (s : nat) (c : vcell) : Prop :=
    if is_heat j && is_number_axis a then exists lo hi, bin_ends a s = Some (lo, hi) /\ c = VNumber (middle lo hi)
    else exists t, c = VText t /\ names_bin a s t.
  Definition heat_datum (p : place) (d : datum) : Prop :=
    exists gl fl, d_id d = id /\ d_row d = gl ++ fl ++ map VNumber (numbers p) /\ d_centre d = None /\
      length gl = length groups /\ length fl = length fixed /\
      (forall j a k c, nth_error groups j = Some a -> nth_error (fst p) j = Some k -> nth_error gl j = Some c -> group_cell j a k c) /\
      (forall j a s c, nth_error fixed j = Some a -> nth_error (snd p) j = Some s -> nth_error fl j = Some c -> bin_cell (length groups + j) a s c).
  (** A place is drawn if its bins on both axes have two finite ends, or are not bins of numbers. *)
  Definition has_place (p : place) (j : nat) : bool :=
    match nth_error groups j, nth_error (fst p) j with
    | Some a, Some k => negb (is_groupbin a) || is_some (group_ends a k)
    | _, _ => match nth_error fixed (j - length groups), nth_error (snd p) (j - length groups) with
              | Some a, Some s => negb (is_number_axis a) || is_some (bin_ends a s)
              | _, _ => false
              end
    end.
  Definition in_heatmap (p : place) : bool := has_place p jx && has_place p jy.
  (** One datum for each such place, in order. *)
  Definition heat_data (has : list gkey -> Prop) (data : list datum) : Prop :=
    exists places, all_places has (map totbins fixed) places /\ Forall2 heat_datum (filter in_heatmap places) data.
End Heat.
