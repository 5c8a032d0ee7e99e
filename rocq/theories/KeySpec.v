(** Which rows belong to a cell, said with the displayed keys only: nothing here mentions slot
    arithmetic, digitizing, clamping or masks. *)
From Coq Require Import String.
From Verif Require Import Num Base Tree InstrSpec Axis AxisSpec Calc Content Fill FillSpec Elem HistFill HistSpec.

(** The axis was accepted by its constructor, with finite parameters (edges may be infinite). *)
Inductive axis_fine : axis -> Prop :=
| fine_groupby e : axis_fine (AGroupby e)
| fine_groupbin e w org nf cl ax : mk_groupbin e (Fin w) (Fin org) nf cl = Ok ax -> axis_fine ax
| fine_bin e n l h u o nf cl ax : mk_bin e n (Fin l) (Fin h) u o nf cl = Ok ax -> 0 < n ->
    (Z.of_nat n + 1 <= int_max)%Z -> axis_fine ax
| fine_intbin e mn mx u o ax : mk_intbin e mn mx u o = Ok ax -> axis_fine ax
| fine_split e raw u o nf cl ax : (forall x, In x raw -> x <> NaN) -> mk_split e raw u o nf cl = Ok ax ->
    axis_fine ax
| fine_cut e : axis_fine (ACut e).

(** The value is one the axis is meant for: any number for bin and split, an integer for intbin,
    a boolean for cut, a finite number or NaN for groupbin, anything but NaN for groupby. *)
Definition value_fine (ax : axis) (v : val) : Prop :=
  match ax with
  | AGroupby _ => v <> VNum NaN
  | AGroupbin _ _ _ _ _ => exists x, v = VNum x /\ (isfin x = true \/ x = NaN)
  | ABin _ _ _ _ _ _ _ _ | ASplit _ _ _ _ _ _ => exists x, v = VNum x
  | AIntbin _ mn _ u _ => exists k, v = VNum (nz k) /\ (int_min <= k + b2z u - mn <= int_max)%Z
  | ACut _ => exists b, v = VBool b
  | ANull | AProfile _ => False
  end.

(** The displayed key [k] holds the value. *)
Definition holds (k : key) (v : val) : Prop :=
  match v with VNum x => contains k x | VBool b => k = KBool b | VStr _ => False end.

(** The group key [k] is the group of the value. *)
Definition in_group (ax : axis) (v : val) (k : gkey) : Prop :=
  match ax with
  | AGroupby _ =>
      match v with VNum x => k = GNum x | VStr s => k = GStr s | VBool b => k = GNum (if b then nz 1 else nz 0) end
  | AGroupbin _ (Fin w) (Fin org) nf cl =>
      (exists x z, v = VNum (Fin x) /\ k = GNum (Fin (org + w * qz z)%Qc) /\
         in_interval (Fin (org + w * qz z)%Qc) (nadd (Fin (org + w * qz z)%Qc) (Fin w)) cl (negb cl) (Fin x)) \/
      (v = VNum NaN /\ nf = true /\ k = GStr "NaN")
  | _ => False
  end.

Section Belongs.
  Variable user : string -> list arg -> res val.
  Variable h : hist.
  Variable field : string -> res val.

  (** The row belongs to the cell with group keys [ks] and bin numbers [ss]: its value on each
      group axis is in that group, its value on each fixed axis is held by that bin's key. *)
  Definition belongs (ks : list gkey) (ss : list nat) : Prop :=
    Forall2 (fun p k => exists v, value user field (snd p) = Ok v /\ in_group (fst p) v k) (h_group h) ks /\
    Forall2 (fun p s => exists v k, value user field (snd p) = Ok v /\ nth_error (keys (fst p)) s = Some k /\ holds k v)
            (h_fixed h) ss.

  (** The weight of the row (a computed NaN counts as zero) and what the row adds. *)
  Definition weight_of : res Num :=
    match h_weight h with
    | None => Ok none1
    | Some (WxConst v) => Ok v
    | Some (WxTree t) => do w <- number user field t; Ok (if isnan w then nzero else w)
    end.
  Definition adds (kd : column_kind) : res Num :=
    do w <- weight_of;
    match kd with
    | SumW => Ok w
    | SumW2 => Ok (nmul w w)
    | SumWX p => match nth_error (h_prof h) p with
                 | Some t => do x <- number user field t; Ok (nmul x w) | None => Err IndexError end
    | SumWX2 p => match nth_error (h_prof h) p with
                  | Some t => do x <- number user field t; Ok (nmul (nmul x x) w) | None => Err IndexError end
    end.

  (** Every expression has a value fit for its place. *)
  Definition row_fine : Prop :=
    (forall p, In p (h_group h ++ h_fixed h)%list -> exists v, value user field (snd p) = Ok v /\ value_fine (fst p) v) /\
    (forall t, In t (h_prof h) -> exists x, number user field t = Ok x) /\
    (exists w, weight_of = Ok w).
  (** No fixed axis drops the row. *)
  Definition row_kept : Prop :=
    forall p, In p (h_fixed h) -> exists v k, value user field (snd p) = Ok v /\ In k (keys (fst p)) /\ holds k v.
End Belongs.
