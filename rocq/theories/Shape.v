(** [Hist.shape] (hist.py 320-323), as the constructor computes it (hist.py 185-254). *)
From Verif Require Import Base Num Axis Content Fill HistAlg.
Local Open Scope list_scope.

(** self._shape[-1] += k *)
Fixpoint last_plus (k : nat) (l : list nat) : list nat :=
  match l with
  | [] => []
  | [n] => [n + k]
  | n :: t => n :: last_plus k t
  end.
(** hist.py 185-192: one entry for every fixed axis, in the order of the arguments *)
Fixpoint fixed_entries (shape : list nat) (axs : list axis) : list nat :=
  match axs with
  | [] => shape
  | a :: t => fixed_entries (if is_fixed a then shape ++ [totbins a] else shape) t
  end.
(** hist.py 194-201: two more in the last entry for every profile *)
Fixpoint profile_entries (shape : list nat) (axs : list axis) : list nat :=
  match axs with
  | [] => shape
  | a :: t => profile_entries (if is_profile a then last_plus 2 shape else shape) t
  end.
(** hist.py 213-246: one more without weight and filter, two more otherwise. The expressions of the
    axes, of the weight and of the filter are modelled elsewhere (HistNew.v). *)
Definition init_shape (axs : list axis) (weight filter : option wsrc) : list nat :=
  last_plus (match weight, filter with None, None => 1 | _, _ => 2 end) (profile_entries (fixed_entries [] axs ++ [0]) axs).
(** shape (hist.py 320-323): as computed by the constructor; operations that make another histogram call
    it again or take over everything (hist.py 79-98, 530-532; proj.py), with the axes of the result. *)
Definition hist_shape (h : hobj) : list nat := init_shape (o_axes h) (o_weight h) (o_filter h).
