(** What a filter means for a histogram as it is written: the specification. *)
From Coq Require Import String.
From Verif Require Import Num Base Axis Content Fill FillSpec Elem HistFill HistSpec HistFillMain3 Expr ExprSpec HistNew HistNewSpec.

(** The same histogram without its filter. *)
Definition unfiltered (w : written) : written :=
  {| w_axes := w_axes w; w_weight := w_weight w; w_filter := None |}.

(** The filter, as written, is true in row [i] of the data. *)
Definition lets_through (user : string -> list arg -> res val) (w : written) (A : arrays) (i : nat) : bool :=
  match w_filter w with
  | None => true
  | Some f => match src_truth user (field_at A i) f with Ok b => b | Err _ => false end
  end.
(** The rows that the filter lets through, in order. *)
Definition passing user w A len : list nat := filter (lets_through user w A) (seq 0 len).

(** Contents [c] of the histogram and [c0] of that without the filter hold the same.  Without a
    weight only the filtered histogram has a column of squared weights: it then holds counts. *)
Definition column_without (w : written) (kd : column_kind) : column_kind :=
  match w_weight w, kd with None, SumW2 => SumW | _, _ => kd end.
Definition holds_the_same (w : written) (c c0 : content) : Prop :=
  forall ks ss kd, in_shape (written_layout w) ss -> has_column (written_layout w) kd ->
    cell (written_layout w) c ks ss (column_of (written_layout w) kd) =
    cell (written_layout (unfiltered w)) c0 ks ss (column_of (written_layout (unfiltered w)) (column_without w kd)).
