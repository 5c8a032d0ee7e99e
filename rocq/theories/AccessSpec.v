(** What [groupkeys] and indexing should give, in terms of the rows that were filled. *)
From Coq Require Import String.
From Verif Require Import Num Base Axis Calc Content Fill FillSpec Access.
Local Open Scope list_scope.

(** The row has the value (or interval) [k] on the group axis number [i]. *)
Definition row_has (i : nat) (k : gkey) (r : row) : Prop := nth i (r_keys r) None = Some k.

(** The group axes before number [i] all keep some row of this fill (always so for groupby axes, and
    for groupbin axes with nanflow). *)
Definition reached (i : nat) (rows : list row) : Prop :=
  forall i', i' < i -> exists r k, In r rows /\ row_has i' k r.
(** The row has a value on every group axis. *)
Definition keyed (r : row) : Prop := ~ In None (r_keys r).

(** The index of one number: all group keys, a bin number for each fixed axis, a column.  A group key
    can be written as an integer or a float when it is a number. *)
Inductive writes_key : item -> gkey -> Prop :=
| writes_int z : writes_key (AtInt z) (GNum (nz z))
| writes_float x : x <> NaN -> writes_key (AtFloat x) (GNum x)
| writes_str s : writes_key (AtStr s) (GStr s).
(** Python's integer index [z] of a dimension of size [n] means element [i]. *)
Definition means_index (n : nat) (z : Z) (i : nat) : Prop :=
  i < n /\ (z = Z.of_nat i \/ z = (Z.of_nat i - Z.of_nat n)%Z).

From Verif Require Import Expr.
(** The argument of groupkeys asks for the group axis number [i]: the axis itself, its position among
    all axes (group axes come first), or an expression with the normal form of its expression. *)
Inductive asks_for (parse : src -> res expr) (group fixed prof : list (axis * expr)) : axis_arg -> nat -> Prop :=
| asks_axis i a e : nth_error group i = Some (a, e) -> asks_for parse group fixed prof (GivenAxis a) i
| asks_position z i : i < List.length group ->
    means_index (List.length (group ++ fixed ++ prof)) z i -> asks_for parse group fixed prof (GivenItem (AtPosition z)) i
| asks_expr s i a e : parse s = Ok e -> nth_error group i = Some (a, e) ->
    (forall i' b, i' < i -> nth_error group i' <> Some (b, e)) -> asks_for parse group fixed prof (GivenItem (AtExpr s)) i.
