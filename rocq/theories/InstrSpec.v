(** Specification of the scheduler: what a goal is worth, and which goals can be computed.

    Nothing here mentions the call graph, the walk or the instructions. *)
From Coq Require Import String Permutation.
From Verif Require Import Num Base Tree.

Section Value.
  Variable V : Type.
  Variable constv : cst -> V.
  Variable lib : string -> list V -> res V.
  Variable param : tree -> res V.

  (** The value of an expression: fields are looked up, functions applied to the values of their
      arguments. *)
  Fixpoint teval (t : tree) : res V :=
    match t with
    | TConst c => Ok (constv c)
    | TName _ | TPred _ _ | TBcast _ => param t
    | TCall f args =>
        do vs <- (fix go (l : list tree) : res (list V) :=
                    match l with
                    | [] => Ok []
                    | a :: l => do v <- teval a; do vs <- go l; Ok (v :: vs)
                    end) args;
        lib f vs
    end.
End Value.

(** A field name occurs in an expression. *)
Inductive mentions (s : string) : tree -> Prop :=
| mentions_name : mentions s (TName s)
| mentions_pred b : mentions s (TPred s b)
| mentions_call f args a : In a args -> mentions s a -> mentions s (TCall f args).

(** Every function call inside [t] has an argument that is not a literal constant, all the way
    down: [sin(x + 1)] and [where(x < 2, 1, 0)] are, [x * sin(1)] is not (its inner call is
    constant), nor is the constant 1 itself. *)
Inductive data_driven : tree -> Prop :=
| dd_name s : data_driven (TName s)
| dd_pred s b : data_driven (TPred s b)
| dd_bcast c : data_driven (TBcast c)
| dd_call f args :
    (exists a, In a args /\ is_const a = false) ->
    (forall a, In a args -> is_const a = false -> data_driven a) ->
    data_driven (TCall f args).

(** [s] is a sub-expression of [t] (or [t] itself). *)
Inductive subtree (s : tree) : tree -> Prop :=
| sub_refl : subtree s s
| sub_call f args a : In a args -> subtree s a -> subtree s (TCall f args).

(** An iteration order: it lists the same elements. *)
Definition is_order (order : tree -> list tree -> list tree) : Prop :=
  forall t l, Permutation (order t l) l.
