(** Specification for FillMem.v: what a fill may do to the arrays it is given. *)
From Coq Require Import String.
From Verif Require Import Num Base Tree Instr InstrSpec Axis Content Fill Elem HistFill HistSpec Lib FillMem.

(** The caller's arrays are one-dimensional arrays in memory. *)
Definition passed (A : margs) (m : memory) : Prop :=
  forall s l, A s = Some (MAr l) -> exists x, nth_error m l = Some (VCol x).

(** The arguments with the elements their arrays have at the moment. *)
Definition stands_for (A : margs) (m : memory) (B : arrays) : Prop :=
  forall s, match A s with
            | None => B s = None
            | Some (MSc v) => B s = Some (ISc v)
            | Some (MAr l) => exists x, nth_error m l = Some (VCol x) /\ B s = Some (IAr x)
            end.

(** Every array that was in memory is still there, with the same elements. *)
Definition untouched (m m' : memory) : Prop :=
  forall l v, nth_error m l = Some v -> nth_error m' l = Some v.

(** No Numpy function is called with one argument more than it computes with. *)
Definition no_extra (t : tree) : Prop :=
  forall f args k, subtree (TCall f args) t -> assoc f ufuncs = Some k -> List.length args <> S k.
Definition hist_no_extra (h : hist) : Prop := forall t, In t (hist_exprs h) -> no_extra t.

(** The arrays of the caller that the value of an expression may be, or share memory with: a field
    is its array, a function with an additional argument returns that argument, and the slots of a
    cut may be the array itself. *)
Inductive handed : tree -> string -> Prop :=
| handed_name s : handed (TName s) s
| handed_pred s b : handed (TPred s b) s
| handed_out f args a s : assoc f ufuncs = Some (List.length args) -> handed a s -> handed (TCall f (args ++ [a])) s
| handed_cut a s : handed a s -> handed (TCall "histbook.cut" [a]) s.

(** An expression of the histogram passes the field [s] to a function as an additional argument. *)
Definition extra_argument (h : hist) (s : string) : Prop :=
  exists t f args a, In t (hist_exprs h) /\ subtree (TCall f (args ++ [a])) t /\
    assoc f ufuncs = Some (List.length args) /\ handed a s.
