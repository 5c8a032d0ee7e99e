(** project, drop, rebin and select on a fixed axis (Proj.v, Rebin.v, Select.v) as functions from histogram
    values to histogram values, for programs over histogram variables (Heap.v). *)
From Coq Require Import String.
From Verif Require Import Base Num Axis Calc Content Fill Tree Order Expr HistAlg Nd Proj Select Rebin Heap HeapSpec.
Local Open Scope list_scope.

(** The content as a value.  A list in the place of an array (which project can leave, see C37) has none:
    such a histogram is not modelled further, the operation counts as failed. *)
Definition unembed_items (f : pv -> option content) : list (gkey * pv) -> option (list (gkey * content)) :=
  fix go l := match l with
              | [] => Some []
              | (k, x) :: t => match f x, go t with Some y, Some t' => Some ((k, y) :: t') | _, _ => None end
              end.
Fixpoint unembed (c : pv) : option content :=
  match c with
  | PNone => Some CNone
  | PArr _ d => Some (CArr d)
  | PDict l => option_map CDict (unembed_items unembed l)
  | PList _ => None
  end.
Definition unview (r : res phist) : res hobj :=
  do h <- r; match unembed (p_content h) with Some c => Ok (with_content (p_head h) c) | None => Err TypeError end.
(** h.project( *axes) (proj.py 230-289) *)
Definition project_value (axes : list axis) (h : hobj) : res hobj := unview (project (Proj.view h) axes).
(** h.drop( *profile) (proj.py 186-228) *)
Definition drop_value (profile : list axis) (h : hobj) : res hobj := unview (drop (Proj.view h) profile).
(** h.rebin(axis, edges) (proj.py 97-136) *)
Definition rebin_value (parse : string -> expr) (arg : axis_arg) (edges : list Num) (h : hobj) : res hobj := unview (rebin parse (Proj.view h) arg edges).
(** _selectaxis (proj.py 460-486) for the fixed axis number [q] *)
Definition select_value (q : nat) (newaxis : axis) (s : slc) (dropnull : bool) (h : hobj) : res hobj :=
  if is_fixed newaxis then unview (select_axis (Proj.view h) (ngroups h + q) newaxis (CutSlice s) dropnull) else Err TypeError.
