(** What printing an expression is compared with: the fields in it. *)
From Coq Require Import String.
From Verif Require Import Base Num Tree Expr.
Local Open Scope list_scope.

(** The fields in an expression. *)
Fixpoint enames (e : expr) : list string :=
  let term_names t := flat_map enames (tp t) ++ flat_map enames (tn t) in
  match e with
  | EConst _ => []
  | EName s | EPred s _ => [s]
  | ECall _ _ l | EAnd l | EOr l => flat_map enames l
  | ERel _ l r => enames l ++ enames r
  | EPM _ p n => flat_map term_names p ++ flat_map term_names n
  | ETD t => term_names t
  end.

(** The expression is nothing but the field: its name, or a product or sum of it alone. *)
Inductive bare : expr -> string -> Prop :=
| bare_name s : bare (EName s) s
| bare_pred s : bare (EPred s true) s
| bare_product x s : bare x s -> bare (ETD (T qc1 [x] [])) s
| bare_sum x s : bare x s -> bare (EPM qc0 [T qc1 [x] []] []) s.
