(** Vocabulary for how expressions compare. *)
From Coq Require Import String Permutation Sorted.
From Verif Require Import Num Base Tree Expr PyCmp.

(** Every constant of an expression satisfies [P], and the constant of every sum and product
    satisfies [R]. *)
Inductive every (P R : pv -> Prop) : node -> Prop :=
| every_const v : P v -> every P R (NConst v)
| every_name s : every P R (NName s)
| every_bcast v : P v -> every P R (NBcast v)
| every_call b f l : Forall (every P R) l -> every P R (NCall b f l)
| every_ring b c p n : R c -> Forall (every P R) p -> Forall (every P R) n -> every P R (NRing b c p n)
| every_logic b l : Forall (every P R) l -> every P R (NLogic b l)
| every_rel c l r : every P R l -> every P R r -> every P R (NRel c l r)
| every_pred s b : every P R (NPred s b).

(** None, a string, or a number (not NaN) whose Python type is called [T]. *)
Definition scalar_of (T : string) (v : pv) : Prop :=
  v = VNone \/ (exists s, v = VStr s) \/ (exists x, pv_num v = Some x /\ isnan x = false /\ type_name v = T).
Definition finite_number (v : pv) : Prop := exists q, pv_num v = Some (Fin q).
(** An expression without sets and NaN, whose literal numbers are all of the type [T]: all int,
    all float or all bool. *)
Definition uniform (T : string) : node -> Prop := every (scalar_of T) finite_number.

(** Without NaN; sets hold scalars that differ from each other. *)
Definition scalar (v : pv) : Prop := (forall l, v <> VSet l) /\ forall x, pv_num v = Some x -> isnan x = false.
Definition real_value (v : pv) : Prop :=
  scalar v \/ exists l, v = VSet l /\ Forall scalar l /\ ForallOrdPairs (fun a b => pv_eqb a b = false) l.
Definition no_nan : node -> Prop := every real_value finite_number.

(** What Python's [sorted] guarantees of its result. *)
Definition sorts_to (l out : list node) : Prop :=
  Permutation l out /\ StronglySorted (fun x y => node_ltb y x <> Ok true) out.
(** Two lists with the same elements, up to [==] and in any order. *)
Definition same_items (l m : list node) : Prop :=
  exists m', Permutation m m' /\ Forall2 (fun x y => node_eqb x y = true) l m'.

(** The Python objects that the expressions of Expr.v stand for: a number is an int or a float. *)
Inductive stands_c : cst -> pv -> Prop :=
| sc_none : stands_c (KS SNone) VNone
| sc_bool b : stands_c (KS (SBool b)) (VBool b)
| sc_int z : stands_c (KS (SNum (Fin (qz z)))) (VInt z)
| sc_float x : stands_c (KS (SNum x)) (VFloat x)
| sc_str s : stands_c (KS (SStr s)) (VStr s).
Definition sign_text (c : cmp) : string :=
  match c with CEq => "==" | CNe => "!=" | CLt => "<" | CLe => "<=" | CIn => "in" | CNotIn => "not in" end.
Inductive stands : expr -> node -> Prop :=
| st_const c v : stands_c c v -> stands (EConst c) (NConst v)
| st_name s : stands (EName s) (NName s)
| st_pred s b : stands (EPred s b) (NPred s b)
| st_call b f l m : Forall2 stands l m -> stands (ECall b f l) (NCall b f m)
| st_rel c l r l' r' : stands l l' -> stands r r' -> stands (ERel c l r) (NRel (sign_text c) l' r')
| st_and l m : Forall2 stands l m -> stands (EAnd l) (NLogic false m)
| st_or l m : Forall2 stands l m -> stands (EOr l) (NLogic true m)
| st_td q c p n p' n' : pv_num c = Some (Fin q) -> Forall2 stands p p' -> Forall2 stands n n' ->
    stands (ETD (T q p n)) (NRing true c p' n')
| st_pm q c p n p' n' : pv_num c = Some (Fin q) -> Forall2 stands (map ETD p) p' -> Forall2 stands (map ETD n) n' ->
    stands (EPM q p n) (NRing false c p' n').
(** The same for call trees, whose constants may be broadcast. *)
Inductive stands_tree : tree -> node -> Prop :=
| tr_const c v : stands_c c v -> stands_tree (TConst c) (NConst v)
| tr_name s : stands_tree (TName s) (NName s)
| tr_pred s b : stands_tree (TPred s b) (NPred s b)
| tr_bcast c v : stands_c c v -> stands_tree (TBcast c) (NBcast v)
| tr_call f l m : Forall2 stands_tree l m -> stands_tree (TCall f l) (NCall false f m).
