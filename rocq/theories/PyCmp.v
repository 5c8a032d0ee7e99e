(** How expressions compare in Python: [==], [<] and [hash], with the Python types of constants.

    /repo/histbook/expr.py 485-1060, the methods [__eq__], [__lt__] and [__hash__] of Const, Name,
    BroadcastConst, Call, BinOp, RingAlgebra (PlusMinus, TimesDiv), Logical (LogicalAnd,
    LogicalOr), Relation and Predicate.  Expr.v orders expressions by an encoding into nested
    tuples and forgets whether a number is an int or a float; here the methods are followed as they
    are written, so that the encoding can be checked against them.

    Simplifications: strings are compared as byte strings; [is] is not tried before [==] when
    tuples are compared (it matters only for NaN); the name of a BroadcastConst is None, as in
    the goals of every axis (axis.py 288, 417, 672, ...); a set holds numbers, strings, bools and
    None only, without repetitions. *)
From Coq Require Import String.
From Verif Require Import Num Base Axis.

(** The values of constants, with their Python types. *)
Inductive pv : Type :=
| VNone
| VBool (b : bool)
| VInt (z : Z)
| VFloat (x : Num)
| VStr (s : string)
| VSet (l : list pv).

(** [type(value).__name__], as in expr.py 509-512. *)
Definition type_name (v : pv) : string :=
  match v with
  | VNone => "NoneType" | VBool _ => "bool" | VInt _ => "int" | VFloat _ => "float"
  | VStr _ => "str" | VSet _ => "set"
  end.

(** The number that a bool, an int or a float is. *)
Definition pv_num (v : pv) : option Num :=
  match v with
  | VBool b => Some (Fin (if b then qc1 else qc0))
  | VInt z => Some (Fin (qz z))
  | VFloat x => Some x
  | _ => None
  end.

(** Python's [==] on values; two sets are equal when each contains the other. *)
Definition flat_eqb (a b : pv) : bool :=
  match pv_num a, pv_num b with
  | Some x, Some y => neqb x y
  | None, None =>
      match a, b with
      | VNone, VNone => true
      | VStr s, VStr t => String.eqb s t
      | _, _ => false
      end
  | _, _ => false
  end.
Definition subset (l m : list pv) : bool := forallb (fun x => existsb (flat_eqb x) m) l.
Definition pv_eqb (a b : pv) : bool :=
  match a, b with
  | VSet l, VSet m => subset l m && subset m l
  | _, _ => flat_eqb a b
  end.

(** Python's [<] on strings, numbers and sets (proper inclusion); TypeError otherwise. *)
Definition str_ltb (s t : string) : bool := match String.compare s t with Lt => true | _ => false end.
Definition pv_ltb (a b : pv) : res bool :=
  match pv_num a, pv_num b with
  | Some x, Some y => Ok (nltb x y)
  | _, _ =>
      match a, b with
      | VStr s, VStr t => Ok (str_ltb s t)
      | VSet l, VSet m => Ok (subset l m && negb (subset m l))
      | _, _ => Err TypeError
      end
  end.

(** expr.py 509-512: values of different types compare by the names of their types. *)
Definition const_ltb (a b : pv) : res bool :=
  if String.eqb (type_name a) (type_name b) then pv_ltb a b else Ok (str_ltb (type_name a) (type_name b)).

(** The classes of expr.py 485-1060. *)
Inductive node : Type :=
| NConst (v : pv)                                   (* 485-517 *)
| NName (s : string)                                (* 519-545 *)
| NBcast (v : pv)                                   (* 547-590, name None *)
| NCall (binop : bool) (f : string) (args : list node)   (* 592-631 *)
| NRing (times : bool) (c : pv) (pos neg : list node)    (* 633-676, 829-867 *)
| NLogic (isor : bool) (args : list node)           (* 899-983 *)
| NRel (cmp : string) (l r : node)                  (* 985-1025 *)
| NPred (s : string) (positive : bool).             (* 1027-1060 *)

(** [self.__class__.__name__]. *)
Definition class_name (a : node) : string :=
  match a with
  | NConst _ => "Const" | NName _ => "Name" | NBcast _ => "BroadcastConst"
  | NCall true _ _ => "BinOp" | NCall false _ _ => "Call"
  | NRing true _ _ _ => "TimesDiv" | NRing false _ _ _ => "PlusMinus"
  | NLogic true _ => "LogicalOr" | NLogic false _ => "LogicalAnd"
  | NRel _ _ _ => "Relation" | NPred _ _ => "Predicate"
  end.

Section Tuples.
  Context {A : Type}.
  Variable eq : A -> A -> bool.
  Variable lt : A -> A -> res bool.
  (** [==] on tuples: the same length, and the elements equal one by one. *)
  Fixpoint tuple_eqb (l m : list A) : bool :=
    match l, m with
    | [], [] => true
    | x :: l, y :: m => eq x y && tuple_eqb l m
    | _, _ => false
    end.
  (** [<] on tuples: the first elements that differ decide, a proper prefix comes first. *)
  Fixpoint tuple_ltb (l m : list A) : res bool :=
    match l, m with
    | [], [] => Ok false
    | [], _ :: _ => Ok true
    | _ :: _, [] => Ok false
    | x :: l, y :: m => if eq x y then tuple_ltb l m else lt x y
    end.
End Tuples.

(** [__eq__]: expr.py 504-505, 534-535, 570-571, 608-609, 646-647, 910-911, 1002-1003, 1046-1047. *)
Fixpoint node_eqb (a b : node) : bool :=
  String.eqb (class_name a) (class_name b) &&
  match a, b with
  | NConst u, NConst v => pv_eqb u v
  | NName s, NName t => String.eqb s t
  | NBcast u, NBcast v => pv_eqb u v
  | NCall _ f l, NCall _ g m => String.eqb f g && tuple_eqb node_eqb l m
  | NRing _ c p n, NRing _ c' p' n' =>
      pv_eqb c c' && tuple_eqb node_eqb p p' && tuple_eqb node_eqb n n'
  | NLogic _ l, NLogic _ m => tuple_eqb node_eqb l m
  | NRel c l r, NRel c' l' r' => String.eqb c c' && node_eqb l l' && node_eqb r r'
  | NPred s p, NPred t q => String.eqb s t && Bool.eqb p q
  | _, _ => false
  end.

(** [__lt__]: expr.py 507-514, 537-541, 573-586, 611-615, 649-653, 913-917, 1004-1008, 1049-1053.
    The tuples of parts have fixed lengths, so their comparison is written out: the first parts
    that differ decide. *)
Fixpoint node_ltb (a b : node) : res bool :=
  if String.eqb (class_name a) (class_name b) then
    match a, b with
    | NConst u, NConst v => const_ltb u v
    | NName s, NName t => Ok (str_ltb s t)
    | NBcast u, NBcast v => const_ltb u v
    | NCall _ f l, NCall _ g m =>
        if String.eqb f g then tuple_ltb node_eqb node_ltb l m else Ok (str_ltb f g)
    | NRing _ c p n, NRing _ c' p' n' =>
        if pv_eqb c c' then
          if tuple_eqb node_eqb p p' then tuple_ltb node_eqb node_ltb n n'
          else tuple_ltb node_eqb node_ltb p p'
        else pv_ltb c c'
    | NLogic _ l, NLogic _ m => tuple_ltb node_eqb node_ltb l m
    | NRel c l r, NRel c' l' r' =>
        if String.eqb c c' then
          if node_eqb l l' then
            if node_eqb r r' then Ok false else node_ltb r r'
          else node_ltb l l'
        else Ok (str_ltb c c')
    | NPred s p, NPred t q => if String.eqb s t then Ok (negb p && q) else Ok (str_ltb s t)
    | _, _ => Ok false                              (* the names differ: not reached *)
    end
  else Ok (str_ltb (class_name a) (class_name b)).

(** ** [hash]

    [hash] of a tuple is determined by the hashes of its elements, and equal numbers, strings and
    classes have equal hashes.  The key below is what is hashed, with numbers stripped of their
    types, so two keys that are the same term give the same hash. *)
Inductive hkey : Type :=
| HNum (x : Num)
| HStr (s : string)
| HNone
| HClass (s : string)
| HTuple (l : list hkey).

Definition flat_key (v : pv) : hkey :=
  match v with
  | VNone => HNone
  | VBool b => HNum (Fin (if b then qc1 else qc0))
  | VInt z => HNum (Fin (qz z))
  | VFloat x => HNum x
  | VStr s => HStr s
  | VSet _ => HNone                                 (* sets are not members of sets *)
  end.

(** [sorted(value)] of a set (expr.py 498-499): insertion with [<], TypeError when two elements
    cannot be compared. *)
Fixpoint ins (x : pv) (l : list pv) : res (list pv) :=
  match l with
  | [] => Ok [x]
  | y :: r => do b <- pv_ltb y x; if b : bool then rmap (cons y) (ins x r) else Ok (x :: l)
  end.
Fixpoint sorted_set (l : list pv) : res (list pv) :=
  match l with
  | [] => Ok []
  | x :: r => do s <- sorted_set r; ins x s
  end.

(** expr.py 497-502, 563-568: a set is hashed as [(set, tuple(sorted(value)))]. *)
Definition pv_key (v : pv) : res hkey :=
  match v with
  | VSet l => do s <- sorted_set l; Ok (HTuple [HClass "set"; HTuple (map flat_key s)])
  | _ => Ok (flat_key v)
  end.

Section TupleKeys.
  Context {A : Type}.
  Variable key : A -> res hkey.
  (** The elements of a tuple are hashed in order. *)
  Fixpoint tuple_keys (l : list A) : res (list hkey) :=
    match l with
    | [] => Ok []
    | x :: l => do k <- key x; do ks <- tuple_keys l; Ok (k :: ks)
    end.
End TupleKeys.

(** expr.py 497-502, 531-532, 563-568, 605-606, 643-644, 907-908, 999-1000, 1043-1044.  A BinOp is
    hashed with the class Call, a BroadcastConst with the class Const. *)
Fixpoint node_key (a : node) : res hkey :=
  match a with
  | NConst v => do k <- pv_key v; Ok (HTuple [HClass "Const"; k])
  | NName s => Ok (HTuple [HClass "Name"; HStr s])
  | NBcast v => do k <- pv_key v; Ok (HTuple [HClass "Const"; HNone; k])
  | NCall _ f l => do ks <- tuple_keys node_key l; Ok (HTuple [HClass "Call"; HStr f; HTuple ks])
  | NRing _ c p n =>
      do ps <- tuple_keys node_key p; do ns <- tuple_keys node_key n;
      Ok (HTuple [HClass (class_name a); flat_key c; HTuple ps; HTuple ns])
  | NLogic _ l => do ks <- tuple_keys node_key l; Ok (HTuple [HClass (class_name a); HTuple ks])
  | NRel c l r => do k <- node_key l; do k' <- node_key r; Ok (HTuple [HClass "Relation"; HStr c; k; k'])
  | NPred s b => Ok (HTuple [HClass "Predicate"; HStr s; HNum (Fin (if b then qc1 else qc0))])
  end.

(** The axes' [__hash__] (axis.py 298-299, 427-428, 682-683, 905-906, 1143-1144, 1364-1365,
    1412-1413, 1472-1473): the class and the same parts that [__eq__] compares. *)
Definition hb (b : bool) : hkey := HNum (Fin (if b then qc1 else qc0)).
Definition axis_key (a : axis) : hkey :=
  HTuple (match a with
          | AGroupby e => [HClass "groupby"; HStr e]
          | AGroupbin e w o nf cl => [HClass "groupbin"; HStr e; HNum w; HNum o; hb nf; hb cl]
          | ABin e n l h u o nf cl =>
              [HClass "bin"; HStr e; HNum (Fin (qz (Z.of_nat n))); HNum l; HNum h; hb u; hb o; hb nf; hb cl]
          | AIntbin e mn mx u o => [HClass "intbin"; HStr e; HNum (Fin (qz mn)); HNum (Fin (qz mx)); hb u; hb o]
          | ASplit e es u o nf cl => [HClass "split"; HStr e; HTuple (map HNum es); hb u; hb o; hb nf; hb cl]
          | ACut e => [HClass "cut"; HStr e]
          | ANull => [HClass "_nullaxis"]
          | AProfile e => [HClass "profile"; HStr e]
          end).
