(** Bin contents: numpy arrays in row-major order inside nested dicts keyed by group keys. *)
From Coq Require Import String.
From Verif Require Import Base Num Axis Calc.

(** The [_content] attribute of a histogram (hist.py 255, 379-384, 464-468): None before the first
    fill, a float64 array (here its elements in row-major order; the shape belongs to the
    histogram), or a dict from group keys to sub-contents. *)
Inductive content : Type :=
| CNone
| CArr (data : list Num)
| CDict (items : list (gkey * content)).

(** Python's == between keys, and < as used by [sorted] and [numpy.unique] (numbers before
    strings, which puts "NaN" after the numbers as calc/__init__.py 187 does). *)
Definition gkey_eqb (a b : gkey) : bool :=
  match a, b with
  | GNum x, GNum y => neqb x y
  | GStr s, GStr t => String.eqb s t
  | _, _ => false
  end.
Definition gkey_ltb (a b : gkey) : bool :=
  match a, b with
  | GNum x, GNum y => nltb x y
  | GStr s, GStr t => String.ltb s t
  | GNum _, GStr _ => true
  | GStr _, GNum _ => false
  end.

(** dict lookup and item assignment, keeping insertion order. *)
Fixpoint assoc {A} (k : gkey) (l : list (gkey * A)) : option A :=
  match l with
  | [] => None
  | (k', v) :: t => if gkey_eqb k k' then Some v else assoc k t
  end.
Fixpoint assoc_set {A} (k : gkey) (v : A) (l : list (gkey * A)) : list (gkey * A) :=
  match l with
  | [] => [(k, v)]
  | (k', v') :: t => if gkey_eqb k k' then (k', v) :: t else (k', v') :: assoc_set k v t
  end.
Definition has_key {A} (k : gkey) (l : list (gkey * A)) : bool :=
  match assoc k l with Some _ => true | None => false end.

(** numpy.unique(..., return_inverse=True) on a column of keys (calc/__init__.py 149-152 for
    groupby, 156-196 for groupbin).  [None] is a NaN of a groupbin without nanflow: inverse -1.
    A NaN in a groupby column is not modelled (the theorems exclude it). *)
Fixpoint nodup_keys (l : list gkey) : list gkey :=
  match l with
  | [] => []
  | x :: xs => if existsb (gkey_eqb x) xs then nodup_keys xs else x :: nodup_keys xs
  end.
Fixpoint insert_key (x : gkey) (l : list gkey) : list gkey :=
  match l with
  | [] => [x]
  | y :: ys => if gkey_ltb x y then x :: l else y :: insert_key x ys
  end.
Definition sort_keys (l : list gkey) : list gkey := fold_right insert_key [] l.

Fixpoint index_from (i : Z) (k : gkey) (l : list gkey) : Z :=
  match l with
  | [] => (-1)%Z
  | x :: xs => if gkey_eqb k x then i else index_from (i + 1) k xs
  end.
Definition catopts {A} (l : list (option A)) : list A :=
  flat_map (fun o => match o with Some x => [x] | None => [] end) l.
Definition group_col (l : list (option gkey)) : list gkey * list Z :=
  let u := sort_keys (nodup_keys (catopts l)) in
  (u, map (fun o => match o with Some k => index_from 0 k u | None => (-1)%Z end) l).
