(** Comparing, hashing and sorting bin keys: /repo/histbook/axis.py 38-152 (Interval, IntervalNaN) and the
    use of sorted() on sets of keys in vega.py (563, 656, 661).

    Simplifications: Python 3 (comparing two classes raises TypeError); the edges of an Interval are
    numbers; sorted() is an insertion sort, which agrees with Python's on keys that are ordered by <, and
    raises on keys that cannot be compared. *)
From Coq Require Import String.
From Verif Require Import Base Num Axis Calc Content Vega Pandas.
Local Open Scope list_scope.

Definition is_interval (k : key) : bool := match k with KIv _ _ _ _ | KNaN => true | _ => false end.
(** Integers and booleans, as Python compares them *)
Definition key_int (k : key) : Z := match k with KInt z => z | KBool true => 1%Z | _ => 0%Z end.

(** self.__eq__(other): Interval (82-83), IntervalNaN (141-142) *)
Definition iv_eq (self other : key) : bool :=
  match self, other with
  | KIv l h cl ch, KIv l' h' cl' ch' => neqb l l' && neqb h h' && Bool.eqb cl cl' && Bool.eqb ch ch'
  | KNaN, KNaN => true
  | _, _ => false
  end.
(** self.__lt__(other): Interval (85-92), IntervalNaN (144-148); the last case compares the classes. *)
Definition iv_lt (self other : key) : res bool :=
  match self, other with
  | KIv _ _ _ _, KNaN => Ok true
  | KIv l _ _ _, KIv l' _ _ _ => Ok (nltb l l')
  | KNaN, KNaN => Ok true
  | KNaN, KIv _ _ _ _ => Ok false
  | _, _ => Err TypeError
  end.
(** __ge__ (97-98), __gt__ (100-101), __le__ (103-104) *)
Definition iv_ge (self other : key) : res bool := rmap negb (iv_lt self other).
Definition iv_gt (self other : key) : res bool :=
  do b <- iv_lt self other; Ok (negb b && negb (iv_eq self other)).
Definition iv_le (self other : key) : res bool :=
  do b <- iv_lt self other; Ok (b || iv_eq self other).

(** The operators.  Python asks the right operand first, with the reflected method, if its class is a
    proper subclass of that of the left operand: IntervalNaN of Interval.  It also asks the right one if
    the left is a number. *)
Definition right_first (a b : key) : bool :=
  match a, b with KIv _ _ _ _, KNaN => true | KInt _, (KIv _ _ _ _ | KNaN) => true | KBool _, (KIv _ _ _ _ | KNaN) => true | _, _ => false end.
Definition operator (num : Z -> Z -> bool) (method reflected : key -> key -> res bool) (a b : key) : res bool :=
  if is_interval a || is_interval b then (if right_first a b then reflected b a else method a b)
  else Ok (num (key_int a) (key_int b)).
Definition py_lt : key -> key -> res bool := operator Z.ltb iv_lt iv_gt.
Definition py_gt : key -> key -> res bool := operator (fun a b => Z.ltb b a) iv_gt iv_lt.
Definition py_le : key -> key -> res bool := operator Z.leb iv_le iv_ge.
Definition py_ge : key -> key -> res bool := operator (fun a b => Z.leb b a) iv_ge iv_le.
Definition py_eq (a b : key) : bool :=
  if is_interval a || is_interval b then iv_eq a b else Z.eqb (key_int a) (key_int b).

(** __hash__ (114-115, 150-151): the hash of a tuple, here the tuple. *)
Inductive hashed : Type :=
| HInterval (low high : Num) (closedlow closedhigh : bool)
| HNaN
| HInt (z : Z).
Definition key_hash (k : key) : hashed :=
  match k with
  | KIv l h cl ch => HInterval l h cl ch
  | KNaN => HNaN
  | KInt _ | KBool _ => HInt (key_int k)
  end.

(** A set of keys (560-563): equal keys once. *)
Fixpoint key_set (l : list key) : list key :=
  match l with
  | [] => []
  | k :: t => let s := key_set t in if existsb (py_eq k) s then s else k :: s
  end.
(** sorted() *)
Fixpoint key_insert (k : key) (l : list key) : res (list key) :=
  match l with
  | [] => Ok [k]
  | x :: t => do b <- py_lt k x; if b then Ok (k :: x :: t) else rmap (cons x) (key_insert k t)
  end.
Fixpoint key_sort (l : list key) : res (list key) :=
  match l with
  | [] => Ok []
  | k :: t => do s <- key_sort t; key_insert k s
  end.
(** sorted(domains[axis]) (656, 661).  All keys of one axis are of one kind; a mixture raises here. *)
Definition bin_of (k : dkey) : option key := match k with DBin b => Some b | DGroup _ => None end.
Definition group_of (k : dkey) : option gkey := match k with DGroup g => Some g | DBin _ => None end.
Fixpoint all_some {A B} (f : A -> option B) (l : list A) : option (list B) :=
  match l with
  | [] => Some []
  | x :: t => match f x, all_some f t with Some y, Some ys => Some (y :: ys) | _, _ => None end
  end.
Definition domain_sorted (l : list dkey) : res (list dkey) :=
  match all_some bin_of l with
  | Some ks => rmap (map DBin) (key_sort (key_set ks))
  | None => match all_some group_of l with
            | Some gs => rmap (map DGroup) (py_sorted (nodup_keys gs))
            | None => Err TypeError
            end
  end.
