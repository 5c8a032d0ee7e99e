(** Numpy arrays of any rank, and the Python values a projection makes of a histogram's content.
    An array is a shape and its elements in row-major order; [ravel] (FillSpec.v) is the position of a
    multi-index.  The functions here are Numpy's, given by their documented meaning. *)
From Coq Require Import String.
From Verif Require Import Base Num Axis Calc Content Fill FillSpec.
Local Open Scope list_scope.

(** All multi-indexes of a shape, in row-major order. *)
Fixpoint indices (sh : list nat) : list (list nat) :=
  match sh with
  | [] => [[]]
  | n :: t => flat_map (fun i => map (cons i) (indices t)) (seq 0 n)
  end.
Definition aget (sh : list nat) (d : list Num) (i : list nat) : Num := nth (ravel sh i) d nzero.
(** The array whose element at [i] is [f i]. *)
Definition anew (sh : list nat) (f : list nat -> Num) : list Num := map f (indices sh).

Fixpoint idx_eqb (i j : list nat) : bool :=
  match i, j with
  | [], [] => true
  | x :: i', y :: j' => Nat.eqb x y && idx_eqb i' j'
  | _, _ => false
  end.

(** numpy.sum(a, axes): [keep] says for each dimension whether it stays. *)
Definition asum (keep : list bool) (sh : list nat) (d : list Num) : list Num :=
  anew (select keep sh)
       (fun o => nsum (map (aget sh d) (filter (fun i => idx_eqb (select keep i) o) (indices sh)))).

(** Python's slice(lo, hi) on a dimension of size [n]: negative bounds count from the end, and both
    are clipped. *)
Definition clip (n : nat) (z : Z) : nat :=
  let z := if (z <? 0)%Z then (z + Z.of_nat n)%Z else z in
  Z.to_nat (Z.min (Z.of_nat n) (Z.max 0 z)).
Inductive slc : Type := Slice (lo hi : option Z).
Definition slice_lo (s : slc) (n : nat) : nat :=
  match s with Slice lo _ => match lo with None => 0 | Some z => clip n z end end.
Definition slice_hi (s : slc) (n : nat) : nat :=
  match s with Slice _ hi => match hi with None => n | Some z => clip n z end end.
Definition slice_len (s : slc) (n : nat) : nat := slice_hi s n - slice_lo s n.
Definition full : slc := Slice None None.

(** a[s0, s1, ...] with one slice per dimension *)
Definition aslice_shape (ss : list slc) (sh : list nat) : list nat := map2 slice_len ss sh.
Definition aslice (ss : list slc) (sh : list nat) (d : list Num) : list Num :=
  anew (aslice_shape ss sh) (fun i => aget sh d (map2 (fun p j => slice_lo (fst p) (snd p) + j) (combine ss sh) i)).

(** a[..., index] with a list of positions in the last dimension *)
Definition alast (index : list nat) (sh : list nat) (d : list Num) : list nat * list Num :=
  let sh' := removelast sh ++ [length index] in
  (sh', anew sh' (fun i => aget sh d (removelast i ++ [nth (last i 0) index 0]))).

(** [a + b]: shapes are aligned at their last dimensions, and dimensions of size 1 are stretched. *)
Fixpoint bshape_rev (s t : list nat) : option (list nat) :=
  match s, t with
  | [], _ => Some t
  | _, [] => Some s
  | x :: s', y :: t' =>
    match bshape_rev s' t' with
    | None => None
    | Some r => if Nat.eqb x y then Some (x :: r)
                else if Nat.eqb x 1 then Some (y :: r)
                else if Nat.eqb y 1 then Some (x :: r) else None
    end
  end.
Fixpoint bindex_rev (s i : list nat) : list nat :=
  match s, i with
  | x :: s', j :: i' => (if Nat.eqb x 1 then 0 else j) :: bindex_rev s' i'
  | _, _ => []
  end.
Definition bindex (s i : list nat) : list nat := rev (bindex_rev (rev s) (rev i)).
Definition badd (s : list nat) (d : list Num) (t : list nat) (e : list Num) : res (list nat * list Num) :=
  match bshape_rev (rev s) (rev t) with
  | None => Err ValueError
  | Some r => let sh := rev r in
              Ok (sh, anew sh (fun i => nadd (aget s d (bindex s i)) (aget t e (bindex t i))))
  end.

(** A content as the methods of proj.py build it: they can leave a list where an array belongs, and
    arrays of a shape that is not the histogram's. *)
Inductive pv : Type :=
| PNone
| PArr (sh : list nat) (d : list Num)
| PDict (items : list (gkey * pv))
| PList (l : list pv).

(** numpy.array(x) where x is an array or a list of arrays of one shape.  Anything else would become
    an array of objects, on which the operations below fail. *)
Definition stack (f : pv -> res (list nat * list Num)) : list pv -> res (list nat * list Num) :=
  fix go l := match l with
              | [] => Err TypeError
              | [x] => do a <- f x; Ok (1 :: fst a, snd a)
              | x :: t => do a <- f x; do b <- go t;
                          match fst b with
                          | n :: sh => if idx_eqb sh (fst a) then Ok (S n :: sh, snd a ++ snd b) else Err ValueError
                          | [] => Err ValueError
                          end
              end.
Fixpoint as_array (v : pv) : res (list nat * list Num) :=
  match v with
  | PArr sh d => Ok (sh, d)
  | PList l => stack as_array l
  | _ => Err TypeError
  end.
Definition parr (r : res (list nat * list Num)) : res pv := rmap (fun a => PArr (fst a) (snd a)) r.

(** The content of an ordinary histogram. *)
Definition l_shape (L : layout) : list nat := l_tots L ++ [l_last L].
Definition embed_items (f : content -> pv) : list (gkey * content) -> list (gkey * pv) :=
  fix go l := match l with [] => [] | (k, x) :: t => (k, f x) :: go t end.
Fixpoint embed (L : layout) (c : content) : pv :=
  match c with
  | CNone => PNone
  | CArr d => PArr (l_shape L) d
  | CDict l => PDict (embed_items (embed L) l)
  end.
