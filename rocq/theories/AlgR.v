(** Histogram arithmetic with the arithmetic of the machine.

    The same code as HistAlg.v (+, +=, *, *= of Hist: /repo/histbook/hist.py 496-597), for any
    addition and multiplication of numbers: [add x y] is what numpy makes of the elements x and y of
    two arrays, [mul x v] what it makes of an element x and the factor v.  Everything that does not
    compute with the numbers (copies, keys, checks of the axes, shapes) is HistAlg.v's.  HistAlg.v is
    the instance with exact operations (AlgRProofs.exact_instance).  Further below, sums of array
    elements in any order: numpy.sum, which the projection uses (proj.py 251-252, numpy adds in blocks
    and pairs). *)
From Coq Require Import String Permutation.
From Verif Require Import Base Num Axis Calc Content Fill FillSpec FillR HistAlg Nd Proj.
Local Open Scope list_scope.

Section Arith.
Variables add mul : Num -> Num -> Num.

(** [a + b] and [a += b] of arrays (hist.py 509, 524, 545, 563) *)
Definition arr_zipR (d e : list Num) : res (list Num) :=
  if Nat.eqb (length d) (length e) then Ok (map2 add d e) else Err ValueError.
Definition arr_addR (k1 k2 : nat) (d e : list Num) : res (list Num) :=
  if Nat.eqb k1 k2 then arr_zipR d e
  else if Nat.eqb k1 1 then arr_zipR (stretch k2 d) e
  else if Nat.eqb k2 1 then arr_zipR d (stretch k1 e)
  else Err ValueError.
Definition arr_iaddR (k1 k2 : nat) (d e : list Num) : res (list Num) :=
  if Nat.eqb k1 k2 then arr_zipR d e
  else if Nat.eqb k2 1 then arr_zipR d (stretch k1 e)
  else Err ValueError.

(** the local function [add] of __add__ (hist.py 503-527) *)
Fixpoint content_addR (k1 k2 : nat) (a b : content) {struct a} : res content :=
  match a, b with
  | CNone, CNone => Ok CNone
  | CNone, _ => Ok (copycontent b)
  | _, CNone => Ok (copycontent a)
  | CArr d, CArr e => rmap CArr (arr_addR k1 k2 d e)
  | CDict l, CDict m => do l' <- add_items (content_addR k1 k2) m l; Ok (CDict (l' ++ new_items l m))
  | _, _ => Err AssertionError
  end.

(** the local function [add] of __iadd__ (hist.py 541-551) *)
Definition array_iaddR (k1 k2 : nat) (d : list Num) (b : content) : content * option err :=
  match b with
  | CArr e => match arr_iaddR k1 k2 d e with
              | Ok s => (CArr s, None)
              | Err e => (CArr d, Some e)
              end
  | _ => (CArr d, Some TypeError)
  end.
Fixpoint dict_iaddR (k1 k2 : nat) (a b : content) {struct a} : content * option err :=
  match a, b with
  | CDict l, CDict m =>
    match iadd_items (fun x x' => match x with
                                  | CArr d => array_iaddR k1 k2 d x'
                                  | _ => dict_iaddR k1 k2 x x'
                                  end) m l with
    | (l', Some e) => (CDict l', Some e)
    | (l', None) => (CDict (l' ++ map (fun kv => (fst kv, copycontent (snd kv))) (new_items l m)), None)
    end
  | _, _ => (a, Some AssertionError)
  end.
(** __iadd__ after the checks (hist.py 553-565) *)
Definition content_iaddR (k1 k2 : nat) (a b : content) : content * option err :=
  match a, b with
  | _, CNone => (a, None)
  | CNone, _ => (copycontent b, None)
  | CArr d, _ => array_iaddR k1 k2 d b
  | CDict _, _ => dict_iaddR k1 k2 a b
  end.

(** the local functions [recurse] of __mul__ (hist.py 571-575) and __imul__ (589-594) *)
Fixpoint content_mulR (v : Num) (c : content) : res content :=
  match c with
  | CNone => Err TypeError
  | CArr d => Ok (CArr (map (fun x => mul x v) d))
  | CDict l => rmap CDict (mul_items (content_mulR v) l)
  end.
Fixpoint content_imulR (v : Num) (c : content) : content * option err :=
  match c with
  | CNone => (CNone, Some TypeError)
  | CArr d => (CArr (map (fun x => mul x v) d), None)
  | CDict l => let '(l', e) := imul_items (content_imulR v) l in (CDict l', e)
  end.

(** __add__ (hist.py 496-532), __iadd__ (534-565), __mul__ (567-580), __imul__ (585-597) *)
Definition hist_addR (h g : hobj) : res hobj :=
  if axes_eqb (o_axes h) (o_axes g)
  then do c <- content_addR (l_last (o_layout h)) (l_last (o_layout g)) (o_content h) (o_content g);
       Ok (with_content h c)
  else Err TypeError.
Definition hist_iaddR (h g : hobj) : hobj * option err :=
  if axes_eqb (o_axes h) (o_axes g)
  then let '(c, e) := content_iaddR (l_last (o_layout h)) (l_last (o_layout g)) (o_content h) (o_content g) in
       (with_content h c, e)
  else (h, Some TypeError).
Definition hist_mulR (h : hobj) (v : Num) : res hobj := rmap (with_content h) (content_mulR v (o_content h)).
Definition hist_imulR (h : hobj) (v : Num) : hobj * option err :=
  let '(c, e) := content_imulR v (o_content h) in (with_content h c, e).
End Arith.

(** ** Sums in any order *)
(** [r] is a sum of the elements of [l], added by [add] in some order and with some bracketing; the
    empty sum is zero, and zeros may be added (numpy starts a sum with zero). *)
Inductive some_sum (add : Num -> Num -> Num) : list Num -> Num -> Prop :=
| sum_none : some_sum add [] nzero
| sum_one x : some_sum add [x] x
| sum_two l m r s : some_sum add l r -> some_sum add m s -> some_sum add (l ++ m) (add r s)
| sum_order l m r : Permutation l m -> some_sum add l r -> some_sum add m r.

(** The projection of an array of any rank (Proj.projarray, proj.py 251-252), for a given way of
    summing. *)
Section Sum.
Variable total_of : list Num -> Num.
Definition asumR (keep : list bool) (sh : list nat) (d : list Num) : list Num :=
  anew (select keep sh)
       (fun o => total_of (map (aget sh d) (filter (fun i => idx_eqb (select keep i) o) (indices sh)))).
Definition projarrayR (keep : list bool) (c : pv) : res pv :=
  do a <- as_array c;
  if Nat.ltb (length (fst a)) (length keep) then Err IndexError
  else let k := pad_keep keep (length (fst a)) in Ok (PArr (select k (fst a)) (asumR k (fst a) (snd a))).
(** projcontent (277-284) where no group axis is summed over *)
Fixpoint projcontentR (groups : nat) (fixed : list bool) (c : pv) : res pv :=
  match groups with
  | 0 => projarrayR fixed c
  | S gs =>
    match c with
    | PDict l => do l' <- proj_items (projcontentR gs fixed) l; Ok (PDict l')
    | _ => Err AttributeError
    end
  end.
(** project (proj.py 230-293) on axes among which are all group axes *)
Definition projectR (h : phist) (axes : list axis) : res phist :=
  let hd := p_head h in
  let allaxis := o_group hd ++ o_fixed hd in
  if negb (all_in axes allaxis) then Err IndexError
  else
    let out := rebuild hd (filter (fun x => axis_in x axes) allaxis ++ o_prof hd) in
    match p_content h with
    | PNone => Ok (PH out PNone)
    | c => do c' <- projcontentR (length (o_group hd)) (map (fun x => axis_in x axes) (o_fixed hd)) c;
           Ok (PH out c')
    end.
End Sum.
