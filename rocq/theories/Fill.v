(** Model of Hist._prefill, Hist._postfill and their local functions fillblock and filldict
    (hist.py 379-494).
    Simplification: all columns of one fill have the same length (fill.py 143-144 checks it for the
    fields), so a boolean index [x[selection]] is modelled by [select] without a length check, except
    in [mask_select], where the code itself makes the lengths differ. *)
From Coq Require Import String.
From Verif Require Import Base Num Axis Calc Content.

(** A column of slot numbers: a numpy masked array of int32; a masked element is [None]. *)
Definition col := list (option Z).

(** Layout of one block (hist.py 168-243): the totbins of the fixed axes, then the last dimension
    with two entries per profile (sum of w*x at 2p, of w*x^2 at 2p+1), then the sum of weights and,
    for weighted histograms, the sum of squared weights. *)
Record layout : Type := { l_tots : list nat; l_nprof : nat; l_weighted : bool }.
Definition l_last (L : layout) : nat := 2 * l_nprof L + (if l_weighted L then 2 else 1).
Definition l_rows (L : layout) : nat := fold_right Nat.mul 1 (l_tots L).
Definition l_size (L : layout) : nat := l_rows L * l_last L.
Definition l_sumw (L : layout) : nat := 2 * l_nprof L.
Definition l_sumw2 (L : layout) : nat := 2 * l_nprof L + 1.

(** The columns that the instructions stored in [_destination[0]] (fill.py 153-154).  A fixed
    axis' column can be missing (None) when its goal was never scheduled. *)
Inductive weighting : Type :=
| WNone                            (* no weight and no filter *)
| WConst (v : Num)                 (* weight is a constant *)
| WCol (w w2 : list Num).
Record dest : Type := {
  d_group : list (list gkey * list Z);        (* (uniques, inverse) *)
  d_fixed : list (option col);
  d_prof : list (list Num * list Num);        (* (x, x*x) *)
  d_weight : weighting }.

(** ** The flat index (hist.py 387-399): first axis' slots, then [indexes*totbins + slots], in int32. *)
Definition flat_elem (t : nat) (a b : option Z) : option Z :=
  match a, b with
  | Some x, Some y => Some (wrap32 (wrap32 (x * Z.of_nat t) + y))
  | _, _ => None                                  (* the masks are united *)
  end.
Fixpoint map2 {A B C} (f : A -> B -> C) (l : list A) (m : list B) : list C :=
  match l, m with x :: xs, y :: ys => f x y :: map2 f xs ys | _, _ => [] end.
Fixpoint flat_loop (acc : col) (axes : list (nat * option col)) : res col :=
  match axes with
  | [] => Ok acc
  | (t, d) :: rest =>
    match d with
    | None => Err TypeError
    | Some c => if Nat.eqb (length acc) (length c)
                then flat_loop (map2 (flat_elem t) acc c) rest
                else Err ValueError
    end
  end.
Definition flat_indexes (axes : list (nat * option col)) : res (option col) :=
  match axes with
  | [] => Ok None
  | [(_, d)] => Ok d
  | (_, d) :: rest => match d with
                      | None => Err AttributeError           (* None.copy() *)
                      | Some c => do r <- flat_loop c rest; Ok (Some r)
                      end
  end.

(** ** Array primitives *)
Fixpoint upd {A} (f : A -> A) (i : nat) (l : list A) : list A :=
  match l, i with
  | [], _ => []
  | x :: xs, O => f x :: xs
  | x :: xs, S j => x :: upd f j xs
  end.

(** [indexes.compressed()] *)
Definition compressed (c : col) : list Z := catopts c.

(** numpy.add.at(content.reshape((-1, k))[:, c], idx, vals): one addition per index, in order;
    negative indexes count from the end; an index outside the array or values that cannot be
    broadcast raise before anything is changed. *)
Definition norm_index (n : nat) (z : Z) : option nat :=
  if ((0 <=? z) && (z <? Z.of_nat n))%Z then Some (Z.to_nat z)
  else if ((- Z.of_nat n <=? z) && (z <? 0))%Z then Some (Z.to_nat (z + Z.of_nat n))
  else None.
Fixpoint norm_indexes (n : nat) (l : list Z) : option (list nat) :=
  match l with
  | [] => Some []
  | z :: zs => match norm_index n z, norm_indexes n zs with
               | Some i, Some is => Some (i :: is)
               | _, _ => None
               end
  end.
Definition broadcast (n : nat) (vals : list Num) : option (list Num) :=
  if Nat.eqb (length vals) n then Some vals
  else match vals with [x] => Some (repeat x n) | _ => None end.
Definition add_pairs (k c : nat) (data : list Num) (ps : list (nat * Num)) : list Num :=
  fold_left (fun d p => upd (fun x => nadd x (snd p)) (fst p * k + c) d) ps data.
Definition add_at (k c : nat) (data : list Num) (idx : list Z) (vals : list Num) : res (list Num) :=
  match norm_indexes (length data / k) idx with
  | None => Err IndexError
  | Some is => match broadcast (length is) vals with
               | None => Err ValueError
               | Some vs => Ok (add_pairs k c data (combine is vs))
               end
  end.

(** [content.reshape((-1, k))[:, c] += v] *)
Definition add_column (k c : nat) (data : list Num) (v : Num) : list Num :=
  fold_left (fun d i => upd (fun x => nadd x v) (i * k + c) d) (seq 0 (length data / k)) data.

(** [sumx * weight] with numpy broadcasting; [None] is the scalar weight 1. *)
Definition mul_weight (xs : list Num) (ws : option (list Num * list Num)) : res (list Num) :=
  match ws with
  | None => Ok (map (fun x => nmul x none1) xs)
  | Some (w, _) =>
    if Nat.eqb (length xs) (length w) then Ok (map2 nmul xs w)
    else match xs, w with
         | _, [y] => Ok (map (fun x => nmul x y) xs)
         | [x], _ => Ok (map (fun y => nmul x y) w)
         | _, _ => Err ValueError
         end
  end.

(** [w[numpy.bitwise_not(getmask(indexes))]] (hist.py 428-432, 444-448).  Without masked elements
    it is the identity; a boolean index of the wrong length raises IndexError. *)
Definition is_none {A} (o : option A) : bool := match o with None => true | Some _ => false end.
Fixpoint select {A} (sel : list bool) (l : list A) : list A :=
  match sel, l with
  | b :: bs, x :: xs => if b then x :: select bs xs else select bs xs
  | _, _ => []
  end.
Definition mask_select {A} (idx : col) (w : list A) : res (list A) :=
  if existsb is_none idx then
    if Nat.eqb (length idx) (length w) then Ok (select (map (fun o => negb (is_none o)) idx) w)
    else Err IndexError
  else Ok w.

(** ** fillblock (hist.py 423-450).  The result is the array as it is left, and the error if one
    was raised on the way. *)
Definition zeros_col {A} (l : list A) : col := map (fun _ => Some 0%Z) l.

Fixpoint fill_profiles (k p : nat) (data : list Num) (idx : option col)
         (ws : option (list Num * list Num)) (profs : list (list Num * list Num))
  : list Num * res (option col * option (list Num * list Num)) :=
  match profs with
  | [] => (data, Ok (idx, ws))
  | (sx, sx2) :: rest =>
    let i := match idx with None => zeros_col sx | Some i => i end in
    match (match ws with
           | None => Ok None
           | Some (w, w2) => do w' <- mask_select i w; do w2' <- mask_select i w2; Ok (Some (w', w2'))
           end) with
    | Err e => (data, Err e)
    | Ok ws' =>
      match (do v <- mul_weight sx ws'; add_at k (2 * p) data (compressed i) v) with
      | Err e => (data, Err e)
      | Ok d1 =>
        match (do v <- mul_weight sx2 ws'; add_at k (2 * p + 1) d1 (compressed i) v) with
        | Err e => (d1, Err e)
        | Ok d2 => fill_profiles k (S p) d2 (Some i) ws' rest
        end
      end
    end
  end.

Definition fillblock (L : layout) (len : nat) (data : list Num) (idx : option col)
           (ws : option (list Num * list Num)) (profs : list (list Num * list Num))
  : list Num * option err :=
  let k := l_last L in
  match fill_profiles k 0 data idx ws profs with
  | (d, Err e) => (d, Some e)
  | (d, Ok (idx', None)) =>
    match idx' with
    | None => (add_column k (l_sumw L) d (nmul (nnat len) none1), None)
    | Some i => match add_at k (l_sumw L) d (compressed i) [none1] with
                | Err e => (d, Some e)
                | Ok d' => (d', None)
                end
    end
  | (d, Ok (idx', Some (w, w2))) =>
    let i := match idx' with None => zeros_col w | Some i => i end in
    match (do w' <- mask_select i w; do w2' <- mask_select i w2; Ok (w', w2')) with
    | Err e => (d, Some e)
    | Ok (w', w2') =>
      match add_at k (l_sumw L) d (compressed i) w' with
      | Err e => (d, Some e)
      | Ok d1 => match add_at k (l_sumw2 L) d1 (compressed i) w2' with
                 | Err e => (d1, Some e)
                 | Ok d2 => (d2, None)
                 end
      end
    end
  end.

(** ** filldict (hist.py 452-491).  [groups] are the (uniques, inverse) pairs still to descend. *)
Definition zeros (n : nat) : list Num := repeat nzero n.

(** one sub-content per unique key, left to right, stopping at the first error *)
Definition dict_loop (sub : nat -> content -> content * option err) (fresh : content) :
  nat -> list gkey -> list (gkey * content) -> list (gkey * content) * option err :=
  fix loop (i : nat) (uniques : list gkey) (d : list (gkey * content)) :=
    match uniques with
    | [] => (d, None)
    | u :: us =>
      let old := match assoc u d with Some c => c | None => fresh end in
      match sub i old with
      | (new, None) => loop (S i) us (assoc_set u new d)
      | (new, Some e) => (assoc_set u new d, Some e)
      end
    end.

Fixpoint filldict (L : layout) (len : nat) (groups : list (list gkey * list Z)) (c : content)
         (idx : option col) (profs : list (list Num * list Num)) (ws : option (list Num * list Num))
         (all : option (list bool)) : content * option err :=
  match groups with
  | [] =>
    match c with
    | CArr data => let '(d, e) := fillblock L len data idx ws profs in (CArr d, e)
    | _ => (c, Some AttributeError)
    end
  | (uniques, inverse) :: rest =>
    match c with
    | CDict items =>
      let fresh := match rest with [] => CArr (zeros (l_size L)) | _ => CDict [] end in
      let sub := fun i old =>
        let inv := match all with None => inverse | Some a => select a inverse end in
        let sel := map (fun z => (z =? Z.of_nat i)%Z) inv in
        let idx' := match idx with
                    | None => zeros_col (filter (fun b : bool => b) sel)
                    | Some c => select sel c
                    end in
        let profs' := map (fun p => (select sel (fst p), select sel (snd p))) profs in
        let ws' := match ws with None => None | Some (w, w2) => Some (select sel w, select sel w2) end in
        let all' := match all with
                    | None => sel
                    | Some a => map2 (fun b z => b && (z =? Z.of_nat i)%Z) a inverse
                    end in
        filldict L len rest old (Some idx') profs' ws' (Some all') in
      let '(items', e) := dict_loop sub fresh 0 uniques items in
      (CDict items', e)
    | _ => (c, Some TypeError)
    end
  end.

(** ** _prefill (hist.py 379-384) *)
Definition prefill (L : layout) (ngroup : nat) (c : content) : content :=
  match c with
  | CNone => if Nat.eqb ngroup 0 then CArr (zeros (l_size L)) else CDict []
  | _ => c
  end.

(** ** _postfill (hist.py 386-494): weights with NaN replaced by zero (lines 407-421). *)
Definition zero_nan (ws : list Num * list Num) : list Num * list Num :=
  let '(w, w2) := ws in
  (map (fun x => if isnan x then nzero else x) w,
   map2 (fun x y => if isnan x then nzero else y) w w2).
Definition weights (len : nat) (w : weighting) : option (list Num * list Num) :=
  match w with
  | WNone => None
  | WConst v => Some (repeat (nmul none1 v) len, repeat (nmul none1 (nmul v v)) len)
  | WCol w w2 => Some (zero_nan (w, w2))
  end.

Definition postfill (L : layout) (len : nat) (d : dest) (c : content) : content * option err :=
  match flat_indexes (combine (l_tots L) (d_fixed d)) with
  | Err e => (c, Some e)
  | Ok idx => filldict L len (d_group d) c idx (d_prof d) (weights len (d_weight d)) None
  end.
