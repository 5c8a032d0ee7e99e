(** Model of histbook/calc/__init__.py: the vectorised functions that turn a column of values
    into a column of slot numbers.  They act element by element, so the model gives the function
    of one element; a column is a [map].  A masked element of a numpy masked array is [None]. *)
From Coq Require Import String.
From Verif Require Import Base Num Axis.

(** ** int32 arithmetic *)
Definition int_min : Z := (- 2 ^ 31)%Z.
Definition int_max : Z := (2 ^ 31 - 1)%Z.
Definition in_int32 (z : Z) : bool := ((int_min <=? z) && (z <=? int_max))%Z.

(** C conversion of a finite double: truncation toward zero. *)
Definition qtrunc (q : Qc) : Z := Z.quot (Qnum (this q)) (Zpos (Qden (this q))).

(** numpy's cast of a float array to INDEXTYPE = numpy.int32 (calc/__init__.py 34, 226, 265).
    In range it truncates.  Out of range (also for infinities and NaN) C leaves it undefined:
    x86 answers INT_MIN, AArch64 saturates (NaN gives 0).  The model takes the cast as a parameter
    [cast : Num -> Z]; these are the two instances. *)
Definition cast_x86 (x : Num) : Z :=
  match x with
  | Fin q => if in_int32 (qtrunc q) then qtrunc q else int_min
  | _ => int_min
  end.
Definition cast_sat (x : Num) : Z :=
  match x with
  | Fin q => if in_int32 (qtrunc q) then qtrunc q else if qltb q qc0 then int_min else int_max
  | PInf => int_max
  | NInf => int_min
  | NaN => 0%Z
  end.

(** numpy's cast of an int64 array to int32: wrap modulo 2^32. *)
Definition wrap32 (z : Z) : Z := ((z + 2 ^ 31) mod 2 ^ 32 - 2 ^ 31)%Z.

(** ** Rounding
    [rnd] is what the hardware does to the exact result of one arithmetic operation; [Fin] is
    exact arithmetic.  An overflowing result may become an infinity. *)
Definition rn (rnd : Qc -> Num) (x : Num) : Num := match x with Fin q => rnd q | _ => x end.

Definition nfloor (x : Num) : Num := match x with Fin q => nz (qfloor q) | _ => x end.
Definition nceil (x : Num) : Num := match x with Fin q => nz (qceil q) | _ => x end.

(** histbook_bin (calc/__init__.py 203-239).  [float(numbins) / float(high - low)] is a Python
    float division, so a zero width raises ZeroDivisionError (line 216). *)
Definition bin_scale (rnd : Qc -> Num) (n : nat) (low high : Num) : res Num :=
  let w := rn rnd (nsub high low) in
  if neqb w nzero then Err ZeroDivisionError else Ok (rn rnd (ndiv (nnat n) w)).

(** Lines 215-224: scaled value before the cast. *)
Definition bin_scaled (rnd : Qc -> Num) (u cl : bool) (n : nat) (low high v : Num) : res Num :=
  do scale <- bin_scale rnd n low high;
  let x := rn rnd (nmul (rn rnd (nsub v low)) scale) in
  Ok (if cl then (let f := nfloor x in if u then rn rnd (nadd f (nz 1)) else f)
      else rn rnd (nadd (nceil x) (nz (b2z u - 1)))).

Definition bin_clamp (u o : bool) (n : nat) (z : Z) : option Z :=
  (* lines 228-235: underflow clamps to 0 or masks, overflow clamps to shift+numbins or masks *)
  let top := (Z.of_nat n + b2z u)%Z in
  let lo := if u then Some (Z.max z 0) else if (z <? 0)%Z then None else Some z in
  match lo with
  | None => None
  | Some z1 => if o then Some (Z.min z1 top) else if (top <=? z1)%Z then None else Some z1
  end.

Definition bin_index (rnd : Qc -> Num) (cast : Num -> Z) (u o nf cl : bool)
           (n : nat) (low high v : Num) : res (option Z) :=
  do x <- bin_scaled rnd u cl n low high v;
  Ok (if isnan x then (if nf then Some (b2z u + b2z o + Z.of_nat n)%Z else None)   (* line 236 *)
      else bin_clamp u o n (cast x)).

(** histbook_intbin (calc/__init__.py 258-279).  An integer column wraps when cast to int32;
    a float column is truncated by [cast]. *)
Definition intbin_clamp (u o : bool) (mn mx z : Z) : option Z :=
  let top := (b2z u + mx - mn)%Z in
  let lo := if u then Some (Z.max z 0) else if (z <? 0)%Z then None else Some z in
  match lo with
  | None => None
  | Some z1 => if o then Some (Z.min z1 (top + 1)) else if (top <? z1)%Z then None else Some z1
  end.
Definition intbin_index_int (u o : bool) (mn mx v : Z) : option Z :=
  intbin_clamp u o mn mx (wrap32 (v + (b2z u - mn))).
Definition intbin_index_float (cast : Num -> Z) (u o : bool) (mn mx : Z) (v : Num) : option Z :=
  intbin_clamp u o mn mx (cast (nadd v (nz (b2z u - mn)))).

(** numpy.digitize(values, edges) for increasing edges: the number of edges <= value; NaN sorts
    above everything (searchsorted). *)
Definition digitize (edges : list Num) (v : Num) : Z :=
  if isnan v then Z.of_nat (length edges)
  else Z.of_nat (length (filter (fun e => nleb e v) edges)).

(** histbook_split (calc/__init__.py 286-306), step by step on one element. *)
Definition split_index (u o nf cl : bool) (edges : list Num) (v : Num) : option Z :=
  let len := Z.of_nat (length edges) in
  let i0 := digitize edges v in
  let i1 := if negb cl && existsb (neqb v) edges then (i0 - 1)%Z else i0 in
  let m1 := if negb o && (i1 =? len)%Z then None else Some i1 in
  let m2 := if isnan v then (if nf then Some (len + b2z o)%Z else None) else m1 in
  if u then m2
  else match m2 with
       | None => None
       | Some i => if (i =? 0)%Z then None else Some (i - 1)%Z
       end.

(** histbook.cut (calc/__init__.py 325): a boolean column as int32. *)
Definition cut_index (b : bool) : option Z := Some (b2z b).

(** histbook_groupbin (calc/__init__.py 156-196): the key of one element.  [None] is an element
    whose inverse index is -1, which no group selects.  The NaN group has the key "NaN", a string.
    Group keys in general are numbers or strings (the keys of the content dict). *)
Inductive gkey : Type := GNum (x : Num) | GStr (s : string).

Definition groupbin_value (rnd : Qc -> Num) (cl : bool) (w origin v : Num) : Num :=
  let inv := rn rnd (ndiv none1 w) in
  let x := if neqb origin nzero then rn rnd (nmul v inv)
           else rn rnd (nmul (rn rnd (nsub v origin)) inv) in
  let f := if cl then nfloor x else rn rnd (nsub (nceil x) (nz 1)) in
  let y := rn rnd (nmul f w) in
  if neqb origin nzero then y else rn rnd (nadd y origin).

Definition groupbin_key (rnd : Qc -> Num) (nf cl : bool) (w origin v : Num) : option gkey :=
  let y := groupbin_value rnd cl w origin v in
  if isnan y then (if nf then Some (GStr "NaN") else None) else Some (GNum y).

(** groupbin.items / keys (axis.py 517-525): the interval displayed for each numeric key of the
    content.  The "NaN" key makes [n + float(binwidth)] (or the sort) raise TypeError. *)
Definition groupbin_interval (w : Num) (cl : bool) (k : Num) : key := KIv k (nadd k w) cl (negb cl).
Definition keys_groupbin (w : Num) (cl : bool) (ks : list gkey) : res (list key) :=
  do ns <- mapM (fun k => match k with GNum x => Ok x | GStr _ => Err TypeError end) ks;
  Ok (map (groupbin_interval w cl) (sort_num ns)).
