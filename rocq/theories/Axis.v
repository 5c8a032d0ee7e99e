(** Model of histbook/axis.py: axis descriptors, their constructors, sizes, keys, equality,
    compatibility, packing and conversion to JSON. *)
From Coq Require Import String.
From Verif Require Import Base Num.

(** Axis objects (axis.py 238-1473).  [_expr] is a string; the parsed expression that [Hist]
    attaches to an axis ([_parsed]) is derived from it and kept in the histogram model. *)
Inductive axis : Type :=
| AGroupby (e : string)                                                   (* axis.py 238-251 *)
| AGroupbin (e : string) (binwidth origin : Num) (nanflow closedlow : bool)  (* 331-362 *)
| ABin (e : string) (numbins : nat) (low high : Num)
       (underflow overflow nanflow closedlow : bool)                      (* 527-570 *)
| AIntbin (e : string) (mn mx : Z) (underflow overflow : bool)            (* 779-806 *)
| ASplit (e : string) (edges : list Num)
         (underflow overflow nanflow closedlow : bool)                    (* 994-1040 *)
| ACut (e : string)                                                       (* 1293-1307 *)
| ANull                                                                   (* 1384 *)
| AProfile (e : string).                                                  (* 1421-1433 *)

(** isinstance(x, GroupAxis / FixedAxis / ProfileAxis) (axis.py 220-236 and the class headers). *)
Definition is_group (a : axis) : bool :=
  match a with AGroupby _ | AGroupbin _ _ _ _ _ => true | _ => false end.
Definition is_fixed (a : axis) : bool :=
  match a with ABin _ _ _ _ _ _ _ _ | AIntbin _ _ _ _ _ | ASplit _ _ _ _ _ _ | ACut _ | ANull => true
  | _ => false end.
Definition is_profile (a : axis) : bool := match a with AProfile _ => true | _ => false end.

(** [expr] property; the null axis answers Name("???") (axis.py 1389). *)
Definition axis_expr (a : axis) : string :=
  match a with
  | AGroupby e | AGroupbin e _ _ _ _ | ABin e _ _ _ _ _ _ _ | AIntbin e _ _ _ _
  | ASplit e _ _ _ _ _ | ACut e | AProfile e => e
  | ANull => "???"
  end.

(** [totbins] of the fixed axes: bin 649, intbin 869, split 1118, cut 1347, null 1403.
    Group and profile axes have no [totbins]; 0 here is never used for them. *)
Definition totbins (a : axis) : nat :=
  match a with
  | ABin _ n _ _ u o nf _ => n + b2n u + b2n o + b2n nf
  | AIntbin _ mn mx u o => Z.to_nat (mx - mn + 1) + b2n u + b2n o
  | ASplit _ edges u o nf _ => (length edges - 1) + b2n u + b2n o + b2n nf
  | ACut _ => 2
  | ANull => 1
  | _ => 0
  end.

(** Constructors with their checks.  Python type checks (is it a number, a bool) are not
    modelled: the arguments are typed. *)

(** groupbin.__init__ (axis.py 355-362). *)
Definition mk_groupbin (e : string) (w origin : Num) (nf cl : bool) : res axis :=
  if nleb w nzero then Err ValueError else Ok (AGroupbin e w origin nf cl).

(** bin.__init__ and bin._checktot (axis.py 559-574). *)
Definition mk_bin (e : string) (n : nat) (low high : Num) (u o nf cl : bool) : res axis :=
  if (Nat.ltb 0 n && nleb high low) || nltb high low then Err ValueError
  else if Nat.eqb (n + b2n u + b2n o + b2n nf) 0 then Err ValueError
  else Ok (ABin e n low high u o nf cl).

(** intbin.__init__ and intbin._checktot (axis.py 802-812). *)
Definition mk_intbin (e : string) (mn mx : Z) (u o : bool) : res axis :=
  if (mx <? mn)%Z then Err ValueError else Ok (AIntbin e mn mx u o).

(** [sorted(float(x) for x in edges)] (axis.py 1027), insertion sort on the float order. *)
Fixpoint insert_num (x : Num) (l : list Num) : list Num :=
  match l with
  | [] => [x]
  | y :: ys => if nltb x y then x :: l else y :: insert_num x ys
  end.
Definition sort_num (l : list Num) : list Num := fold_right insert_num [] l.

(** [len(edges) != len(set(edges))] (axis.py 1028): some value occurs twice. *)
Fixpoint has_dup (l : list Num) : bool :=
  match l with [] => false | x :: xs => existsb (neqb x) xs || has_dup xs end.

(** split.__init__ and split._checktot (axis.py 1020-1038).  A single number is a one-edge list. *)
Definition mk_split (e : string) (edges : list Num) (u o nf cl : bool) : res axis :=
  match edges with
  | [] => Err TypeError
  | _ =>
    let s := sort_num edges in
    if has_dup s then Err ValueError
    else if Nat.eqb ((length s - 1) + b2n u + b2n o + b2n nf) 0 then Err ValueError
    else Ok (ASplit e s u o nf cl)
  end.

(** Interval and IntervalNaN (axis.py 38-152), and the other kinds of keys. *)
Inductive key : Type :=
| KIv (low high : Num) (closedlow closedhigh : bool)
| KNaN
| KInt (z : Z)
| KBool (b : bool).

(** keys of the fixed axes.  bin.keys (axis.py 769-776), with exact arithmetic in [i2x]. *)
Definition i2x (n : nat) (low high : Num) (i : nat) : Num :=
  nadd (nmul (ndiv (nnat i) (nnat n)) (nsub high low)) low.

Definition keys_bin (n : nat) (low high : Num) (u o nf cl : bool) : list key :=
  (if u then [KIv NInf low true (negb cl)] else []) ++
  map (fun i => KIv (i2x n low high i) (i2x n low high (i + 1)) cl (negb cl)) (seq 0 n) ++
  (if o then [KIv high PInf cl true] else []) ++
  (if nf then [KNaN] else []).

(** intbin.keys (axis.py 988-992). *)
Definition keys_intbin (mn mx : Z) (u o : bool) : list key :=
  (if u then [KIv NInf (nz mn) true false] else []) ++
  map (fun i => KInt (mn + Z.of_nat i)) (seq 0 (Z.to_nat (mx - mn + 1))) ++
  (if o then [KIv (nz mx) PInf false true] else []).

(** split.keys (axis.py 1286-1291): zip(edges[:-1], edges[1:]). *)
Fixpoint pairs_of {A} (l : list A) : list (A * A) :=
  match l with
  | x :: ((y :: _) as t) => (x, y) :: pairs_of t
  | _ => []
  end.

Definition keys_split (edges : list Num) (u o nf cl : bool) : list key :=
  (if u then [KIv NInf (hd NaN edges) true (negb cl)] else []) ++
  map (fun p => KIv (fst p) (snd p) cl (negb cl)) (pairs_of edges) ++
  (if o then [KIv (last edges NaN) PInf cl true] else []) ++
  (if nf then [KNaN] else []).

(** cut.keys (axis.py 1380). *)
Definition keys_cut : list key := [KBool false; KBool true].

Definition keys (a : axis) : list key :=
  match a with
  | ABin _ n low high u o nf cl => keys_bin n low high u o nf cl
  | AIntbin _ mn mx u o => keys_intbin mn mx u o
  | ASplit _ edges u o nf cl => keys_split edges u o nf cl
  | ACut _ => keys_cut
  | _ => []          (* _nullaxis.keys is []; group axes need a content argument *)
  end.

(** __eq__ of each axis class; float attributes compare with Python == (axis.py 295, 424, 679,
    902, 1140, 1361, 1409, 1469). *)
Fixpoint nums_eqb (l m : list Num) : bool :=
  match l, m with
  | [], [] => true
  | x :: xs, y :: ys => neqb x y && nums_eqb xs ys
  | _, _ => false
  end.

(** compatible (axis.py 291, 420, 675, 898, 1136, 1357); _nullaxis and profile define no
    [compatible]: calling it raises AttributeError, modelled by None. *)
Definition compatible (a b : axis) : option bool :=
  match a with
  | AGroupby _ => Some (match b with AGroupby _ => true | _ => false end)
  | AGroupbin _ w o nf cl =>
      Some (match b with
            | AGroupbin _ w' o' nf' cl' => neqb w w' && neqb o o' && Bool.eqb nf nf' && Bool.eqb cl cl'
            | _ => false end)
  | ABin _ n l h u o nf cl =>
      Some (match b with
            | ABin _ n' l' h' u' o' nf' cl' =>
                Nat.eqb n n' && neqb l l' && neqb h h' && Bool.eqb u u' && Bool.eqb o o'
                && Bool.eqb nf nf' && Bool.eqb cl cl'
            | _ => false end)
  | AIntbin _ mn mx u o =>
      Some (match b with
            | AIntbin _ mn' mx' u' o' => (mn =? mn')%Z && (mx =? mx')%Z && Bool.eqb u u' && Bool.eqb o o'
            | _ => false end)
  | ASplit _ es u o nf cl =>
      Some (match b with
            | ASplit _ es' u' o' nf' cl' =>
                nums_eqb es es' && Bool.eqb u u' && Bool.eqb o o' && Bool.eqb nf nf' && Bool.eqb cl cl'
            | _ => false end)
  | ACut _ => Some (match b with ACut _ => true | _ => false end)
  | ANull => None
  | AProfile _ => None
  end.

Definition axis_eqb (a b : axis) : bool :=
  match a, b with
  | AGroupby e, AGroupby e' => String.eqb e e'
  | AGroupbin e w o nf cl, AGroupbin e' w' o' nf' cl' =>
      String.eqb e e' && neqb w w' && neqb o o' && Bool.eqb nf nf' && Bool.eqb cl cl'
  | ABin e n l h u o nf cl, ABin e' n' l' h' u' o' nf' cl' =>
      String.eqb e e' && Nat.eqb n n' && neqb l l' && neqb h h' && Bool.eqb u u' && Bool.eqb o o'
      && Bool.eqb nf nf' && Bool.eqb cl cl'
  | AIntbin e mn mx u o, AIntbin e' mn' mx' u' o' =>
      String.eqb e e' && (mn =? mn')%Z && (mx =? mx')%Z && Bool.eqb u u' && Bool.eqb o o'
  | ASplit e es u o nf cl, ASplit e' es' u' o' nf' cl' =>
      String.eqb e e' && nums_eqb es es' && Bool.eqb u u' && Bool.eqb o o' && Bool.eqb nf nf' && Bool.eqb cl cl'
  | ACut e, ACut e' => String.eqb e e'
  | ANull, ANull => true
  | AProfile e, AProfile e' => String.eqb e e'
  | _, _ => false
  end.
