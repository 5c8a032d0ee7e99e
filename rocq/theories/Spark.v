(** Model of histbook/calc/spark.py: filling from a Spark DataFrame, and of the branch of Hist.fill that
    calls it (hist.py 354-358).

    What is assumed about Spark (2.x, not ANSI mode): arithmetic on doubles is that of Numpy except that a
    division by zero is null; NaN equals itself and is above all other numbers; logical operations are
    three-valued; floor and ceil give 64-bit integers (too large or too small numbers give the last or
    first one, NaN gives 0), and adding to these wraps around; least and greatest leave out null; a
    group of groupBy is one value of the index; sums leave out null.

    Simplifications: all number columns are doubles and no field is null; the functions of tocolumns
    that the expressions do not use by themselves are a parameter; an error of an expression leaves the
    content as it was; errors that Spark raises are ValueError or TypeError. *)
From Coq Require Import String.
From Verif Require Import Base Num Tree Axis Calc Content Fill Elem HistFill.
Local Open Scope list_scope.

(** A value in a column; [None] is null. *)
Definition sval := option val.

(** ** 64-bit integers *)
Definition long_min : Z := (- 2 ^ 63)%Z.
Definition long_max : Z := (2 ^ 63 - 1)%Z.
Definition wrap64 (z : Z) : Z := ((z + 2 ^ 63) mod 2 ^ 64 - 2 ^ 63)%Z.
Definition to_long (z : Z) : Z := Z.max long_min (Z.min long_max z).
Definition spark_floor (x : Num) : Z := match x with Fin q => to_long (qfloor q) | PInf => long_max | NInf => long_min | NaN => 0%Z end.
Definition spark_ceil (x : Num) : Z := match x with Fin q => to_long (qceil q) | PInf => long_max | NInf => long_min | NaN => 0%Z end.

(** ** Operators *)
Definition s_num2 (f : Num -> Num -> option Num) (a b : sval) : res sval :=
  match a, b with
  | Some (VNum x), Some (VNum y) => Ok (option_map VNum (f x y))
  | None, None | None, Some (VNum _) | Some (VNum _), None => Ok None
  | _, _ => Err TypeError
  end.
Definition s_div (x y : Num) : option Num := if neqb y nzero then None else Some (ndiv x y).
(** NaN is equal to itself and above all other numbers. *)
Definition s_eqb (x y : Num) : bool := neqb x y || (isnan x && isnan y).
Definition s_ltb (x y : Num) : bool := if isnan x then false else if isnan y then true else nltb x y.
Definition s_cmp (num : Num -> Num -> bool) (other : val -> val -> res bool) (a b : sval) : res sval :=
  match a, b with
  | Some (VNum x), Some (VNum y) => Ok (Some (VBool (num x y)))
  | Some v, Some w => do r <- other v w; Ok (Some (VBool r))
  | _, _ => Ok None
  end.
Definition s_or (a b : sval) : res sval :=
  match a, b with
  | Some (VBool x), Some (VBool y) => Ok (Some (VBool (x || y)))
  | None, Some (VBool y) | Some (VBool y), None => Ok (if y then Some (VBool true) else None)
  | None, None => Ok None
  | _, _ => Err TypeError
  end.
Definition s_not (a : sval) : res sval :=
  match a with Some (VBool x) => Ok (Some (VBool (negb x))) | None => Ok None | _ => Err TypeError end.
Definition s_and (a b : sval) : res sval :=
  match a, b with
  | Some (VBool x), Some (VBool y) => Ok (Some (VBool (x && y)))
  | None, Some (VBool y) | Some (VBool y), None => Ok (if y then None else Some (VBool false))
  | None, None => Ok None
  | _, _ => Err TypeError
  end.
(** fcns.when(c, a).otherwise(b) *)
Definition s_where (c a b : sval) : res sval :=
  match c with Some (VBool true) => Ok a | Some (VBool false) | None => Ok b | _ => Err TypeError end.

(** ** tocolumns (45-196), on one row *)
Section Columns.
  Variable sfun : string -> list sval -> res sval.
  Variable field : string -> res val.
  Local Open Scope string_scope.
  Definition scall (f : string) (args : list sval) : res sval :=
    if String.eqb f "numpy.add" then
      match args with [a; b] => s_num2 (fun x y => Some (nadd x y)) a b | _ => Err IndexError end
    else if String.eqb f "numpy.subtract" then
      match args with [a; b] => s_num2 (fun x y => Some (nsub x y)) a b | _ => Err IndexError end
    else if String.eqb f "numpy.multiply" then
      match args with [a; b] => s_num2 (fun x y => Some (nmul x y)) a b | _ => Err IndexError end
    else if String.eqb f "numpy.true_divide" then
      match args with [a; b] => s_num2 s_div a b | _ => Err IndexError end
    else if String.eqb f "numpy.equal" then
      match args with [a; b] => s_cmp s_eqb val_eqb a b | _ => Err IndexError end
    else if String.eqb f "numpy.not_equal" then
      match args with [a; b] => s_cmp (fun x y => negb (s_eqb x y)) (fun x y => rmap negb (val_eqb x y)) a b | _ => Err IndexError end
    else if String.eqb f "numpy.less" then
      match args with [a; b] => s_cmp s_ltb val_ltb a b | _ => Err IndexError end
    else if String.eqb f "numpy.less_equal" then
      match args with [a; b] => s_cmp (fun x y => s_ltb x y || s_eqb x y) val_leb a b | _ => Err IndexError end
    else if String.eqb f "numpy.isin" then Err ValueError        (* [in] of columns (178-179) *)
    else if String.eqb f "numpy.logical_or" then
      match args with [a; b] => s_or a b | _ => Err IndexError end
    else if String.eqb f "numpy.logical_and" then
      match args with [a; b] => s_and a b | _ => Err IndexError end
    else if String.eqb f "numpy.logical_not" then
      match args with [a] => s_not a | _ => Err IndexError end
    else if String.eqb f "where" then
      match args with [c; a; b] => s_where c a b | _ => Err IndexError end
    else sfun f args.

  Fixpoint scol (t : tree) : res sval :=
    match t with
    | TConst (KS s) | TBcast (KS s) => Ok (scal_val s)          (* fcns.lit; None is null *)
    | TConst _ | TBcast _ => Err TypeError                       (* no literal of this type *)
    | TName s | TPred s _ => rmap Some (field s)
    | TCall f args =>
        do vs <- (fix go (l : list tree) : res (list sval) :=
                    match l with
                    | [] => Ok []
                    | a :: l => do v <- scol a; do vs <- go l; Ok (v :: vs)
                    end) args;
        scall f vs
    end.
End Columns.

(** ** The index columns (198-245) *)
Inductive sidx : Type :=
| IKey (k : option gkey)      (* [None]: null *)
| INum (z : Z).
Definition snum (v : sval) : res (option Num) :=
  match v with None => Ok None | Some (VNum x) => Ok (Some x) | _ => Err TypeError end.

(** groupbin (206-212) *)
Definition spark_groupbin (rnd : Qc -> Num) (cl : bool) (w origin v : Num) : Num :=
  let scaled := rn rnd (nmul (rn rnd (nsub v origin)) (rn rnd (ndiv none1 w))) in
  let d := if cl then spark_floor scaled else wrap64 (spark_ceil scaled - 1) in
  rn rnd (nadd (rn rnd (nmul (rn rnd (nz d)) w)) origin).
(** bin (214-220) *)
Definition spark_bin (rnd : Qc -> Num) (cl : bool) (n : nat) (low high : Num) (v : option Num) : res Z :=
  do scale <- bin_scale rnd n low high;
  match v with
  | None | Some NaN => Ok (Z.of_nat n + 2)%Z
  | Some x =>
    let scaled := rn rnd (nmul (rn rnd (nsub x low)) scale) in
    let d := if cl then wrap64 (spark_floor scaled + 1) else spark_ceil scaled in
    Ok (Z.max 0 (Z.min (Z.of_nat n + 1) d))
  end.
(** intbin (222-223); fcns.round rounds halves away from zero *)
Definition round_up (q : Qc) : Z := if qltb q qc0 then (- qfloor (- q + qfrac 1 2)%Qc)%Z else qfloor (q + qfrac 1 2)%Qc.
Definition spark_intbin (rnd : Qc -> Num) (mn mx : Z) (v : option Num) : Z :=
  let top := (mx - mn + 1)%Z in
  match option_map (fun x => rn rnd (nadd (rn rnd (nsub x (nz mn))) (nz 1))) v with
  | None | Some NaN | Some PInf => Z.max 0 top
  | Some NInf => 0%Z
  | Some (Fin q) => Z.max 0 (Z.min top (round_up q))
  end.
(** split (225-234) *)
Fixpoint spark_build (cl : bool) (x : Num) (i : nat) (edges : list Num) : Z :=
  match edges with
  | [] => Z.of_nat i
  | e :: rest => if (if cl then nltb x e else nleb x e) then Z.of_nat i else spark_build cl x (S i) rest
  end.
Definition spark_split (cl : bool) (edges : list Num) (v : option Num) : Z :=
  match v with
  | None | Some NaN => (Z.of_nat (length edges) + 1)%Z
  | Some x => spark_build cl x 0 edges
  end.
Definition spark_index (rnd : Qc -> Num) (a : axis) (v : sval) : res sidx :=
  match a with
  | AGroupby _ => Ok (IKey (option_map val_key v))
  | AGroupbin _ w origin _ cl => do x <- snum v; Ok (IKey (option_map (fun x => GNum (spark_groupbin rnd cl w origin x)) x))
  | ABin _ n low high _ _ _ cl => do x <- snum v; do z <- spark_bin rnd cl n low high x; Ok (INum z)
  | AIntbin _ mn mx _ _ => do x <- snum v; Ok (INum (spark_intbin rnd mn mx x))
  | ASplit _ edges _ _ _ cl => do x <- snum v; Ok (INum (spark_split cl edges x))
  | ACut _ => match v with                                       (* 236-237 *)
              | Some (VBool true) => Ok (INum 0)
              | Some (VBool false) | None => Ok (INum 1)
              | _ => Err TypeError
              end
  | _ => Err AssertionError
  end.

(** ** The columns that are summed (252-276): [weight] is whether [_weightoriginal] is not None *)
Section Rows.
  Variable rnd : Qc -> Num.
  Variable sfun : string -> list sval -> res sval.
  Variable h : hist.
  Variable weight : bool.
  Definition mul_null (x y : option Num) : option Num := match x, y with Some a, Some b => Some (nmul a b) | _, _ => None end.
  Definition weight_tree : tree := match h_weight h with Some (WxTree t) => t | Some (WxConst v) => TConst (knum v) | None => TConst (KS SNone) end.
  Definition spark_row (field : string -> res val) : res (list sidx * list (option Num)) :=
    let col t := scol sfun field t in
    do ix <- mapM (fun p => do v <- col (snd p); spark_index rnd (fst p) v) (h_group h ++ h_fixed h);
    do ps <- mapM (fun t => do v <- col t; snum v) (h_prof h);
    if weight then
      do w <- (do v <- col weight_tree; snum v);
      Ok (ix, flat_map (fun x => [mul_null x w; mul_null (mul_null x x) w]) ps ++ [w; mul_null w w])
    else Ok (ix, flat_map (fun x => [x; mul_null x x]) ps).

  (** groupBy(index).agg(sum, ..., count) (272-276, 311) *)
  Definition sidx_eqb (a b : sidx) : bool :=
    match a, b with
    | IKey None, IKey None => true
    | IKey (Some (GNum x)), IKey (Some (GNum y)) => s_eqb x y
    | IKey (Some (GStr s)), IKey (Some (GStr t)) => String.eqb s t
    | INum x, INum y => (x =? y)%Z
    | _, _ => false
    end.
  Fixpoint index_eqb (a b : list sidx) : bool :=
    match a, b with
    | [], [] => true
    | x :: a', y :: b' => sidx_eqb x y && index_eqb a' b'
    | _, _ => false
    end.
  Fixpoint distinct (l : list (list sidx)) : list (list sidx) :=
    match l with
    | [] => []
    | x :: t => x :: filter (fun y => negb (index_eqb x y)) (distinct t)
    end.
  (** The sum of a column; null if it has only nulls. *)
  Definition sum_nulls (l : list (option Num)) : option Num :=
    match catopts l with [] => None | xs => Some (nsum xs) end.
  Definition sparkrow : Type := list sidx * list (option Num).
  Definition ncolumns : nat := 2 * length (h_prof h) + (if weight then 2 else 0).
  Definition aggregate (rows : list sparkrow) : list (option Num) :=
    map (fun j => sum_nulls (map (fun r => nth j (snd r) None) rows)) (seq 0 ncolumns) ++
    (if weight then [] else [Some (nnat (length rows))]).
  Definition query (rows : list sparkrow) : list sparkrow :=
    map (fun ix => (ix, aggregate (filter (fun r => index_eqb ix (fst r)) rows))) (distinct (map fst rows)).
End Rows.

(** ** recurse (286-309) *)
Definition has_underflow (a : axis) : bool :=
  match a with ABin _ _ _ _ u _ _ _ | ASplit _ _ u _ _ _ | AIntbin _ _ _ u _ => u | _ => false end.
(** The slot that an index selects ([None]: the row is left out). *)
Definition spark_slot (a : axis) (z : Z) : res (option nat) :=
  match a with
  | ACut _ => Ok (Some (if (z =? 0)%Z then 1 else 0))             (* content[0 if index[0] else 1] *)
  | ABin _ _ _ _ _ _ _ _ | AIntbin _ _ _ _ _ | ASplit _ _ _ _ _ _ =>
    let i := (z - (if has_underflow a then 0 else 1))%Z in
    if (i <? Z.of_nat (totbins a))%Z then
      match norm_index (totbins a) i with Some s => Ok (Some s) | None => Err IndexError end
    else Ok None
  | _ => Err AssertionError
  end.
Fixpoint spark_pos (axes : list axis) (index : list sidx) (acc : nat) : res (option nat) :=
  match axes, index with
  | [], _ => Ok (Some acc)
  | a :: axes', INum z :: index' =>
    do s <- spark_slot a z;
    match s with Some s => spark_pos axes' index' (acc * totbins a + s) | None => Ok None end
  | _, _ => Err IndexError
  end.
(** [content += columns] on one row of the array *)
Definition add_row (k pos : nat) (cols : list (option Num)) (d : list Num) : res (list Num) :=
  if existsb is_none cols then Err TypeError
  else match broadcast k (catopts cols) with
       | None => Err ValueError
       | Some vs => Ok (fold_left (fun d p => upd (fun x => nadd x (snd p)) (pos * k + fst p) d) (combine (seq 0 k) vs) d)
       end.
Section Recurse.
  Variable L : layout.
  Variable fixed : list axis.
  Fixpoint recurse (groups : nat) (index : list sidx) (cols : list (option Num)) (c : content) : content * option err :=
    match groups with
    | 0 =>
      match c with
      | CArr d =>
        match spark_pos fixed index 0 with
        | Err e => (c, Some e)
        | Ok None => (c, None)
        | Ok (Some pos) => match add_row (l_last L) pos cols d with Ok d' => (CArr d', None) | Err e => (c, Some e) end
        end
      | _ => (c, Some TypeError)
      end
    | S m =>
      match index, c with
      | IKey (Some k) :: index', CDict l =>
        match assoc k l with
        | Some c' => let (c'', e) := recurse m index' cols c' in (CDict (assoc_set k c'' l), e)
        | None => (c, Some AttributeError)        (* getornew: histbook.hist.COUNTTYPE (278-284) *)
        end
      | _, CDict _ => (c, Some AttributeError)
      | _, _ => (c, Some TypeError)
      end
    end.
  Fixpoint wait (ng : nat) (rows : list sparkrow) (c : content) : content * option err :=
    match rows with
    | [] => (c, None)
    | (ix, cols) :: rest => match recurse ng ix cols c with (c', None) => wait ng rest c' | (c', Some e) => (c', Some e) end
    end.
End Recurse.

(** Hist.fill of a DataFrame.  [collect] is the order in which Spark returns the groups. *)
Definition spark_fill rnd sfun (collect : list sparkrow -> list sparkrow) (h : hist) (weight : bool)
           (frame : list (string -> res val)) (c : content) : content * option err :=
  match mapM (spark_row rnd sfun h weight) frame with
  | Err e => (c, Some e)
  | Ok rows => wait (hist_layout h) (map fst (h_fixed h)) (length (h_group h)) (collect (query h weight rows)) (prefill (hist_layout h) (length (h_group h)) c)
  end.
