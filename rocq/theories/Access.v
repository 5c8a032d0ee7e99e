(** Looking things up in a histogram: [hist.axis[...]], [hist[...]] and [hist.groupkeys(...)].

    Models /repo/histbook/proj.py 39-50 and 90-94 (AxisTuple.__getitem__, Projectable.axis) and
    /repo/histbook/hist.py 753-795 (Hist.__getitem__, Hist.groupkeys).

    Simplifications: an expression is given as a Python syntax tree, not as text; an index of a
    histogram is a number, a string, a slice whose bounds are integers, a list of integers or a list of
    booleans (not None, Ellipsis or arrays of several dimensions); an array refuses floats and strings
    as Numpy does, a dict refuses slices and lists, which have no hash (slices have one from Python
    3.12 on). *)
From Coq Require Import String.
From Verif Require Import Num Base Tree Axis Calc Content Fill Order Expr.
Local Open Scope list_scope.

(** * Axes *)

(** Python's sequence index: negative numbers count from the end. *)
Definition py_nth {A} (l : list A) (z : Z) : res A :=
  match norm_index (List.length l) z with
  | Some i => match nth_error l i with Some x => Ok x | None => Err IndexError end
  | None => Err IndexError
  end.

Inductive axis_item : Type := AtPosition (z : Z) | AtExpr (s : src).

Section Axes.
  Variable srt : list expr -> list expr.
  Variable defs : string -> option expr.

  (** The first axis with the property, and its number. *)
  Fixpoint first_axis {A} (p : A -> bool) (i : nat) (l : list A) : option (nat * A) :=
    match l with
    | [] => None
    | x :: t => if p x then Some (i, x) else first_axis p (S i) t
    end.

  (** AxisTuple.__getitem__ (proj.py 41-50); each axis comes with its [_parsed]. *)
  Definition axis_get (axes : list (axis * expr)) (item : axis_item) : res (axis * expr) :=
    match item with
    | AtPosition z => py_nth axes z
    | AtExpr s =>
      do e <- parse_top srt defs s;
      match first_axis (fun p => expr_same e (snd p)) 0 axes with
      | Some (_, p) => Ok p
      | None => Err IndexError
      end
    end.

  (** * groupkeys *)

  (** recurse (hist.py 787-792): the keys at depth [j] of the nested dicts.  Neither None nor an
      array has keys or values. *)
  Fixpoint level (j : nat) (c : content) : res (list gkey) :=
    match c with
    | CDict l =>
      match j with
      | 0 => Ok (map fst l)
      | S j' => rmap (@concat gkey) (mapM (level j') (map snd l))
      end
    | _ => Err AttributeError
    end.

  Inductive axis_arg : Type := GivenAxis (a : axis) | GivenItem (item : axis_item).

  (** groupkeys (hist.py 765-795).  [content] is not prefilled.  The message of the IndexError
      mentions the loop variable, which is unbound when there is no group axis: UnboundLocalError,
      a NameError. *)
  Definition groupkeys (group fixed prof : list (axis * expr)) (c : content) (arg : axis_arg) : res (list gkey) :=
    do a <- match arg with
            | GivenAxis a => Ok a
            | GivenItem item => rmap fst (axis_get (group ++ fixed ++ prof) item)
            end;
    match first_axis (fun p => axis_eqb (fst p) a) 0 group with
    | Some (i, _) => rmap nodup_keys (level i c)
    | None => Err (match group with [] => NameError | _ => IndexError end)
    end.
End Axes.

(** * Indexing *)

Inductive item : Type :=
| AtInt (z : Z) | AtFloat (x : Num) | AtStr (s : string)
| AtSlice (start stop : option Z) (step : Z) | AtList (zs : list Z) | AtMask (bs : list bool)
| AtNone | AtEllipsis.

(** slice(start, stop, step).indices(n) and the range of these numbers, as CPython's
    PySlice_AdjustIndices: negative bounds count from the end, then both bounds are moved into the
    range. *)
Definition slice_bound (n lower upper default : Z) (b : option Z) : Z :=
  match b with
  | None => default
  | Some z => if z <? 0 then Z.max (z + n) lower else Z.min z upper
  end%Z.
Definition slice_indices (size : nat) (start stop : option Z) (step : Z) : res (list nat) :=
  (let n := Z.of_nat size in
   if step =? 0 then Err ValueError
   else
     let lower := if step <? 0 then -1 else 0 in
     let upper := if step <? 0 then n - 1 else n in
     let a := slice_bound n lower upper (if step <? 0 then upper else lower) start in
     let b := slice_bound n lower upper (if step <? 0 then lower else upper) stop in
     let len := if step <? 0 then (if b <? a then (a - b - 1) / (- step) + 1 else 0)
                else (if a <? b then (b - a - 1) / step + 1 else 0) in
     Ok (map (fun i => Z.to_nat (a + Z.of_nat i * step)) (seq 0 (Z.to_nat len))))%Z.

(** The elements of the first dimension that an index other than a number picks, in order; Numpy
    refuses a mask of another length. *)
Definition mask_indices (bs : list bool) : list nat := map fst (filter snd (combine (seq 0 (List.length bs)) bs)).
Definition picked (n : nat) (i : item) : res (list nat) :=
  match i with
  | AtSlice start stop step => slice_indices n start stop step
  | AtList zs => match norm_indexes n zs with Some js => Ok js | None => Err IndexError end
  | AtMask bs => if Nat.eqb (List.length bs) n then Ok (mask_indices bs) else Err IndexError
  | _ => Err IndexError
  end.

(** What an index leads to: nested dicts, or a part of an array (a number has no dimensions). *)
Inductive found : Type :=
| Dict (l : list (gkey * content))
| Arr (shape : list nat) (data : list Num)
| Nothing.

Definition enter (L : layout) (c : content) : found :=
  match c with
  | CNone => Nothing
  | CArr d => Arr (l_tots L ++ [l_last L]) d
  | CDict l => Dict l
  end.

Definition item_key (i : item) : option gkey :=
  match i with AtInt z => Some (GNum (nz z)) | AtFloat x => Some (GNum x) | AtStr s => Some (GStr s) | _ => None end.

(** Element [k] of the first dimension, when each has [m] numbers. *)
Definition row_at (m : nat) (d : list Num) (k : nat) : list Num := firstn m (skipn (k * m) d).

(** [out = out[i]] (hist.py 758-759).  None and Ellipsis can be keys of a dict, but no group has them;
    for an array None is a new dimension of one element, and Ellipsis stands for all dimensions, also if
    there are none. *)
Definition get1 (L : layout) (out : found) (i : item) : res found :=
  match out with
  | Nothing => Err TypeError
  | Dict l => match item_key i with
              | Some k => match assoc k l with Some c => Ok (enter L c) | None => Err KeyError end
              | None => Err (match i with AtNone | AtEllipsis => KeyError | _ => TypeError end)
              end
  | Arr [] d => match i with AtNone => Ok (Arr [1] d) | AtEllipsis => Ok (Arr [] d) | _ => Err IndexError end
  | Arr (n :: sh) d =>
    let m := fold_right Nat.mul 1 sh in
    match i with
    | AtInt z =>
      match norm_index n z with
      | Some k => Ok (Arr sh (row_at m d k))
      | None => Err IndexError
      end
    | AtNone => Ok (Arr (1 :: n :: sh) d)
    | AtEllipsis => Ok (Arr (n :: sh) d)
    | _ => do js <- picked n i; Ok (Arr (List.length js :: sh) (flat_map (row_at m d) js))
    end
  end.
Fixpoint get_all (L : layout) (out : found) (where_ : list item) : res found :=
  match where_ with
  | [] => Ok out
  | i :: rest => do o <- get1 L out i; get_all L o rest
  end.

(** Hist.__getitem__ (hist.py 753-760): the content is allocated first, and stays. *)
Definition getitem (L : layout) (ngroup : nat) (c : content) (where_ : list item) : content * res found :=
  let c' := prefill L ngroup c in (c', get_all L (enter L c') where_).
