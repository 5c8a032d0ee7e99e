(** Element-wise functions: what one row of a Numpy expression is worth.

    Models the entries of [library] in /repo/histbook/calc/__init__.py 36-147 that the expression
    compiler uses by itself ("numpy.add" ... "numpy.logical_not", "where").  All other element-wise
    functions (sin, pow, abs, ...) are a parameter [user].

    Simplifications: arithmetic on booleans or strings raises TypeError (Numpy would add booleans
    as truth values); a comparison between values of different kinds raises TypeError. *)
From Coq Require Import String.
From Verif Require Import Num Base Tree.

(** An element of a column. *)
Inductive val : Type :=
| VNum (x : Num)
| VStr (s : string)
| VBool (b : bool).

(** An argument of an element-wise function, seen from one row: an element or a literal. *)
Inductive arg : Type :=
| AC (c : cst)
| AV (v : val).

Definition scal_val (s : scal) : option val :=
  match s with
  | SNum x => Some (VNum x)
  | SStr s => Some (VStr s)
  | SBool b => Some (VBool b)
  | SNone => None
  end.

Definition arg_val (a : arg) : res val :=
  match a with
  | AV v => Ok v
  | AC (KS s) => match scal_val s with Some v => Ok v | None => Err TypeError end
  | AC _ => Err TypeError
  end.

Definition val_num (v : val) : res Num := match v with VNum x => Ok x | _ => Err TypeError end.
Definition arg_num (a : arg) : res Num := do v <- arg_val a; val_num v.

(** Truth of an element: zero is false, NaN is true. *)
Definition val_truth (v : val) : res bool :=
  match v with
  | VBool b => Ok b
  | VNum x => Ok (negb (neqb x nzero))
  | VStr _ => Err TypeError
  end.
Definition arg_truth (a : arg) : res bool := do v <- arg_val a; val_truth v.

(** Comparisons of two elements. *)
Definition val_eqb (a b : val) : res bool :=
  match a, b with
  | VNum x, VNum y => Ok (neqb x y)
  | VStr s, VStr t => Ok (String.eqb s t)
  | VBool p, VBool q => Ok (Bool.eqb p q)
  | _, _ => Err TypeError
  end.
Definition val_ltb (a b : val) : res bool :=
  match a, b with
  | VNum x, VNum y => Ok (nltb x y)
  | VStr s, VStr t => Ok (String.ltb s t)
  | VBool p, VBool q => Ok (negb p && q)
  | _, _ => Err TypeError
  end.
Definition val_leb (a b : val) : res bool :=
  match a, b with
  | VNum x, VNum y => Ok (nleb x y)
  | VStr s, VStr t => Ok (String.leb s t)
  | VBool p, VBool q => Ok (negb p || q)
  | _, _ => Err TypeError
  end.

(** Membership in a literal set (numpy.isin): an element of another kind is not a member. *)
Definition scal_eqb (v : val) (s : scal) : bool :=
  match scal_val s with
  | Some w => match val_eqb v w with Ok b => b | Err _ => false end
  | None => false
  end.

Definition num2 (f : Num -> Num -> Num) (a b : arg) : res val :=
  do x <- arg_num a; do y <- arg_num b; Ok (VNum (f x y)).
Definition cmp2 (f : val -> val -> res bool) (a b : arg) : res val :=
  do x <- arg_val a; do y <- arg_val b; rmap VBool (f x y).
Definition bool2 (f : bool -> bool -> bool) (a b : arg) : res val :=
  do x <- arg_truth a; do y <- arg_truth b; Ok (VBool (f x y)).

Section Efun.
  (** The remaining library functions, on one row. *)
  Variable user : string -> list arg -> res val.

  Open Scope string_scope.
  (** calc/__init__.py 38-52 and 147. *)
  Definition efun (f : string) (args : list arg) : res val :=
    if String.eqb f "numpy.add" then
      match args with [a; b] => num2 nadd a b | _ => Err TypeError end
    else if String.eqb f "numpy.subtract" then
      match args with [a; b] => num2 nsub a b | _ => Err TypeError end
    else if String.eqb f "numpy.multiply" then
      match args with [a; b] => num2 nmul a b | _ => Err TypeError end
    else if String.eqb f "numpy.true_divide" then
      match args with [a; b] => num2 ndiv a b | _ => Err TypeError end
    else if String.eqb f "numpy.equal" then
      match args with [a; b] => cmp2 val_eqb a b | _ => Err TypeError end
    else if String.eqb f "numpy.not_equal" then
      match args with [a; b] => cmp2 (fun x y => rmap negb (val_eqb x y)) a b | _ => Err TypeError end
    else if String.eqb f "numpy.less" then
      match args with [a; b] => cmp2 val_ltb a b | _ => Err TypeError end
    else if String.eqb f "numpy.less_equal" then
      match args with [a; b] => cmp2 val_leb a b | _ => Err TypeError end
    else if String.eqb f "numpy.isin" then
      match args with
      | [a; AC (KSet l)] => do x <- arg_val a; Ok (VBool (existsb (scal_eqb x) l))
      | _ => Err TypeError
      end
    else if String.eqb f "numpy.logical_or" then
      match args with [a; b] => bool2 orb a b | _ => Err TypeError end
    else if String.eqb f "numpy.logical_and" then
      match args with [a; b] => bool2 andb a b | _ => Err TypeError end
    else if String.eqb f "numpy.logical_not" then
      match args with [a] => do x <- arg_truth a; Ok (VBool (negb x)) | _ => Err TypeError end
    else if String.eqb f "where" then
      match args with
      | [c; a; b] => do t <- arg_truth c; do x <- arg_val a; do y <- arg_val b; Ok (if t then x else y)
      | _ => Err TypeError
      end
    else user f args.
End Efun.

(** The value of a call tree on one row, given the fields of that row.  A literal constant stays a
    literal (it may be a set). *)
Section RowEval.
  Variable user : string -> list arg -> res val.
  Variable field : string -> res val.

  Fixpoint reval (t : tree) : res arg :=
    match t with
    | TConst c => Ok (AC c)
    | TName s | TPred s _ => rmap AV (field s)       (* calc/__init__.py 347-348: the sign is ignored *)
    | TBcast c => rmap AV (arg_val (AC c))
    | TCall f args =>
        do vs <- (fix go (l : list tree) : res (list arg) :=
                    match l with
                    | [] => Ok []
                    | a :: l => do v <- reval a; do vs <- go l; Ok (v :: vs)
                    end) args;
        rmap AV (efun user f vs)
    end.
End RowEval.
