(** The functions that can be called in an expression.

    Models the table [Expr.recognized] of /repo/histbook/expr.py 333-442 with the lookup of lines
    307-320, and the entries of [library] of /repo/histbook/calc/__init__.py 54-147 that it leads
    to, on one row.

    Simplifications: the functions that do not stay within the rationals (sqrt, exp, log, sin, ...)
    are given by a parameter [tr], which is total because Numpy returns NaN or an
    infinity rather than raising.  A call with too many or too few arguments raises TypeError (what
    Numpy really does with one argument too many is in FillMem.v).  Zero has no sign, and neither
    has NaN.  A function is called by its name or by a name in the modules math and numpy; other
    spellings of the same objects (numpy.abs for numpy.absolute) are left out. *)
From Coq Require Import String.
From Verif Require Import Num Base Tree Elem.
Local Open Scope string_scope.

(** ** Which names are recognised *)

(** A function as it is written: [f(...)] or [module.f(...)]. *)
Inductive fname : Type :=
| Bare (f : string)
| Dotted (m f : string).

(** expr.py 360-394. *)
Definition math_names : list (string * string) :=
  [("acos", "arccos"); ("acosh", "arccosh"); ("asin", "arcsin"); ("asinh", "arcsinh"); ("atan2", "arctan2");
   ("atan", "arctan"); ("atanh", "arctanh"); ("ceil", "ceil"); ("copysign", "copysign"); ("cos", "cos");
   ("cosh", "cosh"); ("degrees", "rad2deg"); ("erfc", "erfc"); ("erf", "erf"); ("exp", "exp");
   ("expm1", "expm1"); ("factorial", "factorial"); ("floor", "floor"); ("fmod", "mod"); ("gamma", "gamma");
   ("hypot", "hypot"); ("isinf", "isinf"); ("isnan", "isnan"); ("lgamma", "lgamma"); ("log10", "log10");
   ("log1p", "log1p"); ("log", "log"); ("pow", "pow"); ("radians", "deg2rad"); ("sinh", "sinh");
   ("sin", "sin"); ("sqrt", "sqrt"); ("tanh", "tanh"); ("tan", "tan"); ("trunc", "trunc")].

(** expr.py 396-442. *)
Definition numpy_names : list (string * string) :=
  [("absolute", "abs"); ("arccos", "arccos"); ("arccosh", "arccosh"); ("arcsin", "arcsin"); ("arcsinh", "arcsinh");
   ("arctan2", "arctan2"); ("arctan", "arctan"); ("arctanh", "arctanh"); ("ceil", "ceil"); ("conjugate", "conj");
   ("copysign", "copysign"); ("cos", "cos"); ("cosh", "cosh"); ("deg2rad", "deg2rad"); ("degrees", "rad2deg");
   ("exp2", "exp2"); ("exp", "exp"); ("expm1", "expm1"); ("floor", "floor"); ("fmod", "fmod");
   ("heaviside", "heaviside"); ("hypot", "hypot"); ("isfinite", "isfinite"); ("isinf", "isinf"); ("isnan", "isnan");
   ("log10", "log10"); ("log1p", "log1p"); ("log2", "log2"); ("logaddexp2", "logaddexp2"); ("logaddexp", "logaddexp");
   ("log", "log"); ("maximum", "fmax"); ("minimum", "fmin"); ("power", "pow"); ("rad2deg", "rad2deg");
   ("radians", "deg2rad"); ("remainder", "mod"); ("rint", "rint"); ("round", "round"); ("sign", "sign");
   ("sinh", "sinh"); ("sin", "sin"); ("sqrt", "sqrt"); ("tanh", "tanh"); ("tan", "tan");
   ("trunc", "trunc"); ("where", "where")].

(** expr.py 333 and 355-358, then all the rest: [Expr.recognized.values()]. *)
Definition bare_names : list string :=
  ["abs"; "max"; "min"; "fabs"; "fmin"; "fmax"; "fmod"] ++ map snd math_names ++ map snd numpy_names.

Fixpoint assoc {A} (k : string) (l : list (string * A)) : option A :=
  match l with
  | [] => None
  | (k', v) :: l => if String.eqb k k' then Some v else assoc k l
  end.

(** expr.py 118-124 and 307-320.  An attribute that is not in the table resolves to something
    that is not a key; [node.func.id] of an attribute does not exist. *)
Definition recognise (n : fname) : res string :=
  match n with
  | Bare f => if existsb (String.eqb f) bare_names then Ok f else Err ExpressionError
  | Dotted m f =>
      match (if String.eqb m "math" then assoc f math_names
             else if String.eqb m "numpy" then assoc f numpy_names else None) with
      | Some g => Ok g
      | None => Err AttributeError
      end
  end.

(** ** What the functions compute *)

(** numpy.absolute. *)
Definition nabs (x : Num) : Num :=
  match x with
  | Fin q => Fin (if qltb q qc0 then - q else q)%Qc
  | NInf => PInf
  | _ => x
  end.

(** numpy.floor, numpy.ceil, numpy.trunc and numpy.rint: infinities and NaN are kept. *)
Definition nround (f : Qc -> Z) (x : Num) : Num := match x with Fin q => nz (f q) | _ => x end.
Definition qtrunc (q : Qc) : Z := if qltb q qc0 then qceil q else qfloor q.
Definition qrint (q : Qc) : Z :=
  let f := qfloor q in
  let d := (q - qz f)%Qc in
  if qltb d (qfrac 1 2) then f
  else if qltb (qfrac 1 2) d then (f + 1)%Z
  else if Z.even f then f else (f + 1)%Z.

(** numpy.sign. *)
Definition nsign (x : Num) : Num :=
  match x with
  | NaN => NaN
  | _ => if nltb x nzero then nz (-1) else if nltb nzero x then nz 1 else nzero
  end.

(** numpy.maximum and numpy.minimum: NaN if either is. *)
Definition nmax (x y : Num) : Num := if isnan x || isnan y then NaN else if nltb x y then y else x.
Definition nmin (x y : Num) : Num := if isnan x || isnan y then NaN else if nltb y x then y else x.

(** numpy.remainder: the divisor's sign.  A finite value divided by an infinity is kept if it has
    the sign of the infinity, which is returned otherwise. *)
Definition nremainder (x y : Num) : Num :=
  match x, y with
  | Fin a, Fin b => if qeqb b qc0 then NaN else Fin (a - b * qz (qfloor (a / b)))%Qc
  | Fin a, PInf => if qltb a qc0 then PInf else x
  | Fin a, NInf => if qltb qc0 a then NInf else x
  | _, _ => NaN
  end.

(** numpy.fmod: the dividend's sign. *)
Definition nfmod (x y : Num) : Num :=
  match x, y with
  | Fin a, Fin b => if qeqb b qc0 then NaN else Fin (a - b * qz (qtrunc (a / b)))%Qc
  | Fin _, PInf | Fin _, NInf => x
  | _, _ => NaN
  end.

(** numpy.copysign. *)
Definition ncopysign (x y : Num) : Num := if nltb y nzero then nneg (nabs x) else nabs x.

(** calc/__init__.py 73-80. *)
Definition nheaviside (x middle : Num) : Num :=
  match x with
  | NaN => NaN
  | _ => if nltb x nzero then nzero else if neqb x nzero then middle else none1
  end.

(** numpy.power with a whole exponent. *)
Fixpoint product_pow (x : Num) (n : nat) : Num := match n with 0 => none1 | S n => nmul x (product_pow x n) end.

Section Library.
  Variable tr : string -> list Num -> Num.

  (** numpy.power. *)
  Definition npower (x y : Num) : Num :=
    match y with
    | Fin q =>
        if qeqb q (qz (qfloor q)) then
          (if (0 <=? qfloor q)%Z then product_pow x (Z.to_nat (qfloor q))
           else ndiv none1 (product_pow x (Z.to_nat (- qfloor q))))
        else tr "pow" [x; y]
    | _ => tr "pow" [x; y]
    end.

  (** calc/__init__.py 105-124: [vectorized_erf], on one row.  The constants a1, ..., a5 and p. *)
  Definition erf_a1 : Qc := qfrac 254829592 1000000000.
  Definition erf_a2 : Qc := qfrac (-284496736) 1000000000.
  Definition erf_a3 : Qc := qfrac 1421413741 1000000000.
  Definition erf_a4 : Qc := qfrac (-1453152027) 1000000000.
  Definition erf_a5 : Qc := qfrac 1061405429 1000000000.
  Definition erf_p : Qc := qfrac 3275911 10000000.
  Definition nerf (complement : bool) (values : Num) : Num :=
    let sign := if nltb values nzero then nz (-1) else none1 in
    let values := nabs values in
    let t := ndiv none1 (nadd (nmul values (Fin erf_p)) none1) in
    let horner :=
      nadd (nmul (nadd (nmul (nadd (nmul (nadd (nmul (Fin erf_a5) t) (Fin erf_a4)) t) (Fin erf_a3)) t) (Fin erf_a2)) t) (Fin erf_a1) in
    let y := nsub none1 (nmul (nmul horner t) (tr "exp" [nneg (nmul values values)])) in
    if complement then nsub none1 (nmul sign y) else nmul sign y.

  (** calc/__init__.py 126-144: [vectorized_gamma], on one row of an array.  [cofs] and [stp]. *)
  Definition gamma_cofs : list Qc :=
    [qfrac 7618009173 100000000; qfrac (-8650532033) 100000000; qfrac 2401409822 100000000;
     qfrac (-1231739516) 1000000000; qfrac 120858003 100000000000; qfrac (-536382) 100000000000].
  Definition gamma_stp : Qc := qfrac 250662827465 100000000000.
  Fixpoint gamma_series (cofs : list Qc) (x ser : Num) : Num :=
    match cofs with
    | [] => ser
    | cof :: cofs => let x := nadd x none1 in gamma_series cofs x (nadd ser (ndiv (Fin cof) x))
    end.
  Definition nlgamma (values : Num) : Num :=
    let x := nsub values none1 in
    let tmp := nadd x (Fin (qfrac 11 2)) in
    let tmp := nsub (nmul (nadd x (Fin (qfrac 1 2))) (tr "log" [tmp])) tmp in
    let ser := gamma_series gamma_cofs x none1 in
    nadd tmp (tr "log" [nmul (Fin gamma_stp) ser]).
  Definition ngamma (values : Num) : Num := tr "exp" [nlgamma values].
  (** calc/__init__.py 145; numpy.round to a whole number is numpy.rint. *)
  Definition nfactorial (values : Num) : Num :=
    nround qrint (tr "exp" [nlgamma (nadd (nround qrint values) none1)]).

  Inductive libfun : Type :=
  | F1 (f : Num -> Num)
  | F2 (f : Num -> Num -> Num)
  | P1 (f : Num -> bool)
  | FD (f : Num -> Num -> Num) (default : Num).     (* a second argument with a default *)

  Definition t1 (f : string) : string * libfun := (f, F1 (fun x => tr f [x])).
  Definition t2 (f : string) : string * libfun := (f, F2 (fun x y => tr f [x; y])).

  (** calc/__init__.py 54-145: the assignments, in order.  The names of lines 38-52 and 147 are in
      Elem.v. *)
  Definition library : list (string * libfun) :=
    [("abs", F1 nabs); ("fabs", F1 nabs);
     t1 "arccos"; t1 "arccosh"; t1 "arcsin"; t1 "arcsinh"; t2 "arctan2"; t1 "arctan"; t1 "arctanh";
     ("ceil", F1 (nround qceil)); ("conj", F1 (fun x => x)); ("copysign", F2 ncopysign);
     t1 "cos"; t1 "cosh"; t1 "deg2rad"; t1 "exp2"; t1 "exp"; t1 "expm1";
     ("floor", F1 (nround qfloor)); ("fmod", F2 nfmod);
     ("heaviside", FD nheaviside (Fin (qfrac 1 2)));
     t2 "hypot"; ("isfinite", P1 isfin); ("isinf", P1 (fun x => negb (isfin x) && negb (isnan x)));
     ("isnan", P1 isnan); t1 "log10"; t1 "log1p"; t1 "log2"; t2 "logaddexp2"; t2 "logaddexp"; t1 "log";
     ("max", F2 nmax); ("fmax", F2 nmax); ("min", F2 nmin); ("fmin", F2 nmin);
     ("pow", F2 npower); t1 "rad2deg"; ("mod", F2 nremainder); ("fmod", F2 nremainder);
     ("rint", F1 (nround qrint)); ("sign", F1 nsign); t1 "sinh"; t1 "sin"; t1 "sqrt"; t1 "tanh"; t1 "tan";
     ("trunc", F1 (nround qtrunc)); ("erf", F1 (nerf false)); ("erfc", F1 (nerf true));
     ("gamma", F1 ngamma); ("lgamma", F1 nlgamma); ("factorial", F1 nfactorial)].

  (** A dict after these assignments: the last one of a key counts. *)
  Definition in_library (f : string) : option libfun := assoc f (rev library).

  (** calc/__init__.py 353-357. *)
  Definition numlib (f : string) (args : list arg) : res val :=
    match in_library f with
    | None => Err AssertionError
    | Some (F1 g) => match args with [a] => do x <- arg_num a; Ok (VNum (g x)) | _ => Err TypeError end
    | Some (P1 g) => match args with [a] => do x <- arg_num a; Ok (VBool (g x)) | _ => Err TypeError end
    | Some (F2 g) => match args with [a; b] => num2 g a b | _ => Err TypeError end
    | Some (FD g d) =>
        match args with
        | [a] => do x <- arg_num a; Ok (VNum (g x d))
        | [a; b] => num2 g a b
        | _ => Err TypeError
        end
    end.

  (** The same with the call of [len] in calc/__init__.py 133: gamma, lgamma and factorial of a
      literal raise TypeError, because a number has no length. *)
  Definition counts_its_argument (f : string) : bool := existsb (String.eqb f) ["gamma"; "lgamma"; "factorial"].
  Definition numlib_len (f : string) (args : list arg) : res val :=
    match args with
    | [AC _] => if counts_its_argument f then Err TypeError else numlib f args
    | _ => numlib f args
    end.
End Library.
