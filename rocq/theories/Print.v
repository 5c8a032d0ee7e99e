(** Printing expressions, and the option [fill] of the constructor of Hist.

    Models [__str__] and [__repr__] of the expression classes (/repo/histbook/expr.py 51-52, 491-495,
    525-529, 599-603, 630-631, 641-642, 813-827, 907-908, 993-997, 1034-1041) and hist.py 259-265.

    Simplifications: how Python prints a constant is left open ([str_const], [repr_const] for
    literals, [repr_number] for the constants of sums and products); [repr] of a string puts quotes
    around it, without escapes (names have none to escape); a BinOp has two operands, as its
    constructor demands (626-628). *)
From Coq Require Import String.
From Verif Require Import Base Num Tree Axis Content Fill Elem HistFill Order Expr HistNew.
Local Open Scope string_scope.
Local Open Scope list_scope.

Section Print.
Variables str_const repr_const : cst -> string.
Variable repr_number : Qc -> string.

(** [sep.join(l)] *)
Fixpoint join (sep : string) (l : list string) : string :=
  match l with
  | [] => ""
  | [x] => x
  | x :: r => (x ++ sep ++ join sep r)%string
  end.
Definition quoted (s : string) : string := ("'" ++ s ++ "'")%string.
(** [repr] of a tuple *)
Definition tuple_repr (l : list string) : string :=
  match l with
  | [x] => ("(" ++ x ++ ",)")%string
  | _ => ("(" ++ join ", " l ++ ")")%string
  end.
(** expr.py 51-52: the class and the arguments *)
Definition class_repr (name : string) (l : list string) : string := (name ++ "(" ++ join ", " l ++ ")")%string.

Definition cmp_sign (c : cmp) : string :=
  match c with CEq => "==" | CNe => "!=" | CLt => "<" | CLe => "<=" | CIn => "in" | CNotIn => "not in" end.
(** expr.py 236-241 *)
Definition op_sign (f : string) : string :=
  if String.eqb f "numpy.floor_divide" then "//" else if String.eqb f "fmod" then "%"
  else if String.eqb f "pow" then "**" else "^".
Definition is_binop (e : expr) : bool := match e with ECall true _ _ => true | _ => false end.

(** expr.py 816-827 RingAlgebraBinOp.__str__ *)
Definition ring_str (posop negop : string) (unit c : Qc) (pos neg : list string) : string :=
  (join posop ((if negb (qeqb c unit) || is_nil pos then [repr_number c] else []) ++ pos)
   ++ String.concat "" (map (fun x => (negop ++ x)%string) neg))%string.

Fixpoint repr (e : expr) : string :=
  let term_repr t := class_repr "TimesDiv" [repr_number (tc t); tuple_repr (map repr (tp t)); tuple_repr (map repr (tn t))] in
  match e with
  | EConst c => class_repr "Const" [repr_const c]
  | EName s => class_repr "Name" [quoted s]
  | EPred s b => class_repr "Predicate" [quoted s; if b then "True" else "False"]
  | ECall b f l => class_repr (if b then "BinOp" else "Call") (quoted f :: map repr l)
  | ERel c l r => class_repr "Relation" [quoted (cmp_sign c); repr l; repr r]
  | EPM c p n => class_repr "PlusMinus" [repr_number c; tuple_repr (map term_repr p); tuple_repr (map term_repr n)]
  | ETD t => term_repr t
  | EAnd l => class_repr "LogicalAnd" (map repr l)
  | EOr l => class_repr "LogicalOr" (map repr l)
  end.

(** LogicalAnd and LogicalOr have no [__str__] of their own: Python falls back on [repr]. *)
Fixpoint str (e : expr) : string :=
  let term_str t := ring_str "*" "/" qc1 (tc t) (map str (tp t)) (map str (tn t)) in
  let operand x := if is_binop x then ("(" ++ str x ++ ")")%string else str x in
  match e with
  | EConst c => str_const c
  | EName s => s
  | EPred s b => if b then s else ("not " ++ s)%string
  | ECall true f [l; r] => (operand l ++ " " ++ op_sign f ++ " " ++ operand r)%string
  | ECall _ f l => (f ++ "(" ++ join ", " (map str l) ++ ")")%string
  | ERel c l r => (str l ++ " " ++ cmp_sign c ++ " " ++ str r)%string
  | EPM c p n => ring_str " + " " - " qc0 c (map term_str p) (map term_str n)
  | ETD t => term_str t
  | EAnd _ | EOr _ => repr e
  end.

(** ** The option [fill] *)
Inductive fill_arg : Type :=
| FDict (A : arrays)                  (* a dict: fields by name *)
| FData (d : inarr).                  (* anything else, except a Spark data frame *)
(** hist.py 260-264: data for a histogram of one axis are given the name the expression of the axis
    prints as *)
Definition fill_fields (es : list expr) (f : fill_arg) : res arrays :=
  match f with
  | FDict A => Ok A
  | FData d =>
    match es with
    | [e] => Ok (fun n => if String.eqb n (str e) then Some d else None)
    | _ => Err TypeError
    end
  end.

Section New.
  Variable srt : list expr -> list expr.
  Variable tsrt : list tree -> list tree.
  Variable defs : string -> option expr.
  Variable cast : Num -> Z.
  Variable rnd : Qc -> Num.
  Variable user : string -> list arg -> res val.
  Variable order : tree -> list tree -> list tree.
  Variable srcs_of : list tree -> list tree.
  (** Hist(.., fill=..), hist.py 133-265: the histogram and its content, or the error of the
      constructor *)
  Definition new_filled (axes : list (axis * src)) (weight : option wsrc) (filter : option src) (f : option fill_arg)
    : res (hist * content) :=
    do h <- new_hist srt tsrt defs axes weight filter;
    match f with
    | None => Ok (h, CNone)
    | Some f =>
      do es <- mapM (fun p => parse_top srt defs (snd p)) axes;
      do A <- fill_fields es f;
      match hist_fill cast rnd user order (srcs_of (hist_goals h)) h A CNone with
      | (c, None) => Ok (h, c)
      | (_, Some e) => Err e
      end
    end.
End New.
End Print.
