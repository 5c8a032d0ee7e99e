(** Expressions and their normal forms.

    Models /repo/histbook/expr.py 73-325 ([Expr.parse], from the Python syntax tree on) and the
    expression classes with their algebra, 485-1060.

    Simplifications:
    - Number literals are exact rationals, and Python's int and float literals are not told apart.
      Python orders two constants by the name of their type first; here numbers are ordered by
      value.
    - Arithmetic on constants that are not finite numbers (strings, booleans, infinities) is
      rejected with TypeError; Python would for instance concatenate two string literals.
    - A set literal is kept as a list without duplicates in a fixed order; Python's [<] between
      sets is inclusion.
    - The bitwise operators are rejected also between two constants.
    - [sorted] is a parameter [srt]; Order.v and the end of this file give an instance that follows
      Python's order.  The mapping from Python function objects to names (300-318) is done before. *)
From Coq Require Import String.
From Verif Require Import Num Base Tree Order.

(** ** The Python syntax tree of an expression (the nodes that [recurse] accepts) *)

Inductive cmpop : Type := OEq | ONe | OLt | OLe | OGt | OGe | OIn | ONotIn.
Inductive binop : Type := OAdd | OSub | OMul | ODiv | OFloorDiv | OMod | OPow | OXor | OBitAnd | OBitOr.

Inductive src : Type :=
| XLit (s : scal)                                   (* number, string, True, False, None *)
| XSet (l : list src)                               (* {a, b, ...}, and {} *)
| XName (s : string)
| XCmp (l : src) (rest : list (cmpop * src))        (* a < b <= c ... *)
| XNot (a : src)
| XAnd (l : list src)
| XOr (l : list src)
| XNeg (a : src)                                    (* -a *)
| XPos (a : src)                                    (* +a *)
| XBin (o : binop) (a b : src)
| XCall (f : string) (args : list src).

(** ** Expressions *)

Inductive cmp : Type := CEq | CNe | CLt | CLe | CIn | CNotIn.

(** expr.py 829-844 TimesDiv: const * product of pos / product of neg. *)
Record term_ (A : Type) : Type := T { tc : Qc; tp : list A; tn : list A }.
Arguments T {A} tc tp tn.
Arguments tc {A} t.
Arguments tp {A} t.
Arguments tn {A} t.

Inductive expr : Type :=
| EConst (c : cst)                                  (* expr.py 485-517 *)
| EName (s : string)                                (* expr.py 519-545 *)
| EPred (s : string) (positive : bool)              (* expr.py 1027-1060 *)
| ECall (binop : bool) (f : string) (args : list expr)   (* expr.py 592-631: Call, and BinOp when [binop] *)
| ERel (c : cmp) (l r : expr)                       (* expr.py 985-1025 *)
| EPM (c : Qc) (pos neg : list (term_ expr))        (* expr.py 846-867: const + sum of pos - sum of neg *)
| ETD (t : term_ expr)                              (* expr.py 829-844 *)
| EAnd (l : list expr)                              (* expr.py 949-965 *)
| EOr (l : list expr).                              (* expr.py 967-983: of [EAnd]s *)

Definition term := term_ expr.

(** ** Order and equality of expressions: class name, then the parts *)

Definition nat_idx (n : nat) : rose := RZ (Z.of_nat n).
Definition bool_idx (b : bool) : rose := nat_idx (b2n b).

Definition num_rose (x : Num) : rose :=
  match x with
  | NInf => RL [nat_idx 0]
  | Fin q => RL [nat_idx 1; RQ q]
  | PInf => RL [nat_idx 2]
  | NaN => RL [nat_idx 3]
  end.
(** Type names: NoneType < bool < (float, int) < set < str < tuple. *)
Definition scal_rose (s : scal) : rose :=
  match s with
  | SNone => RL [nat_idx 0]
  | SBool b => RL [nat_idx 1; bool_idx b]
  | SNum x => RL [nat_idx 2; num_rose x]
  | SStr s => RL [nat_idx 4; RS s]
  end.
Definition cst_rose (c : cst) : rose :=
  match c with
  | KS SNone => RL [nat_idx 0]
  | KS (SBool b) => RL [nat_idx 1; bool_idx b]
  | KS (SNum x) => RL [nat_idx 2; num_rose x]
  | KSet l => RL [nat_idx 3; RL (map scal_rose l)]
  | KS (SStr s) => RL [nat_idx 4; RS s]
  | KTup l => RL [nat_idx 5; RL (map num_rose l)]
  end.
(** The comparison signs in the order of their spelling. *)
Definition cmp_rose (c : cmp) : rose :=
  match c with
  | CNe => nat_idx 0 | CLt => nat_idx 1 | CLe => nat_idx 2 | CEq => nat_idx 3
  | CIn => nat_idx 4 | CNotIn => nat_idx 5
  end.

(** Class names: BinOp < Call < Const < LogicalAnd < LogicalOr < Name < PlusMinus < Predicate <
    Relation < TimesDiv.  The parts are compared as tuples: expr.py 507-514 (Const), 537-541
    (Name), 611-615 (Call), 649-653 (RingAlgebra), 913-917 (Logical), 1004-1008 (Relation),
    1049-1053 (Predicate). *)
Fixpoint rose_of (e : expr) : rose :=
  let term_rose t := match t with
                     | T c p n => RL [nat_idx 9; RQ c; RL (map rose_of p); RL (map rose_of n)]
                     end in
  match e with
  | ECall true f l => RL [nat_idx 0; RS f; RL (map rose_of l)]
  | ECall false f l => RL [nat_idx 1; RS f; RL (map rose_of l)]
  | EConst c => RL [nat_idx 2; cst_rose c]
  | EAnd l => RL [nat_idx 3; RL (map rose_of l)]
  | EOr l => RL [nat_idx 4; RL (map rose_of l)]
  | EName s => RL [nat_idx 5; RS s]
  | EPM c p n => RL [nat_idx 6; RQ c; RL (map term_rose p); RL (map term_rose n)]
  | EPred s b => RL [nat_idx 7; RS s; bool_idx b]
  | ERel c l r => RL [nat_idx 8; cmp_rose c; rose_of l; rose_of r]
  | ETD t => term_rose t
  end.

(** [==] between expressions (expr.py 504-505, 534-535, ...) is structural. *)
Definition expr_same (a b : expr) : bool :=
  match rcmp (rose_of a) (rose_of b) with Eq => true | _ => false end.
Definition memb (x : expr) (l : list expr) : bool := existsb (expr_same x) l.
(** [set(args)], as a list without duplicates. *)
Fixpoint dedup (l : list expr) : list expr :=
  match l with
  | [] => []
  | x :: r => if memb x r then dedup r else x :: dedup r
  end.
Fixpoint list_same_e (l m : list expr) : bool :=
  match l, m with
  | [], [] => true
  | x :: l, y :: m => expr_same x y && list_same_e l m
  | _, _ => false
  end.

(** Python's order on scalars inside a set literal, and the set of some scalars. *)
Definition scal_mem (x : scal) (l : list scal) : bool := existsb (scal_same x) l.
Fixpoint scal_dedup (l : list scal) : list scal :=
  match l with
  | [] => []
  | x :: r => if scal_mem x r then scal_dedup r else x :: scal_dedup r
  end.
Definition scal_set (l : list scal) : cst := KSet (isort scal_rose (scal_dedup l)).

(** [x.pos.index(y)] and [del pos[i]]. *)
Fixpoint find_index (y : expr) (l : list expr) : option nat :=
  match l with
  | [] => None
  | x :: r => if expr_same x y then Some 0 else option_map S (find_index y r)
  end.
Fixpoint del_nth (i : nat) (l : list expr) : res (list expr) :=
  match l, i with
  | [], _ => Err IndexError
  | _ :: r, 0 => Ok r
  | x :: r, S i => rmap (cons x) (del_nth i r)
  end.

Definition is_nil {A} (l : list A) : bool := match l with [] => true | _ => false end.

(** Powers of a rational. *)
Fixpoint qpow (q : Qc) (n : nat) : Qc := match n with 0 => qc1 | S n => (q * qpow q n)%Qc end.
Definition rep {A} (n : nat) (l : list A) : list A := concat (repeat l n).   (* Python's [l * n] *)

Section Algebra.
  (** [sorted] and [list.sort]. *)
  Variable srt : list expr -> list expr.

  Definition un_td (e : expr) : term := match e with ETD t => t | _ => T qc0 [] [] end.
  Definition srt_t (l : list term) : list term := map un_td (srt (map ETD l)).

  (** ** Products: TimesDiv *)

  (** expr.py 690-697 RingAlgebraMultLike.normalform for TimesDiv. *)
  Definition td_nf (e : expr) : res term :=
    match e with
    | ETD t => Ok t
    | EConst (KS (SNum (Fin q))) => Ok (T q [] [])
    | EConst _ => Err TypeError
    | _ => Ok (T qc1 [e] [])
    end.
  (** expr.py 838-839 negateval: [1.0 / value]. *)
  Definition q_inv (q : Qc) : res Qc := if qeqb q qc0 then Err ZeroDivisionError else Ok (/ q)%Qc.
  (** expr.py 657-660 RingAlgebra.negate for TimesDiv, after normalform. *)
  Definition td_negate (t : term) : res term := do c <- q_inv (tc t); Ok (T c (tn t) (tp t)).
  (** expr.py 666-677 RingAlgebra.combine for TimesDiv ([collect] is the identity, 662-664). *)
  Definition td_combine (a b : term) : term := T (tc a * tc b)%Qc (srt (tp a ++ tp b)) (srt (tn a ++ tn b)).
  Definition td_const (q : Qc) : term := T q [] [].

  (** ** Sums: PlusMinus *)

  Record pm : Type := PM { pc : Qc; pp : list term; pn : list term }.
  Definition pm_expr (p : pm) : expr := EPM (pc p) (pp p) (pn p).

  (** expr.py 704-714 RingAlgebraAddLike.normalform. *)
  Definition pm_nf (e : expr) : res pm :=
    match e with
    | EPM c p n => Ok (PM c p n)
    | _ =>
        do t <- td_nf e;
        Ok (if is_nil (tp t) && is_nil (tn t) then PM (tc t) [] []
            else if qltb (tc t) qc0 then PM qc0 [] [T (- tc t)%Qc (tp t) (tn t)]
            else PM qc0 [t] [])
    end.

  (** expr.py 721-730 [cancel]: the index is looked up in the unchanged [x.pos], the element is
      deleted from the shrinking copy. *)
  Fixpoint cancel_go (orig pos neg : list expr) : res (list expr * list expr) :=
    match neg with
    | [] => Ok (pos, [])
    | y :: ys =>
        match find_index y orig with
        | None => do pn <- cancel_go orig pos ys; Ok (fst pn, y :: snd pn)
        | Some i => do pos' <- del_nth i pos; cancel_go orig pos' ys
        end
    end.
  Definition cancel (t : term) : res term :=
    do pn <- cancel_go (tp t) (tp t) (tn t); Ok (T (tc t) (fst pn) (snd pn)).

  (** expr.py 698-699 similar. *)
  Definition similar (a b : term) : bool := list_same_e (tp a) (tp b) && list_same_e (tn a) (tn b).

  (** expr.py 738-743: add to a similar term, or append. *)
  Fixpoint merge (x : term) (terms : list term) : list term :=
    match terms with
    | [] => [x]
    | y :: r => if similar x y then T (tc x + tc y)%Qc (tp y) (tn y) :: r else y :: merge x r
    end.

  (** expr.py 732-743 and 745-756: one pass, [sgn] being the identity or negation. *)
  Fixpoint gather (sgn : Qc -> Qc) (l : list term) (st : Qc * list term) : res (Qc * list term) :=
    match l with
    | [] => Ok st
    | x :: r =>
        do x <- cancel x;
        gather sgn r
          (if qeqb (tc x) qc0 then st
           else if is_nil (tp x) && is_nil (tn x) then ((fst st + sgn (tc x))%Qc, snd st)
           else (fst st, merge (T (sgn (tc x)) (tp x) (tn x)) (snd st)))
    end.

  (** expr.py 716-775 RingAlgebraAddLike.collect. *)
  Definition collect (a : pm) : res pm :=
    do st <- gather (fun q => q) (pp a) (pc a, []);
    do st <- gather Qcopp (pn a) st;
    let terms := filter (fun t => negb (qeqb (tc t) qc0)) (snd st) in
    Ok (PM (fst st)
           (srt_t (filter (fun t => negb (qltb (tc t) qc0)) terms))
           (srt_t (map (fun t => T (- tc t)%Qc (tp t) (tn t)) (filter (fun t => qltb (tc t) qc0) terms)))).

  (** expr.py 657-660 RingAlgebra.negate for PlusMinus. *)
  Definition pm_negate (e : expr) : res pm := do a <- pm_nf e; Ok (PM (- pc a)%Qc (pn a) (pp a)).

  (** expr.py 666-677 RingAlgebra.combine for PlusMinus. *)
  Definition pm_combine (a b : pm) : res pm :=
    collect (PM (pc a + pc b)%Qc (srt_t (pp a ++ pp b)) (srt_t (pn a ++ pn b))).

  (** itertools.product(a, b) with [td_combine] applied. *)
  Definition products (a b : list term) : list term := flat_map (fun x => map (td_combine x) b) a.

  (** expr.py 777-793 distribute.  Note that the product of the two constants is not there. *)
  Definition pm_distribute (a b : pm) : res pm :=
    collect (PM qc0
      (map (fun x => td_combine x (td_const (pc b))) (pp a)
       ++ map (fun y => td_combine (td_const (pc a)) y) (pp b)
       ++ products (pp a) (pp b) ++ products (pn a) (pn b))
      (map (fun x => td_combine x (td_const (pc b))) (pn a)
       ++ map (fun y => td_combine (td_const (pc a)) y) (pn b)
       ++ products (pp a) (pn b) ++ products (pn a) (pp b))).

  (** expr.py 804-809: a TimesDiv that is a constant or a single factor. *)
  Definition td_simplify (t : term) : expr :=
    if is_nil (tp t) && is_nil (tn t) then EConst (KS (SNum (Fin (tc t))))
    else if qeqb (tc t) qc1 then
      match tp t, tn t with
      | [x], [] => x
      | _, _ => ETD t
      end
    else ETD t.

  (** expr.py 795-811 simplify. *)
  Definition pm_simplify (a : pm) : expr :=
    if is_nil (pp a) && is_nil (pn a) then EConst (KS (SNum (Fin (pc a))))
    else if qeqb (pc a) qc0 then
      match pp a, pn a with
      | [t], [] => td_simplify t
      | [], [t] => td_simplify (T (- tc t)%Qc (tp t) (tn t))
      | _, _ => pm_expr a
      end
    else pm_expr a.

  (** ** Logic *)

  (** expr.py 904-905 Logical.__init__: [sorted(set(args))]. *)
  Definition mk_and (l : list expr) : expr := EAnd (srt (dedup l)).
  Definition mk_or (l : list expr) : expr := EOr (srt (dedup l)).

  (** [x.args] of a LogicalAnd. *)
  Definition and_args (e : expr) : list expr := match e with EAnd l => l | _ => [] end.

  (** expr.py 922-935 Logical.normalform, the arguments of the LogicalOr. *)
  Definition or_nf (e : expr) : res (list expr) :=
    match e with
    | EName s => Ok [EAnd [EPred s true]]
    | EPred _ _ | ERel _ _ _ => Ok [EAnd [e]]
    | EAnd _ => Ok [e]
    | EOr l => Ok l
    | _ => Err AssertionError
    end.

  (** expr.py 1010-1025 Relation.negate and 1055-1056 Predicate.negate. *)
  Definition negate_lit (e : expr) : res expr :=
    match e with
    | ERel CEq l r => Ok (ERel CNe l r)
    | ERel CNe l r => Ok (ERel CEq l r)
    | ERel CLt l r => Ok (ERel CLe r l)
    | ERel CLe l r => Ok (ERel CLt r l)
    | ERel CIn l r => Ok (ERel CNotIn l r)
    | ERel CNotIn l r => Ok (ERel CIn l r)
    | EPred s b => Ok (EPred s (negb b))
    | _ => Err AttributeError
    end.

  (** itertools.product of a list of lists. *)
  Fixpoint choices {A} (l : list (list A)) : list (list A) :=
    match l with
    | [] => [[]]
    | a :: r => flat_map (fun x => map (cons x) (choices r)) a
    end.

  (** expr.py 937-941 Logical.negate. *)
  Definition or_negate (e : expr) : res (list expr) :=
    do o <- or_nf e;
    do upsidedown <- mapM (fun a => mapM negate_lit (and_args a)) o;
    Ok (srt (dedup (map mk_and (choices upsidedown)))).

  (** expr.py 952-955 LogicalAnd.combine. *)
  Definition and_combine (a b : list expr) : list expr :=
    srt (dedup (flat_map (fun x => map (fun y => mk_and (and_args x ++ and_args y)) b) a)).
  (** expr.py 970-973 LogicalOr.combine. *)
  Definition or_combine (a b : list expr) : list expr := srt (dedup (a ++ b)).

  Definition k_bool (b : bool) : expr := EConst (KS (SBool b)).

  (** expr.py 957-965 LogicalAnd.simplify. *)
  Definition and_simplify (l : list expr) : expr :=
    if forallb (expr_same (k_bool true)) l then k_bool true
    else if existsb (expr_same (k_bool false)) l then k_bool false
    else match l with [x] => x | _ => EAnd l end.

  (** expr.py 975-983 LogicalOr.simplify. *)
  Definition or_simplify (l : list expr) : expr :=
    if forallb (expr_same (k_bool false)) l then k_bool false
    else if existsb (expr_same (k_bool true)) l then k_bool true
    else match l with [x] => and_simplify (and_args x) | _ => EOr l end.

  (** ** Parsing *)

  Definition const_num (c : cst) : res Qc :=
    match c with KS (SNum (Fin q)) => Ok q | _ => Err TypeError end.
  Definition k_num (q : Qc) : expr := EConst (KS (SNum (Fin q))).

  (** expr.py 102-111 and 249: both operands are constants.  The table of operations is keyed by
      the sign, while [**], [%], [//] and [^] look themselves up by the name of the function. *)
  Definition fold_const (o : binop) (a b : cst) : res expr :=
    match o with
    | OAdd => do x <- const_num a; do y <- const_num b; Ok (k_num (x + y)%Qc)
    | OSub => do x <- const_num a; do y <- const_num b; Ok (k_num (x - y)%Qc)
    | OMul => do x <- const_num a; do y <- const_num b; Ok (k_num (x * y)%Qc)
    | ODiv => do x <- const_num a; do y <- const_num b; do i <- q_inv y; Ok (k_num (x * i)%Qc)
    | OFloorDiv | OMod | OPow | OXor => Err KeyError
    | OBitAnd | OBitOr => Err NotImplementedError
    end.

  (** expr.py 258-272: the reciprocal of a denominator. *)
  Definition reciprocal (b : expr) : res expr :=
    do r <- pm_nf b;
    do t <- (if is_nil (pp r) && is_nil (pn r) then do c <- q_inv (pc r); Ok (T c [] [])
             else if qeqb (pc r) qc0 then
               match pp r, pn r with
               | [t], [] => td_negate t
               | [], [t] => do u <- td_negate t; Ok (T (- tc u)%Qc (tp u) (tn u))
               | _, _ => td_negate (T qc1 [pm_expr r] [])
               end
             else td_negate (T qc1 [pm_expr r] []));
    Ok (ETD t).

  (** expr.py 274-285: a positive power [n]. *)
  Definition power (n : nat) (a : expr) : res expr :=
    do l <- pm_nf a;
    let whole := PM qc0 [T qc1 (rep n [pm_expr l]) []] [] in
    Ok (pm_simplify
      (if qeqb (pc l) qc0 then
         match pp l, pn l with
         | [t], [] => PM qc0 [T (qpow (tc t) n) (srt (rep n (tp t))) (srt (rep n (tn t)))] []
         | [], [t] =>
             let t' := T (qpow (tc t) n) (srt (rep n (tp t))) (srt (rep n (tn t))) in
             if Nat.even n then PM qc0 [t'] [] else PM qc0 [] [t']
         | _, _ => whole
         end
       else whole)).

  (** expr.py 287-298: a negative power [-n]. *)
  Definition neg_power (n : nat) (a : expr) : res expr :=
    do l <- pm_nf a;
    let whole := PM qc0 [T qc1 [] (rep n [pm_expr l])] [] in
    do p <- (if qeqb (pc l) qc0 then
         match pp l, pn l with
         | [t], [] =>
             do c <- q_inv (qpow (tc t) n);
             Ok (PM qc0 [T c (srt (rep n (tn t))) (srt (rep n (tp t)))] [])
         | [], [t] =>
             do c <- q_inv (qpow (tc t) n);
             let t' := T c (srt (rep n (tn t))) (srt (rep n (tp t))) in
             Ok (if Nat.even n then PM qc0 [t'] [] else PM qc0 [] [t'])
         | _, _ => Ok whole
         end
       else Ok whole);
    Ok (pm_simplify p).

  (** The literal integer exponents that are expanded (expr.py 274 and 287): 1 to 4 and -4 to -1. *)
  Definition small_exponent (q : Qc) : option (bool * nat) :=
    if qeqb q (qz 1) then Some (true, 1) else if qeqb q (qz 2) then Some (true, 2)
    else if qeqb q (qz 3) then Some (true, 3) else if qeqb q (qz 4) then Some (true, 4)
    else if qeqb q (qz (-1)) then Some (false, 1) else if qeqb q (qz (-2)) then Some (false, 2)
    else if qeqb q (qz (-3)) then Some (false, 3) else if qeqb q (qz (-4)) then Some (false, 4)
    else None.

  Definition combine_simplify (a b : expr) : res expr :=
    do x <- pm_nf a; do y <- pm_nf b; do p <- pm_combine x y; Ok (pm_simplify p).
  Definition subtract_simplify (a b : expr) : res expr :=
    do x <- pm_nf a; do y <- pm_negate b; do p <- pm_combine x y; Ok (pm_simplify p).
  Definition distribute_simplify (a b : expr) : res expr :=
    do x <- pm_nf a; do y <- pm_nf b; do p <- pm_distribute x y; Ok (pm_simplify p).

  (** expr.py 232-310: a binary operator, the operands being already parsed. *)
  Definition binary (o : binop) (a b : expr) : res expr :=
    match a, b with
    | EConst x, EConst y => fold_const o x y
    | _, _ =>
        match o with
        | OAdd => combine_simplify a b
        | OSub => subtract_simplify a b
        | OMul => distribute_simplify a b
        | ODiv => do r <- reciprocal b; distribute_simplify a r
        | OPow =>
            match b with
            | EConst c =>
                do q <- const_num c;
                match small_exponent q with
                | Some (true, n) => power n a
                | Some (false, n) => neg_power n a
                | None => Ok (ECall true "pow"%string [a; b])
                end
            | _ => Ok (ECall true "pow"%string [a; b])
            end
        | OFloorDiv => Ok (ECall true "numpy.floor_divide"%string [a; b])
        | OMod => Ok (ECall true "fmod"%string [a; b])
        | OXor => Ok (ECall true "xor"%string [a; b])
        | OBitAnd | OBitOr => Err NotImplementedError
        end
    end.

  (** expr.py 218-223: unary minus. *)
  Definition minus (a : expr) : res expr :=
    match a with
    | EConst c => do q <- const_num c; Ok (k_num (- q)%Qc)
    | _ => do p <- pm_negate a; Ok (pm_simplify p)
    end.

  (** expr.py 168-192: one comparison. *)
  Definition relation (o : cmpop) (l r : expr) : res expr :=
    match o with
    | OEq => match srt [l; r] with [a; b] => Ok (ERel CEq a b) | _ => Err AssertionError end
    | ONe => match srt [l; r] with [a; b] => Ok (ERel CNe a b) | _ => Err AssertionError end
    | OLt => Ok (ERel CLt l r)
    | OLe => Ok (ERel CLe l r)
    | OGt => Ok (ERel CLt r l)
    | OGe => Ok (ERel CLe r l)
    | OIn => match r with EConst (KSet _) => Ok (ERel CIn l r) | _ => Err ExpressionError end
    | ONotIn => match r with EConst (KSet _) => Ok (ERel CNotIn l r) | _ => Err ExpressionError end
    end.

  (** functools.reduce without an initial value. *)
  Definition reduce1 {A} (f : A -> A -> A) (l : list A) : res A :=
    match l with [] => Err TypeError | x :: r => Ok (fold_left f r x) end.

  (** expr.py 207-211: and, or. *)
  Definition and_all (l : list expr) : res expr :=
    do os <- mapM or_nf l; do o <- reduce1 and_combine os; Ok (or_simplify o).
  Definition or_all (l : list expr) : res expr :=
    do os <- mapM or_nf l; do o <- reduce1 or_combine os; Ok (or_simplify o).

  (** expr.py 168-195: the comparisons of a chain, adjacent operands being related. *)
  Fixpoint chain (l : expr) (rest : list (cmpop * expr)) : res (list expr) :=
    match rest with
    | [] => Ok []
    | (o, r) :: rest => do x <- relation o l r; do xs <- chain r rest; Ok (x :: xs)
    end.

  (** expr.py 200-205: not. *)
  Definition negation (a : expr) : res expr :=
    match a with
    | EName s => Ok (EPred s false)
    | _ => do o <- or_negate a; Ok (or_simplify o)
    end.

  Definition const_scal (e : expr) : res scal :=
    match e with
    | EConst (KS s) => Ok s
    | EConst _ => Err TypeError
    | _ => Err ExpressionError
    end.

  (** The definitions that the caller gives to [Expr.parse], already parsed (expr.py 86-100). *)
  Variable defs : string -> option expr.

  (** expr.py 124-325 [recurse(node, relations)]. *)
  Fixpoint parse (relations : bool) (s : src) : res expr :=
    match s with
    | XLit c => Ok (EConst (KS c))
    | XSet l =>
        do es <- (fix go (l : list src) : res (list expr) :=
                    match l with
                    | [] => Ok []
                    | a :: l => do e <- parse false a; do es <- go l; Ok (e :: es)
                    end) l;
        do ss <- mapM const_scal es;
        Ok (EConst (scal_set ss))
    | XName n => match defs n with Some e => Ok e | None => Ok (EName n) end
    | XCmp l rest =>
        if relations then
          do e <- parse false l;
          do es <- (fix go (l : list (cmpop * src)) : res (list (cmpop * expr)) :=
                      match l with
                      | [] => Ok []
                      | (o, a) :: l => do e <- parse false a; do es <- go l; Ok ((o, e) :: es)
                      end) rest;
          do rs <- chain e es;
          match rs with
          | [] => Err ExpressionError
          | [r] => Ok r
          | _ => and_all rs
          end
        else Err ExpressionError
    | XNot a => if relations then do e <- parse true a; negation e else Err ExpressionError
    | XAnd l =>
        if relations then
          do es <- (fix go (l : list src) : res (list expr) :=
                      match l with
                      | [] => Ok []
                      | a :: l => do e <- parse true a; do es <- go l; Ok (e :: es)
                      end) l;
          and_all es
        else Err ExpressionError
    | XOr l =>
        if relations then
          do es <- (fix go (l : list src) : res (list expr) :=
                      match l with
                      | [] => Ok []
                      | a :: l => do e <- parse true a; do es <- go l; Ok (e :: es)
                      end) l;
          or_all es
        else Err ExpressionError
    | XNeg a => do e <- parse false a; minus e
    | XPos a => parse false a
    | XBin o a b => do x <- parse false a; do y <- parse false b; binary o x y
    | XCall f args =>
        do es <- (fix go (first : bool) (l : list src) : res (list expr) :=
                    match l with
                    | [] => Ok []
                    | a :: l => do e <- parse first a; do es <- go false l; Ok (e :: es)
                    end) (String.eqb f "where") args;
        Ok (ECall false f es)
    end.

  (** expr.py 73-325 Expr.parse. *)
  Definition parse_top (s : src) : res expr := parse true s.
End Algebra.

(** Python's [sorted] on expressions. *)
Definition py_sorted (l : list expr) : list expr := isort rose_of l.

(** ** Lowering to calls: /repo/histbook/instr.py 117-229 [totree] *)

Fixpoint tree_rose (t : tree) : rose :=
  match t with
  | TBcast c => RL [nat_idx 0; cst_rose c]
  | TCall f l => RL [nat_idx 1; RS f; RL (map tree_rose l)]
  | TConst c => RL [nat_idx 2; cst_rose c]
  | TName s => RL [nat_idx 5; RS s]
  | TPred s b => RL [nat_idx 7; RS s; bool_idx b]
  end.

Section ToTree.
  (** [sorted] on call trees. *)
  Variable tsrt : list tree -> list tree.

  (** instr.py 120-123. *)
  Fixpoint linear (f : string) (x : tree) (n : nat) : tree :=
    match n with
    | 0 | 1 => x
    | S n => TCall f [x; linear f x n]
    end.

  (** instr.py 138-159, with the recursion on a bound of the length.  No arguments: the function
      calls itself for ever. *)
  Fixpoint reduce_fuel (fuel : nat) (f : string) (l : list tree) : res tree :=
    match fuel with
    | 0 => Err RecursionError
    | S fuel =>
        match l with
        | [] => Err RecursionError
        | [x] => Ok x
        | _ =>
            let h := Nat.div2 (length l) in
            do a <- reduce_fuel fuel f (firstn h l);
            do b <- reduce_fuel fuel f (skipn h l);
            Ok (TCall f [a; b])
        end
    end.
  Definition reduce (f : string) (l : list tree) : res tree := reduce_fuel (S (length l)) f l.

  Fixpoint tdedup (l : list tree) : list tree :=
    match l with
    | [] => []
    | x :: r => if mem x r then tdedup r else x :: tdedup r
    end.
  Definition tcount (x : tree) (l : list tree) : nat := length (filter (tree_same x) l).

  (** instr.py 125-136. *)
  Definition duplicates (f : string) (l : list tree) : res tree :=
    match l with
    | [x] => Ok x
    | _ =>
        let u := tdedup l in
        if Nat.eqb (length u) (length l) then reduce f l
        else reduce f (map (fun x => linear f x (tcount x l)) (tsrt u))
    end.

  Definition t_num (q : Qc) : tree := TConst (KS (SNum (Fin q))).

  (** instr.py 188-200 and 204-216, the parts being already lowered: [unit] is the neutral element,
      [op] and [inv] the two functions. *)
  Definition lower_ring (red : string -> list tree -> res tree) (unit : Qc) (op inv : string)
             (c : Qc) (pos neg : list tree) : res tree :=
    do out <- (match pos with [] => Ok None | _ => do t <- red op pos; Ok (Some t) end);
    let out := match out with
               | None => t_num c
               | Some t => if qeqb c unit then t else TCall op [t; t_num c]
               end in
    match neg with
    | [] => Ok out
    | _ => do t <- red op neg; Ok (TCall inv [out; t])
    end.

  Open Scope string_scope.
  (** instr.py 161-229. *)
  Fixpoint totree (e : expr) : res tree :=
    let go_list := fix go (l : list expr) : res (list tree) :=
        match l with
        | [] => Ok []
        | a :: l => do t <- totree a; do ts <- go l; Ok (t :: ts)
        end in
    let term_tree t :=
      match t with
      | T c p n =>
          do ps <- go_list p; do ns <- go_list n;
          lower_ring duplicates qc1 "numpy.multiply" "numpy.true_divide" c ps ns
      end in
    let go_terms := fix go (l : list (term_ expr)) : res (list tree) :=
        match l with
        | [] => Ok []
        | a :: l => do t <- term_tree a; do ts <- go l; Ok (t :: ts)
        end in
    match e with
    | EConst c => Ok (TConst c)
    | EName s => Ok (TName s)
    | EPred s b => Ok (TPred s b)
    | ECall _ f l => do ts <- go_list l; Ok (TCall f ts)
    | ERel c l r =>
        do a <- totree l; do b <- totree r;
        Ok (match c with
            | CEq => TCall "numpy.equal" [a; b]
            | CNe => TCall "numpy.not_equal" [a; b]
            | CLt => TCall "numpy.less" [a; b]
            | CLe => TCall "numpy.less_equal" [a; b]
            | CIn => TCall "numpy.isin" [a; b]
            | CNotIn => TCall "numpy.logical_not" [TCall "numpy.isin" [a; b]]
            end)
    | EPM c p n =>
        do ps <- go_terms p; do ns <- go_terms n;
        lower_ring reduce qc0 "numpy.add" "numpy.subtract" c ps ns
    | ETD t => term_tree t
    | EOr l => do ts <- go_list l; reduce "numpy.logical_or" ts
    | EAnd l => do ts <- go_list l; reduce "numpy.logical_and" ts
    end.
End ToTree.

Definition tree_sorted (l : list tree) : list tree := isort tree_rose l.
