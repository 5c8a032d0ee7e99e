(** What expressions mean, row by row: the specification for parsing and lowering.

    [seval] is the meaning of the expression as the user wrote it, [denote] that of a normal form.
    Neither mentions how the code rewrites expressions. *)
From Coq Require Import String Permutation.
From Verif Require Import Num Base Tree Elem Order Expr.

Definition nprod (l : list Num) : Num := fold_right nmul none1 l.

(** A row function gives the same result for a scalar literal and for an element of that value
    (broadcasting), and for two spellings of the same set. *)
Definition same_arg (a b : arg) : Prop :=
  a = b
  \/ (exists v, arg_val a = Ok v /\ arg_val b = Ok v)
  \/ (exists l m, a = AC (KSet l) /\ b = AC (KSet m) /\ forall s, In s l <-> In s m).

Section Meaning.
  Variable user : string -> list arg -> res val.
  Variable field : string -> res val.

  Definition truths (l : list arg) : res (list bool) := mapM arg_truth l.

  (** One comparison of two elements; the right-hand side of [in] is a literal set. *)
  Definition compare (o : cmpop) (a b : arg) : res bool :=
    match o with
    | OIn => match b with
             | AC (KSet l) => do x <- arg_val a; Ok (existsb (scal_eqb x) l)
             | _ => Err TypeError
             end
    | ONotIn => match b with
                | AC (KSet l) => do x <- arg_val a; Ok (negb (existsb (scal_eqb x) l))
                | _ => Err TypeError
                end
    | _ =>
        do x <- arg_val a; do y <- arg_val b;
        match o with
        | OEq => val_eqb x y
        | ONe => rmap negb (val_eqb x y)
        | OLt => val_ltb x y
        | OLe => val_leb x y
        | OGt => val_ltb y x
        | _ => val_leb y x
        end
    end.

  Fixpoint compare_chain (a : arg) (rest : list (cmpop * arg)) : res bool :=
    match rest with
    | [] => Ok true
    | (o, b) :: rest => do x <- compare o a b; do y <- compare_chain b rest; Ok (x && y)
    end.

  Definition arg_scal (a : arg) : res scal :=
    match a with
    | AC (KS s) => Ok s
    | AV (VNum x) => Ok (SNum x)
    | AV (VStr s) => Ok (SStr s)
    | AV (VBool b) => Ok (SBool b)
    | _ => Err TypeError
    end.

  Open Scope string_scope.
  Definition operate (o : binop) (a b : arg) : res val :=
    match o with
    | OAdd => num2 nadd a b
    | OSub => num2 nsub a b
    | OMul => num2 nmul a b
    | ODiv => num2 ndiv a b
    | OPow => user "pow" [a; b]
    | OMod => user "fmod" [a; b]
    | OFloorDiv => user "numpy.floor_divide" [a; b]
    | OXor => user "xor" [a; b]
    | OBitAnd => user "&" [a; b]
    | OBitOr => user "|" [a; b]
    end.

  (** The expression as written. *)
  Fixpoint seval (s : src) : res arg :=
    let many := fix go (l : list src) : res (list arg) :=
        match l with
        | [] => Ok []
        | a :: l => do v <- seval a; do vs <- go l; Ok (v :: vs)
        end in
    match s with
    | XLit c => Ok (AC (KS c))
    | XSet l => do vs <- many l; do ss <- mapM arg_scal vs; Ok (AC (KSet ss))
    | XName n => rmap AV (field n)
    | XCmp l rest =>
        do a <- seval l;
        do bs <- (fix go (l : list (cmpop * src)) : res (list (cmpop * arg)) :=
                    match l with
                    | [] => Ok []
                    | (o, a) :: l => do v <- seval a; do vs <- go l; Ok ((o, v) :: vs)
                    end) rest;
        do b <- compare_chain a bs; Ok (AV (VBool b))
    | XNot a => do v <- seval a; do b <- arg_truth v; Ok (AV (VBool (negb b)))
    | XAnd l => do vs <- many l; do bs <- truths vs; Ok (AV (VBool (forallb (fun b => b) bs)))
    | XOr l => do vs <- many l; do bs <- truths vs; Ok (AV (VBool (existsb (fun b => b) bs)))
    | XNeg a => do v <- seval a; do x <- arg_num v; Ok (AV (VNum (nneg x)))
    | XPos a => seval a
    | XBin o a b => do x <- seval a; do y <- seval b; rmap AV (operate o x y)
    | XCall f args => do vs <- many args; rmap AV (efun user f vs)
    end.

  (** A normal form. *)
  Definition compare_nf (c : cmp) (a b : arg) : res bool :=
    match c with
    | CEq => compare OEq a b
    | CNe => compare ONe a b
    | CLt => compare OLt a b
    | CLe => compare OLe a b
    | CIn => compare OIn a b
    | CNotIn => compare ONotIn a b
    end.

  Fixpoint denote (e : expr) : res arg :=
    let many := fix go (l : list expr) : res (list arg) :=
        match l with
        | [] => Ok []
        | a :: l => do v <- denote a; do vs <- go l; Ok (v :: vs)
        end in
    let term_num t := match t with
                      | T c p n =>
                          do ps <- many p; do ps <- mapM arg_num ps;
                          do ns <- many n; do ns <- mapM arg_num ns;
                          Ok (ndiv (nmul (nprod ps) (Fin c)) (nprod ns))
                      end in
    let term_nums := fix go (l : list (term_ expr)) : res (list Num) :=
        match l with
        | [] => Ok []
        | a :: l => do v <- term_num a; do vs <- go l; Ok (v :: vs)
        end in
    match e with
    | EConst c => Ok (AC c)
    | EName s => rmap AV (field s)
    | EPred s b => do v <- field s; do t <- val_truth v; Ok (AV (VBool (if b then t else negb t)))
    | ECall _ f l => do vs <- many l; rmap AV (efun user f vs)
    | ERel c l r => do x <- denote l; do y <- denote r; do b <- compare_nf c x y; Ok (AV (VBool b))
    | EPM c p n =>
        do ps <- term_nums p; do ns <- term_nums n;
        Ok (AV (VNum (nsub (nadd (nsum ps) (Fin c)) (nsum ns))))
    | ETD t => do x <- term_num t; Ok (AV (VNum x))
    | EAnd l => do vs <- many l; do bs <- truths vs; Ok (AV (VBool (forallb (fun b => b) bs)))
    | EOr l => do vs <- many l; do bs <- truths vs; Ok (AV (VBool (existsb (fun b => b) bs)))
    end.
End Meaning.

(** What is asked of the library functions: they do not tell a literal from a constant column, and
    [pow] with a small integer exponent is the power. *)
Definition broadcasts (user : string -> list arg -> res val) : Prop :=
  forall f l m, Forall2 same_arg l m -> user f l = user f m.
Fixpoint npow (x : Num) (n : nat) : Num := match n with 0 => none1 | S n => nmul x (npow x n) end.
Definition powers (user : string -> list arg -> res val) : Prop :=
  forall a b q x (positive : bool) n, 1 <= n <= 4 ->
    arg_num a = Ok x -> arg_num b = Ok (Fin q) ->
    q = (if positive then qz (Z.of_nat n) else qz (- Z.of_nat n)) ->
    user "pow"%string [a; b] = Ok (VNum (if positive then npow x n else ndiv none1 (npow x n))).

(** ** Expressions that the normal form keeps *)

(** No predicate is negated, and the parts of a conjunction or disjunction are logical and at least
    one. *)
Section Shape.
  Definition bool_shape (e : expr) : bool :=
    match e with EPred _ _ | ERel _ _ _ | EAnd _ | EOr _ => true | _ => false end.
  Fixpoint lowerable (e : expr) : Prop :=
    let many := fix go (l : list expr) : Prop :=
        match l with [] => True | a :: l => lowerable a /\ go l end in
    let term_ok t := match t with T _ p n => many p /\ many n end in
    let terms := fix go (l : list (term_ expr)) : Prop :=
        match l with [] => True | a :: l => term_ok a /\ go l end in
    match e with
    | EConst _ | EName _ => True
    | EPred _ b => b = true
    | ECall _ _ l => many l
    | ERel _ l r => lowerable l /\ lowerable r
    | EPM _ p n => terms p /\ terms n
    | ETD t => term_ok t
    | EAnd l | EOr l => l <> [] /\ forallb bool_shape l = true /\ many l
    end.
  (** The names used as predicates. *)
  Fixpoint preds (e : expr) : list string :=
    let term_preds t := match t with T _ p n => flat_map preds p ++ flat_map preds n end in
    match e with
    | EConst _ | EName _ => []
    | EPred s _ => [s]
    | ECall _ _ l | EAnd l | EOr l => flat_map preds l
    | ERel _ l r => preds l ++ preds r
    | EPM _ p n => flat_map term_preds p ++ flat_map term_preds n
    | ETD t => term_preds t
    end.
End Shape.

(** The names that an expression uses as truth values (operands of and, or, not), each with the sign
    it has once negations are moved inwards.  [ctx] is the sign of the position, [None] outside
    logic. *)
Fixpoint names_at (ctx : option bool) (s : src) : list (string * bool) :=
  let sign := match ctx with Some b => b | None => true end in
  match s with
  | XLit _ | XSet _ => []
  | XName n => match ctx with Some b => [(n, b)] | None => [] end
  | XCmp l r => (names_at None l ++ flat_map (fun p => names_at None (snd p)) r)%list
  | XNot a => names_at (Some (negb sign)) a
  | XAnd l | XOr l => flat_map (names_at (Some sign)) l
  | XNeg a | XPos a => names_at None a
  | XBin _ a b => (names_at None a ++ names_at None b)%list
  | XCall f l => flat_map (names_at None) l
  end.

(** The operands of and, or, not are names, comparisons or logic, not arithmetic. *)
Definition logical (s : src) : bool :=
  match s with XName _ | XCmp _ _ | XNot _ | XAnd _ | XOr _ => true | _ => false end.
Fixpoint typed (s : src) : bool :=
  match s with
  | XLit _ | XSet _ | XName _ => true
  | XCmp l r => typed l && forallb (fun p => typed (snd p)) r
  | XNot a => logical a && typed a
  | XAnd l | XOr l => forallb logical l && forallb typed l
  | XNeg a | XPos a => typed a
  | XBin _ a b => typed a && typed b
  | XCall f l => forallb typed l
  end.
