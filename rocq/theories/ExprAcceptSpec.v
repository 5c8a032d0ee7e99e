(** Which written expressions must be accepted: the specification for C67.

    Nothing here mentions how expressions are rewritten: the conditions are on the expression as
    written and on its value on rows. *)
From Coq Require Import String.
From Verif Require Import Num Base Tree Elem Order Expr ExprSpec ExprGood.
Local Open Scope list_scope.

Section Spec.
  Variable user : string -> list arg -> res val.

  (** Not a constant: there are two rows, on which the expression is evaluated without overflow,
      NaN or division by zero, that give it different values. *)
  Definition varies (s : src) : Prop :=
    exists f1 f2 v1 v2, tame user f1 s /\ tame user f2 s
      /\ seval user f1 s = Ok v1 /\ seval user f2 s = Ok v2 /\ ~ same_arg v1 v2.

  (** The expression uses every operator where the language has it.
      - Comparisons and logic stand at the top, in logic, or as the condition of [where].
      - The operands of and, or, not are names, comparisons or logic.
      - The elements of a set are literal constants.
      - There is no bitwise and / or; [**], [%], [//] and [^] are not between two constants. *)
  Fixpoint accept (relations : bool) (s : src) : Prop :=
    let all := fix go (b : bool) (l : list src) : Prop :=
        match l with [] => True | a :: l => accept b a /\ go b l end in
    match s with
    | XLit _ | XName _ => True
    | XSet l => forallb literal l = true /\ all false l
    | XCmp l r =>
        relations = true /\ r <> [] /\ accept false l
        /\ (fix go (l : list (cmpop * src)) : Prop :=
              match l with [] => True | (_, a) :: l => accept false a /\ go l end) r
    | XNot a => relations = true /\ logical a = true /\ accept true a
    | XAnd l | XOr l => relations = true /\ l <> [] /\ forallb logical l = true /\ all true l
    | XNeg a | XPos a => accept false a
    | XBin o a b =>
        accept false a /\ accept false b /\
        match o with
        | OBitAnd | OBitOr => False
        | OFloorDiv | OMod | OPow | OXor => varies a \/ varies b
        | _ => True
        end
    | XCall f l =>
        match l with
        | [] => True
        | a :: l => accept (String.eqb f "where") a /\ all false l
        end
    end.
End Spec.
