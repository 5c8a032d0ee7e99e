(** When normalization keeps the meaning: the conditions of C21 and C22.

    The normal form is not right for every expression (see Props_Expr.v for the counter-examples:
    a product of two sums loses the product of their constants, and common factors are not always
    cancelled correctly).  This file says when it is, first in terms of the parsed operands
    ([good]), then by a criterion on the written expression alone ([plain]). *)
From Coq Require Import String Permutation.
From Verif Require Import Num Base Tree Elem Order Expr ExprSpec.

Definition is_econst (e : expr) : bool := match e with EConst _ => true | _ => false end.

(** [cancel] removes the same factors from the numerator and from the denominator. *)
Definition cancels_right (t : term) : Prop :=
  exists t' common, cancel t = Ok t' /\ tc t' = tc t
    /\ Permutation (tp t) (tp t' ++ common) /\ Permutation (tn t) (tn t' ++ common).

Local Open Scope list_scope.

Section Good.
  Variable user : string -> list arg -> res val.
  Variable field : string -> res val.
  Variable srt : list expr -> list expr.
  Notation parse := (parse srt (fun _ => None)).
  Notation seval := (seval user field).

  (** The value of an expression on the row. *)
  Definition value_at (s : src) (q : Qc) : Prop := exists a, seval s = Ok a /\ arg_num a = Ok (Fin q).
  Definition finite (s : src) : Prop := exists q, value_at s q.
  Definition nonzero (s : src) : Prop := exists q, value_at s q /\ q <> qc0.
  Definition no_nan (s : src) : Prop := forall a, seval s = Ok a -> arg_val a <> Ok (VNum NaN).

  (** Multiplying out loses nothing: not both operands have a constant term, and every product of
      two terms cancels correctly. *)
  Definition product_ok (a b : expr) : Prop :=
    forall x y, pm_nf a = Ok x -> pm_nf b = Ok y ->
      (pc x = qc0 \/ pc y = qc0)
      /\ forall t u, In t (pp x ++ pn x) -> In u (pp y ++ pn y) -> cancels_right (td_combine srt t u).

  Definition bin_ok (o : binop) (a b : src) : Prop :=
    match o with
    | OAdd | OSub => finite a /\ finite b
    | OMul => finite a /\ finite b
        /\ forall ea eb, parse false a = Ok ea -> parse false b = Ok eb ->
             is_econst ea && is_econst eb = false -> product_ok ea eb
    | ODiv => finite a /\ nonzero b
        /\ forall ea eb r, parse false a = Ok ea -> parse false b = Ok eb ->
             is_econst ea && is_econst eb = false -> reciprocal eb = Ok r -> product_ok ea r
    | OPow =>
        forall c q, parse false b = Ok (EConst c) -> const_num c = Ok q ->
          match small_exponent q with
          | Some (true, _) => finite a
          | Some (false, _) => nonzero a
          | None => True
          end
    | _ => True
    end.

  Inductive good : src -> Prop :=
  | g_lit c : good (XLit c)
  | g_set l : Forall good l -> good (XSet l)
  | g_name s : good (XName s)
  | g_cmp l r : good l -> no_nan l -> Forall good (map snd r) -> Forall no_nan (map snd r) -> good (XCmp l r)
  | g_not a : good a -> good (XNot a)
  | g_and l : Forall good l -> good (XAnd l)
  | g_or l : Forall good l -> good (XOr l)
  | g_neg a : good a -> finite a -> good (XNeg a)
  | g_pos a : good a -> good (XPos a)
  | g_bin o a b : good a -> good b -> bin_ok o a b -> good (XBin o a b)
  | g_call f l : Forall good l -> good (XCall f l).
End Good.

(** ** A criterion on the written expression *)

(** No field and no function: parsing folds it to a constant. *)
Fixpoint literal (s : src) : bool :=
  match s with
  | XLit _ => true
  | XNeg a | XPos a => literal a
  | XBin _ a b => literal a && literal b
  | _ => false
  end.

(** The exponent of a power, when it is written as a number. *)
Definition exponent (b : src) : option (bool * nat) :=
  match b with
  | XLit (SNum (Fin q)) => small_exponent q
  | XNeg (XLit (SNum (Fin q))) => small_exponent (- q)%Qc
  | _ => None
  end.

(** Can the normal form have a constant term that is not zero? *)
Fixpoint offset (s : src) : bool :=
  match s with
  | XLit (SNum (Fin q)) => negb (qeqb q qc0)
  | XNeg a | XPos a => offset a
  | XBin OAdd a b | XBin OSub a b => offset a || offset b
  | XBin OMul a b | XBin ODiv a b => literal a && literal b
  | _ => false
  end.

(** The fields and functions that can be factors in numerators and in denominators. *)
Definition mark (f : string) : string := (f ++ "(")%string.
Definition op_name (o : binop) : string :=
  match o with
  | OPow => "pow" | OMod => "fmod" | OFloorDiv => "numpy.floor_divide" | OXor => "xor" | _ => ""
  end%string.
Fixpoint denn (s : src) : list string :=
  match s with
  | XNeg a | XPos a => denn a
  | XBin OAdd a b | XBin OSub a b | XBin OMul a b => denn a ++ denn b
  | XBin ODiv a b => denn a ++ numn b ++ denn b
  | XBin OPow a b =>
      match exponent b with
      | Some (true, _) => denn a
      | Some (false, _) => numn a
      | None => []
      end
  | _ => []
  end
with numn (s : src) : list string :=
  match s with
  | XName x => [x]
  | XCall f _ => [mark f]
  | XNeg a | XPos a => numn a
  | XBin OAdd a b | XBin OSub a b | XBin OMul a b => numn a ++ numn b
  | XBin ODiv a b => numn a ++ denn b
  | XBin OPow a b =>
      match exponent b with
      | Some (true, _) => numn a ++ denn a
      | Some (false, _) => []
      | None => [mark (op_name OPow)]
      end
  | XBin o _ _ => [mark (op_name o)]
  | _ => []
  end.
Definition separate (l m : list string) : Prop := forall x, In x l -> In x m -> False.

(** In every product and quotient that is not between two literal constants, at most one operand
    has a constant term, and no field or function is a factor both above and below the line.
    Powers with a literal exponent other than 1 (and the base of a negative power has no
    denominator). *)
Fixpoint plain (s : src) : Prop :=
  let many := fix go (l : list src) : Prop := match l with [] => True | a :: l => plain a /\ go l end in
  match s with
  | XLit _ | XName _ => True
  | XSet l | XAnd l | XOr l | XCall _ l => many l
  | XCmp l r => plain l /\ (fix go (l : list (cmpop * src)) : Prop :=
                               match l with [] => True | (_, a) :: l => plain a /\ go l end) r
  | XNot a | XNeg a | XPos a => plain a
  | XBin o a b =>
      plain a /\ plain b /\
      match o with
      | OMul => (literal a && literal b = true \/ offset a && offset b = false)
                /\ separate (numn a ++ numn b) (denn a ++ denn b)
      | ODiv => (literal a && literal b = true \/ offset a && offset b = false)
                /\ separate (numn a ++ denn b) (denn a ++ numn b ++ denn b)
      | OPow =>
          match b with
          | XLit (SNum (Fin _)) | XNeg (XLit (SNum (Fin _))) =>
              match exponent b with
              | Some (true, n) => n <> 1
              | Some (false, _) => denn a = []
              | None => True
              end
          | XName _ => True
          | _ => False
          end
      | _ => True
      end
  end.

(** The row: operands of arithmetic are finite, divisors are not zero, compared values are not
    NaN. *)
Section Tame.
  Variable user : string -> list arg -> res val.
  Variable field : string -> res val.
  Notation finite := (finite user field).
  Notation nonzero := (nonzero user field).
  Fixpoint tame (s : src) : Prop :=
    let many := fix go (l : list src) : Prop := match l with [] => True | a :: l => tame a /\ go l end in
    match s with
    | XLit _ | XName _ => True
    | XSet l | XAnd l | XOr l | XCall _ l => many l
    | XCmp l r => tame l /\ no_nan user field l
                  /\ (fix go (l : list (cmpop * src)) : Prop :=
                        match l with [] => True | (_, a) :: l => (tame a /\ no_nan user field a) /\ go l end) r
    | XNot a | XPos a => tame a
    | XNeg a => tame a /\ finite a
    | XBin o a b =>
        tame a /\ tame b /\
        match o with
        | OAdd | OSub | OMul => finite a /\ finite b
        | ODiv => finite a /\ nonzero b
        | OPow => match exponent b with
                  | Some (true, _) => finite a
                  | Some (false, _) => nonzero a
                  | None => True
                  end
        | _ => True
        end
    end.
End Tame.
