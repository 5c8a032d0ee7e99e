(** The constructor of Hist, from the written expressions to the goals.

    Models /repo/histbook/hist.py 133-260 (Hist.__init__) and the [_goals] methods of the axes
    (/repo/histbook/axis.py 284-289, 413-418, 668-673, 891-896, 1129-1134, 1350-1355, 1461-1467).

    Simplifications: expressions are given as Python syntax trees, not as text, so that
    "where(({0}), 1, 0) * ({1})".format(filter, weight) is the tree of that product; the axes are
    new (an axis that another histogram has parsed keeps its expression, 163-164); the definitions
    are already parsed (see Expr.v); [fill], [attachment] and [systematic] are left out. *)
From Coq Require Import String.
From Verif Require Import Num Base Tree Axis Fill HistFill Order Expr.

(** What can be given as weight: a number or an expression (hist.py 221-226). *)
Inductive wsrc : Type :=
| WNumber (v : Num)
| WExpr (s : src).

Definition s_num (x : Num) : src := XLit (SNum x).
(** hist.py 233-234: [repr(weight)], as Python reads it. *)
Definition repr_src (v : Num) : src :=
  match v with
  | Fin q => if qltb q qc0 then XNeg (s_num (Fin (- q)%Qc)) else s_num v
  | PInf => XName "inf"
  | NInf => XNeg (XName "inf")
  | NaN => XName "nan"
  end.
Definition wsrc_src (w : wsrc) : src := match w with WNumber v => repr_src v | WExpr s => s end.
(** hist.py 235: "where(({0}), 1, 0) * ({1})". *)
Definition weighted_filter (f w : src) : src :=
  XBin OMul (XCall "where" [f; s_num (nz 1); s_num (nz 0)]) w.

Section New.
  Variable srt : list expr -> list expr.
  Variable tsrt : list tree -> list tree.
  Variable defs : string -> option expr.
  Notation parsed s := (parse_top srt defs s).

  (** The expression of an axis in its goal: a constant is broadcast (axis.py 287-288, ...). *)
  Definition axis_tree (e : expr) : res tree :=
    match e with EConst c => Ok (TBcast c) | _ => totree tsrt e end.

  Definition is_profile (a : axis) : bool := match a with AProfile _ => true | _ => false end.
  Definition trees (keep : axis -> bool) (l : list (axis * expr)) : res (list (axis * tree)) :=
    mapM (fun p => do t <- axis_tree (snd p); Ok (fst p, t)) (filter (fun p => keep (fst p)) l).

  (** hist.py 208-209. *)
  Definition filter_type_ok (e : expr) : bool :=
    match e with
    | EOr _ | EAnd _ | ERel _ _ _ | EPred _ _ => true
    | EConst (KS (SBool _)) => true
    | EConst (KS (SNum (Fin q))) => qeqb q qc0 || qeqb q qc1     (* 0 and 1 are in (False, True) *)
    | _ => false
    end.

  (** A weight as it is stored: hist.py 406-408 treats a constant apart.  No Python literal is NaN;
      strings and None, which fail in the fill, are refused here. *)
  Definition weight_of (e : expr) : res wexpr :=
    match e with
    | EConst (KS (SNum NaN)) => Err AssertionError
    | EConst (KS (SNum v)) => Ok (WxConst v)
    | EConst (KS (SBool b)) => Ok (WxConst (nz (b2z b)))
    | EConst _ => Err TypeError
    | _ => do t <- totree tsrt e; Ok (WxTree t)
    end.

  (** hist.py 212-243. *)
  Definition new_weight (weight : option wsrc) (filter : option (src * expr)) : res (option wexpr) :=
    match weight, filter with
    | None, None => Ok None
    | None, Some (_, f) =>
        do t <- totree tsrt (ECall false "where" [f; EConst (KS (SNum (nz 1))); EConst (KS (SNum (nz 0)))]);
        Ok (Some (WxTree t))
    | Some (WNumber v), None => Ok (Some (WxConst v))
    | Some (WExpr w), None => do e <- parsed w; do x <- weight_of e; Ok (Some x)
    | Some w, Some (f, _) => do e <- parsed (weighted_filter f (wsrc_src w)); do x <- weight_of e; Ok (Some x)
    end.

  (** hist.py 158-243. *)
  Definition new_hist (axes : list (axis * src)) (weight : option wsrc) (filter : option src) : res hist :=
    do es <- mapM (fun p => do e <- parsed (snd p); Ok (fst p, e)) axes;      (* 161-168 *)
    do g <- trees is_group es;                                                (* 181-187 *)
    do f <- trees is_fixed es;                                                (* 189-195 *)
    do p <- trees is_profile es;                                              (* 197-204 *)
    do fl <- match filter with                                                (* 206-210 *)
             | None => Ok None
             | Some s => do e <- parsed s; if filter_type_ok e then Ok (Some (s, e)) else Err TypeError
             end;
    do w <- new_weight weight fl;
    Ok {| h_group := g; h_fixed := f; h_prof := map snd p; h_weight := w |}.
End New.
