(** Building a histogram in steps: the methods weight, filter, systematic and cleared, and the option fill=.

    Models /repo/histbook/hist.py 58-68 (weight, filter, systematic), 96-98 (cleared), 154-243 (the constructor
    given axes that another histogram has parsed), 254-265 (the option fill=).
    As in HistNew.v expressions are syntax trees and the definitions are already parsed and stay the
    same; attachments are in Meta.v.  The option fill= is given a dict of arrays or one array
    (no Spark or Pandas data). *)
From Coq Require Import String.
From Verif Require Import Num Base Tree Axis Content Fill Elem HistFill Order Expr HistNew.
Local Open Scope list_scope.

(** An axis given to the constructor: new, or with its [_parsed] (hist.py 159-167). *)
Inductive given : Type := Fresh (a : axis) (s : src) | Parsed (a : axis) (e : expr).
(** A histogram: its axes in the order group, fixed, profile, [_weightoriginal], [_filteroriginal], and what it computes. *)
Record built : Type := { b_axes : list (axis * expr); b_weight : option wsrc; b_filter : option src; b_hist : hist }.
Inductive call : Type :=
| CallWeight (w : option wsrc)      (* h.weight(w) *)
| CallFilter (f : option src)       (* h.filter(f) *)
| CallSame.                         (* h.systematic(..), h.cleared() *)
Inductive fill_arg : Type := FillDict (A : arrays) | FillArray (x : inarr).

Section Fluent.
  Variable srt : list expr -> list expr.
  Variable tsrt : list tree -> list tree.
  Variable defs : string -> option expr.
  Variable str_of : expr -> string.                   (* str of an expression: expr.py 494, 528, 557, ... *)

  Definition axis_expr (g : given) : res (axis * expr) :=
    match g with
    | Fresh a s => do e <- parse_top srt defs s; Ok (a, e)
    | Parsed a e => Ok (a, e)
    end.
  Definition in_order (es : list (axis * expr)) : list (axis * expr) :=
    filter (fun p => is_group (fst p)) es ++ filter (fun p => is_fixed (fst p)) es ++ filter (fun p => is_profile (fst p)) es.
  (** hist.py 158-250 *)
  Definition new_from (l : list given) (weight : option wsrc) (filter : option src) : res built :=
    do es <- mapM axis_expr l;
    do g <- trees tsrt is_group es;
    do f <- trees tsrt is_fixed es;
    do p <- trees tsrt is_profile es;
    do fl <- match filter with
             | None => Ok None
             | Some s => do e <- parse_top srt defs s; if filter_type_ok e then Ok (Some (s, e)) else Err TypeError
             end;
    do w <- new_weight srt tsrt defs weight fl;
    Ok {| b_axes := in_order es; b_weight := weight; b_filter := filter;
          b_hist := {| h_group := g; h_fixed := f; h_prof := map snd p; h_weight := w |} |}.

  Definition as_parsed (b : built) : list given := map (fun p => Parsed (fst p) (snd p)) (b_axes b).
  (** 58-68, 96-98 *)
  Definition call_on (b : built) (c : call) : res built :=
    match c with
    | CallWeight w => new_from (as_parsed b) w (b_filter b)
    | CallFilter f => new_from (as_parsed b) (b_weight b) f
    | CallSame => new_from (as_parsed b) (b_weight b) (b_filter b)
    end.
  Fixpoint calls (b : built) (cs : list call) : res built :=
    match cs with
    | [] => Ok b
    | c :: t => do b' <- call_on b c; calls b' t
    end.

  (** 254-265: the content of a new histogram is None (251). *)
  Definition new_filled (cast : Num -> Z) (rnd : Qc -> Num) (user : string -> list arg -> res val) (order : tree -> list tree -> list tree) (srcs : hist -> list tree)
      (b : built) (fill : option fill_arg) : res content :=
    let run A := match hist_fill cast rnd user order (srcs (b_hist b)) (b_hist b) A CNone with
                 | (c, None) => Ok c
                 | (_, Some e) => Err e
                 end in
    match fill with
    | None => Ok CNone
    | Some (FillDict A) => run A
    | Some (FillArray x) =>
      match b_axes b with
      | [(_, e)] => run (fun s => if String.eqb s (str_of e) then Some x else None)
      | _ => Err TypeError
      end
    end.
End Fluent.
