(** Book.fill where histograms share their destinations.

    The result of h + g and of h * x takes over all attributes of h (/repo/histbook/hist.py 530-531, 585-586:
    out.__dict__.update(self.__dict__)), so also the list of destinations (hist.py 167) that
    Book.fill stores into (book.py 532-537, fill.py 151-154) and that _postfill reads and clears
    (hist.py 386-494).  [dst i]: the list of destinations of histogram [i].  The rest is as in BookFill.v. *)
From Coq Require Import String.
From Verif Require Import Num Base Tree Instr Axis Calc Content Fill Elem HistFill Book BookFill.
Local Open Scope list_scope.

(** _postfill of every histogram (book.py 583-584): it finds what was stored for any histogram with the
    same destinations, and clears it for all of them (hist.py 493-494). *)
Fixpoint postfill_shared (dst : nat -> nat) (hs : list hist) (len : nat) (out : list (tree * V)) (stored : list nat) (ids : list nat) (cs : list content)
  : list content * option err :=
  match ids with
  | [] => (cs, None)
  | i :: ids =>
    match nth_error hs i, nth_error cs i with
    | Some h, Some c =>
      match read_dest h (if existsb (fun j => Nat.eqb (dst i) (dst j)) stored then out else []) with
      | Err e => (cs, Some e)
      | Ok d =>
        let '(c1, e) := postfill (hist_layout h) len d c in
        match e with
        | None => postfill_shared dst hs len out (filter (fun j => negb (Nat.eqb (dst i) (dst j))) stored) ids (setc cs i c1)
        | Some e => (setc cs i c1, Some e)
        end
      end
    | _, _ => (cs, Some NameError)
    end
  end.
(** book.py 569-584 *)
Definition book_fill_shared (cast : Num -> Z) (rnd : Qc -> Num) (user : string -> list arg -> res val) (order : tree -> list tree -> list tree) (limit : nat)
    (dst : nat -> nat) (srcs : list tree) (hs : list hist) (A : arrays) (B : books) (b : nat) (cs : list content)
  : books * list content * option err :=
  match book_hists limit B b with
  | Err e => (B, cs, Some e)
  | Ok ids =>
    let cs0 := prefill_all hs ids cs in
    let '(B1, r) := book_fields order limit srcs hs B b in
    match (do c <- r; do f <- fill_arrays cast rnd user A (fst c); Ok (snd c, f)) with
    | Err e => (B1, cs0, Some e)
    | Ok (stored, (len, out)) =>
      let '(cs1, e) := postfill_shared dst hs len out stored ids cs0 in (B1, cs1, e)
    end
  end.
