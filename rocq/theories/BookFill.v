(** Book.fill with Numpy arrays: one shared computation for all the histograms of a book.

    Models /repo/histbook/book.py 525-537 (_changed, _goals, _streamline) and 569-584 (fill), with
    Fillable.fields and _fill of /repo/histbook/fill.py 41-59, 85-162.
    Histograms are numbered; [hs] are their definitions, which never change, [cs] their contents.
    Simplified: each histogram has destinations of its own (for sums and multiples, which share them,
    see BookDest.v); contents are values (for contents that two histograms share see Heap.v and
    BookHeap.v); what a failed fill leaves in the destinations is not kept; a book too deep for the
    recursion limit fails before anything is prefilled. *)
From Coq Require Import String.
From Verif Require Import Num Base Tree Instr Axis Calc Content Fill Elem HistFill Book.
Local Open Scope list_scope.

(** self.itervalues(recursive=True, onlyhist=True) (book.py 530, 534, 580, 583) *)
Definition hist_ids (l : list entry) : list nat := flat_map (fun x => match x with EHist h => [h] | EBook _ => [] end) l.
Definition book_hists (limit : nat) (B : books) (b : nat) : res (list nat) := rmap hist_ids (values limit true true B b).

Fixpoint setc (cs : list content) (i : nat) (c : content) : list content :=
  match cs, i with
  | [], _ => []
  | _ :: cs, O => c :: cs
  | d :: cs, S i => d :: setc cs i c
  end.

(** _goals (book.py 528-530): the union; functools.reduce of nothing is a TypeError.
    The union is a set: here the goals one after another, repetitions do not matter (Instr.v). *)
Definition book_goals (hs : list hist) (ids : list nat) : res (list tree) :=
  match ids with
  | [] => Err TypeError
  | _ => Ok (flat_map (fun i => match nth_error hs i with Some h => hist_goals h | None => [] end) ids)
  end.

(** _prefill of every histogram (book.py 580-581, hist.py 379-384) *)
Fixpoint prefill_all (hs : list hist) (ids : list nat) (cs : list content) : list content :=
  match ids with
  | [] => cs
  | i :: ids =>
    prefill_all hs ids
      match nth_error hs i, nth_error cs i with
      | Some h, Some c => setc cs i (prefill (hist_layout h) (List.length (h_group h)) c)
      | _, _ => cs
      end
  end.

(** _postfill of every histogram (book.py 583-584).  [stored]: the histograms whose destinations the
    instructions store into; _postfill clears the destinations of a histogram (hist.py 493-494), so
    a second one finds nothing. *)
Fixpoint postfill_all (hs : list hist) (len : nat) (out : list (tree * V)) (stored : list nat) (ids : list nat) (cs : list content)
  : list content * option err :=
  match ids with
  | [] => (cs, None)
  | i :: ids =>
    match nth_error hs i, nth_error cs i with
    | Some h, Some c =>
      match read_dest h (if existsb (Nat.eqb i) stored then out else []) with
      | Err e => (cs, Some e)
      | Ok d =>
        let '(c1, e) := postfill (hist_layout h) len d c in
        match e with
        | None => postfill_all hs len out (filter (fun j => negb (Nat.eqb i j)) stored) ids (setc cs i c1)
        | Some e => (setc cs i c1, Some e)
        end
      end
    | _, _ => (cs, Some NameError)
    end
  end.

Section BookFill.
  Variable cast : Num -> Z.
  Variable rnd : Qc -> Num.
  Variable user : string -> list arg -> res val.
  Variable order : tree -> list tree -> list tree.     (* iteration orders: see Instr.v *)
  Variable limit : nat.                                (* Python's recursion limit *)

  (** fields (fill.py 41-59) with _streamline (book.py 532-537): computed once, until _changed.
      [srcs] is the set of sources in some order. *)
  Definition book_fields (srcs : list tree) (hs : list hist) (B : books) (b : nat) : books * res (list instr * list nat) :=
    match nth_error B b with
    | None => (B, Err NameError)
    | Some o =>
      match b_cache o with
      | Some c => (B, Ok c)
      | None =>
        match (do ids <- book_hists limit B b;
               do goals <- book_goals hs ids;
               do is <- instructions order srcs goals;
               do _ <- fields srcs;
               Ok (is, ids)) with
        | Ok c => (put B b {| b_content := b_content o; b_cache := Some c |}, Ok c)
        | Err e => (B, Err e)
        end
      end
    end.

  (** book.py 569-584 *)
  Definition book_fill (srcs : list tree) (hs : list hist) (A : arrays) (B : books) (b : nat) (cs : list content)
    : books * list content * option err :=
    match book_hists limit B b with
    | Err e => (B, cs, Some e)
    | Ok ids =>
      let cs0 := prefill_all hs ids cs in
      let '(B1, r) := book_fields srcs hs B b in
      match (do c <- r; do f <- fill_arrays cast rnd user A (fst c); Ok (snd c, f)) with
      | Err e => (B1, cs0, Some e)
      | Ok (stored, (len, out)) =>
        let '(cs1, e) := postfill_all hs len out stored ids cs0 in (B1, cs1, e)
      end
    end.
End BookFill.
