(** What books print, as calls of their constructors, and how Python reads such a call.
    /repo/histbook/book.py 59-87, 143-144, 522-523, 619-620, 626-637 and hist.py 317-318.

    Simplifications, as in Repr.v: a printed call is its class and its arguments, not the text; the
    line breaks and indents, which are all that [indent] and [first] change, are left out. *)
From Coq Require Import String.
From Verif Require Import Base Num Axis Content Fill HistAlg Json Book BookTree Repr.
Local Open Scope string_scope.
Local Open Scope list_scope.

(** Hist(...), or Class({name: ..., ...}) *)
Inductive book_call : Type :=
| BCHist (c : hist_call)
| BCBook (class : string) (items : list (string * book_call)).

(** __str__ (book.py 143-144): the name of the class and the entries in their order; a histogram
    prints its repr (hist.py 317-318).  Attachments are not printed. *)
Fixpoint node_print (x : node) : book_call :=
  match x with
  | NHist h => BCHist (hist_repr h)
  | NBook c l _ => BCBook (class_name c) (map (fun nx => (fst nx, node_print (snd nx))) l)
  end.

Section Read.
  Variable axis_check : list (string * wsrc) -> string -> option err.
  Variable weight_check : list (string * wsrc) -> option wsrc -> option wsrc -> option err.
  (** The constructors, given a dict.  book.py 69-75: every item is assigned.  SamplesBook (628-633)
      takes the dict for its list of samples: every name is given an empty book. *)
  Definition construct (c : bclass) (d : list (string * node)) : res node :=
    match c with
    | KSamples => tfromdicts KSamples (map (fun nx => (fst nx, NBook KBook [] [])) d) []
    | _ => tfromdicts c d []
    end.
  (** The items of a dict display are evaluated in order; of two items with one key the second value
      stays in the first place. *)
  Fixpoint call_node (c : book_call) : res node :=
    match c with
    | BCHist c => rmap NHist (call_hist axis_check weight_check c)
    | BCBook name items =>
        do c <- class_of name;
        do d <- (fix go (l : list (string * book_call)) (d : list (string * node)) : res (list (string * node)) :=
                   match l with
                   | [] => Ok d
                   | (n, x) :: l => do v <- call_node x; go l (sassoc_set n v d)
                   end) items [];
        construct c d
    end.
End Read.
