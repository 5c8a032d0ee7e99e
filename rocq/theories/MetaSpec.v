(** Whose attachment is it: the specification for C70.

    The caller's own dicts are numbered in the order in which they were made, and so are histograms and
    books.  A tag says where an attachment comes from; two holders see the same attachment if they have
    the same tag. *)
From Coq Require Import String List Arith.
From Verif Require Import Base Meta.
Import ListNotations.

Inductive tag : Type :=
| Own (i : nat)           (* made together with holder i *)
| Caller (n : nat).       (* the n-th dict of the caller *)
Record origins : Type := { g_tags : list tag; g_dests : list nat }.
Definition tag_of (g : origins) (r : ref) : option tag := match r with RDict n => Some (Caller n) | ROf i => nth_error (g_tags g) i end.

(** What a step that makes a holder says about it: given a dict, it has that dict; the result of + and *
    and a view have that of their origin; everything else is new.  Only + and * (and views) also share
    the list of destinations. *)
Definition new_tag (g : origins) (i : nat) (o : op) : tag :=
  match o with
  | ONew (Some (RDict n)) _ => Caller n
  | ONew (Some (ROf j)) _ | OShare j => nth j (g_tags g) (Own i)
  | _ => Own i
  end.
Definition new_dest (g : origins) (i : nat) (o : op) : nat := match o with OShare j => nth j (g_dests g) i | _ => i end.
Definition track (s s' : mstate) (o : op) (g : origins) : origins :=
  let i := List.length (holders s) in
  if List.length (holders s') =? i then g
  else {| g_tags := g_tags g ++ [new_tag g i o]; g_dests := g_dests g ++ [new_dest g i o] |}.

(** All programs. *)
Inductive reached : mstate -> origins -> Prop :=
| r_start : reached start {| g_tags := []; g_dests := [] |}
| r_step s g o : reached s g -> reached (fst (mstep s o)) (track s (fst (mstep s o)) o g).

(** What a dict holds under a key. *)
Definition value (s : mstate) (r : ref) (k : string) : option string :=
  match deref s r with Some a => dfind k (dict_at s a) | None => None end.
Definition exists_ref (s : mstate) (r : ref) : Prop := deref s r <> None.
(** The state after writing [v] (or nothing) under [k] into the attachment of [r]: seen by those of the same
    tag, and nothing else changes. *)
Definition written_to (s s' : mstate) (g : origins) (r : ref) (k : string) (v : option string) : Prop :=
  forall r' k', exists_ref s r' -> (tag_of g r' = tag_of g r -> k' = k -> value s' r' k' = v) /\ (tag_of g r' <> tag_of g r \/ k' <> k -> value s' r' k' = value s r' k').
(** Everything that was there is as it was. *)
Definition undisturbed (s s' : mstate) : Prop := forall r k, exists_ref s r -> exists_ref s' r /\ value s' r k = value s r k.
(** One more holder, and what it holds. *)
Definition makes (s s' : mstate) (d : string -> option string) : Prop :=
  List.length (holders s') = S (List.length (holders s)) /\ forall k, value s' (ROf (List.length (holders s))) k = d k.

(** The attachment that a step writes into, and the key. *)
Definition target (o : op) : option (ref * string) :=
  match o with
  | OWrite r k _ => Some (r, k)
  | OAttach i k _ | ODetach i k => Some (ROf i, k)
  | ONew (Some r) (Some _) => Some (r, "systematic"%string)
  | _ => None
  end.
Fixpoint after (s : mstate) (g : origins) (ops : list op) : mstate * origins :=
  match ops with
  | [] => (s, g)
  | o :: t => after (fst (mstep s o)) (track s (fst (mstep s o)) o g) t
  end.
(** No step of the program writes under [k] into the attachment with tag [t]. *)
Fixpoint untouched (s : mstate) (g : origins) (ops : list op) (t : option tag) (k : string) : Prop :=
  match ops with
  | [] => True
  | o :: rest =>
    match target o with Some (r, k') => tag_of g r <> t \/ k' <> k | None => True end /\
    untouched (fst (mstep s o)) (track s (fst (mstep s o)) o g) rest t k
  end.
(** The last of several that has something under [k]. *)
Fixpoint last_of (s : mstate) (l : list nat) (k : string) : option string :=
  match l with
  | [] => None
  | i :: t => match last_of s t k with Some v => Some v | None => value s (ROf i) k end
  end.
(** The newest holder shares its attachment with nobody. *)
Definition alone (s s' : mstate) (g' : origins) : Prop :=
  forall r, exists_ref s r -> tag_of g' r <> tag_of g' (ROf (List.length (holders s))).
