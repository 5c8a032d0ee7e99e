(** Attachments, and what histograms and books share behind them.

    Models /repo/histbook/hist.py 58-98 (weight, filter, systematic, copy, copyonfill, cleared), 127-151
    (the options attachment and systematic of the constructor), 167, 272-305 (attach, detach, has, get,
    attachment), 530-532 and 585-587 (the results of + and * take over all attributes: out.__dict__.update);
    book.py 97 (fromdicts), 105-138 (attach, detach, has, get, attachment), 424-472 (copies, +, times), 507-509
    (group), 609 (views); proj.py 133, 177, 221, 283, 483 (dict(self._attachment)).

    Python dicts and the lists of destinations (hist.py 167) are objects with addresses.  A holder is a
    histogram or a book.  Simplifications: keys and values are strings; only what concerns attachments and
    destinations is kept of each operation; definitions (defs=) are shared in the same way as attachments
    but cannot be changed through the histogram, so they are left out. *)
From Coq Require Import String List Arith.
From Verif Require Import Base.
Import ListNotations.
Local Open Scope string_scope.
Local Open Scope list_scope.

(** ** Python dicts *)
Definition dict := list (string * string).
Fixpoint dfind (k : string) (d : dict) : option string :=
  match d with [] => None | (n, v) :: t => if String.eqb n k then Some v else dfind k t end.
(** d[k] = v *)
Fixpoint dset (k v : string) (d : dict) : dict :=
  match d with [] => [(k, v)] | (n, w) :: t => if String.eqb n k then (n, v) :: t else (n, w) :: dset k v t end.
(** del d[k] *)
Fixpoint ddel (k : string) (d : dict) : dict :=
  match d with [] => [] | (n, w) :: t => if String.eqb n k then t else (n, w) :: ddel k t end.
(** d.update(e) *)
Definition dupdate (d e : dict) : dict := fold_left (fun d p => dset (fst p) (snd p) d) e d.

(** ** Objects *)
Record holder : Type := { m_attach : nat; m_dest : nat }.
Record mstate : Type := {
  dicts : list dict;             (* the dicts in memory *)
  vars : list nat;               (* the dicts that the caller has made *)
  dests : nat;                   (* the number of lists of destinations *)
  holders : list holder }.
Definition start : mstate := {| dicts := []; vars := []; dests := 0; holders := [] |}.

(** A dict that the caller can name: one of their own, or the attachment of a holder
    (hist.py 303-305, book.py 136-138: linked, not a copy). *)
Inductive ref : Type := RDict (n : nat) | ROf (i : nat).
Definition deref (s : mstate) (r : ref) : option nat :=
  match r with
  | RDict n => nth_error (vars s) n
  | ROf i => option_map m_attach (nth_error (holders s) i)
  end.

Inductive op : Type :=
| ODict (d : dict)                                    (* d = {..} *)
| OWrite (r : ref) (k v : string)                     (* d[k] = v, h.attachment[k] = v *)
| ONew (a : option ref) (sys : option string)         (* Hist(.., attachment=a, systematic=sys), Book.fromdicts(.., a), Book() *)
| OCopy (i : nat)                                     (* h.copy(), copyonfill, cleared, weight, filter, project, select, rebin, drop; book.copy(), book * x *)
| OSystematic (i : nat) (v : string)                  (* h.systematic(v) *)
| OShare (i : nat)                                    (* h + g, h * x; a view of a book *)
| OMerge (l : list nat)                               (* book + book, Book.group(..) *)
| OAttach (i : nat) (k v : string)
| ODetach (i : nat) (k : string).

Definition upd_dict (f : dict -> dict) (a : nat) (l : list dict) : list dict :=
  firstn a l ++ match skipn a l with [] => [] | d :: t => f d :: t end.
Definition with_dicts (s : mstate) (l : list dict) : mstate := {| dicts := l; vars := vars s; dests := dests s; holders := holders s |}.
Definition add_holder (s : mstate) (a d : nat) : mstate :=
  {| dicts := dicts s; vars := vars s; dests := Nat.max (dests s) (S d); holders := holders s ++ [{| m_attach := a; m_dest := d |}] |}.
(** A new histogram with its own list of destinations (hist.py 167) and a new dict. *)
Definition add_fresh (s : mstate) (d : dict) : mstate :=
  add_holder (with_dicts s (dicts s ++ [d])) (List.length (dicts s)) (dests s).
Definition dict_at (s : mstate) (a : nat) : dict := nth a (dicts s) [].
Definition attachment (s : mstate) (i : nat) : option dict := option_map (fun h => dict_at s (m_attach h)) (nth_error (holders s) i).

(** hist.py 136-151 with an attachment [a]: "systematic" is written into the dict that was given. *)
Definition construct (s : mstate) (a : nat) (sys : option string) : mstate * option err :=
  match sys with
  | None => (add_holder s a (dests s), None)
  | Some v =>
    match dfind "systematic" (dict_at s a) with
    | Some _ => (s, Some ValueError)
    | None => (add_holder (with_dicts s (upd_dict (dset "systematic" v) a (dicts s))) a (dests s), None)
    end
  end.
Fixpoint merge (s : mstate) (l : list nat) (d : dict) : option dict :=
  match l with
  | [] => Some d
  | i :: t => match attachment s i with Some e => merge s t (dupdate d e) | None => None end
  end.

Definition mstep (s : mstate) (o : op) : mstate * option err :=
  match o with
  | ODict d => ({| dicts := dicts s ++ [dupdate [] d]; vars := vars s ++ [List.length (dicts s)]; dests := dests s; holders := holders s |}, None)
  | OWrite r k v =>
    match deref s r with
    | Some a => (with_dicts s (upd_dict (dset k v) a (dicts s)), None)
    | None => (s, Some NameError)
    end
  | ONew None None => (add_fresh s [], None)                                    (* 148-149 *)
  | ONew None (Some v) => (add_fresh s [("systematic", v)], None)               (* 137-138 *)
  | ONew (Some r) sys =>
    match deref s r with
    | Some a => construct s a sys
    | None => (s, Some NameError)
    end
  | OCopy i =>
    match attachment s i with
    | Some d => (add_fresh s d, None)
    | None => (s, Some NameError)
    end
  | OSystematic i v =>                                                          (* 66-68: attachment=dict(self._attachment), systematic=v *)
    match attachment s i with
    | Some d => match dfind "systematic" d with
                | Some _ => (s, Some ValueError)
                | None => (add_fresh s (dset "systematic" v d), None)
                end
    | None => (s, Some NameError)
    end
  | OShare i =>                                                                 (* 530-531, 585-586 *)
    match nth_error (holders s) i with
    | Some h => (add_holder s (m_attach h) (m_dest h), None)
    | None => (s, Some NameError)
    end
  | OMerge l =>                                                                 (* book.py 453-455, 507-511 *)
    match merge s l [] with
    | Some d => (add_fresh s d, None)
    | None => (s, Some NameError)
    end
  | OAttach i k v =>
    match nth_error (holders s) i with
    | Some h => (with_dicts s (upd_dict (dset k v) (m_attach h) (dicts s)), None)
    | None => (s, Some NameError)
    end
  | ODetach i k =>
    match nth_error (holders s) i with
    | Some h => match dfind k (dict_at s (m_attach h)) with
                | Some _ => (with_dicts s (upd_dict (ddel k) (m_attach h) (dicts s)), None)
                | None => (s, Some KeyError)
                end
    | None => (s, Some NameError)
    end
  end.

(** has and get (hist.py 282-300, book.py 115-133) *)
Definition has (s : mstate) (i : nat) (k : string) : res bool :=
  match attachment s i with
  | Some d => Ok (match dfind k d with Some _ => true | None => false end)
  | None => Err NameError
  end.
Definition get (s : mstate) (i : nat) (k : string) (default : list string) : res string :=
  match attachment s i with
  | None => Err NameError
  | Some d =>
    match default with
    | [] => match dfind k d with Some v => Ok v | None => Err KeyError end
    | [x] => Ok (match dfind k d with Some v => v | None => x end)
    | _ => Err TypeError
    end
  end.
