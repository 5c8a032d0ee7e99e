(** Who shares which arrays with whom: histograms as Python objects whose contents are references
    into a heap of numpy arrays and dicts (hist.py 70-98, 346-384, 496-649).
    The values written are those of HistAlg.v and Fill.v; this file is about where they are written. *)
From Coq Require Import String.
From Verif Require Import Base Num Axis Calc Content Fill HistAlg.
Local Open Scope list_scope.

Definition loc := nat.
Inductive ref : Type := RNone | RLoc (l : loc).
Inductive object : Type := OArr (d : list Num) | ODict (items : list (gkey * ref)).
(** New objects are appended; nothing is reclaimed. *)
Definition heap := list object.
Definition get (H : heap) (l : loc) : option object := nth_error H l.
Definition set (H : heap) (l : loc) (o : object) : heap := upd (fun _ => o) l H.
Definition alloc (H : heap) (o : object) : heap * ref := (H ++ [o], RLoc (length H)).

(** The value of a reference below which there are at most [n] levels of dicts. *)
Fixpoint view (n : nat) (H : heap) (r : ref) : content :=
  match r with
  | RNone => CNone
  | RLoc l => match get H l with
              | None => CNone
              | Some (OArr d) => CArr d
              | Some (ODict items) =>
                  match n with
                  | O => CNone
                  | S m => CDict (map (fun kv => (fst kv, view m H (snd kv))) items)
                  end
              end
  end.

(** New objects for a whole content. *)
Definition alloc_items (f : heap -> content -> heap * ref) : heap -> list (gkey * content) -> heap * list (gkey * ref) :=
  fix go H l := match l with
                | [] => (H, [])
                | (k, c) :: t => let '(H1, r) := f H c in let '(H2, t') := go H1 t in (H2, (k, r) :: t')
                end.
Fixpoint alloc_tree (H : heap) (c : content) {struct c} : heap * ref :=
  match c with
  | CNone => (H, RNone)
  | CArr d => alloc H (OArr d)
  | CDict l =>
      let '(H1, items) := alloc_items alloc_tree H l in
      alloc H1 (ODict items)
  end.
(** _copycontent (hist.py 70-77): new objects with the same values. *)
Definition copy_ref (n : nat) (H : heap) (r : ref) : heap * ref := alloc_tree H (view n H r).

(** Update in place: what fill (numpy.add.at and [content[unique] = ...], hist.py 424-478), += and
    *= (hist.py 541-565, 589-597) do to a content that has to become [c].  Existing arrays are
    overwritten, existing dicts keep their entries, new entries get new objects; a content None is
    replaced by new objects. *)
Definition store_items (f : heap -> ref -> content -> heap * ref) :
  heap -> list (gkey * ref) -> list (gkey * content) -> heap * list (gkey * ref) :=
  fix go H items cs :=
    match items, cs with
    | (k, x) :: t, (_, c) :: t' =>
        let '(H1, y) := f H x c in
        let '(H2, t2) := go H1 t t' in (H2, (k, y) :: t2)
    | [], _ => alloc_items alloc_tree H cs
    | _, [] => (H, items)
    end.
Fixpoint store (n : nat) (H : heap) (r : ref) (c : content) {struct n} : heap * ref :=
  match r with
  | RNone => alloc_tree H c
  | RLoc l =>
    match get H l, c with
    | Some (OArr _), CArr d => (set H l (OArr d), r)
    | Some (ODict items), CDict cs =>
      match n with
      | O => (H, r)
      | S m =>
        let '(H1, items') := store_items (store m) H items cs in
        (set H1 l (ODict items'), r)
      end
    | _, _ => (H, r)
    end
  end.

(** The local function [add] of __add__ (hist.py 503-527): matched arrays are added into a new
    array, matched dicts into a new dict; an entry that only one side has is taken over as it is,
    not copied. *)
Definition new_refs (l m : list (gkey * ref)) : list (gkey * ref) :=
  filter (fun kv => negb (has_key (fst kv) l)) m.
Definition add_refs (f : heap -> ref -> ref -> heap * res ref) (m : list (gkey * ref)) :
  heap -> list (gkey * ref) -> heap * res (list (gkey * ref)) :=
  fix go H l :=
    match l with
    | [] => (H, Ok [])
    | (k, x) :: t =>
      match (match assoc k m with Some x' => f H x x' | None => (H, Ok x) end) with
      | (H1, Err e) => (H1, Err e)
      | (H1, Ok y) => match go H1 t with
                      | (H2, Err e) => (H2, Err e)
                      | (H2, Ok t') => (H2, Ok ((k, y) :: t'))
                      end
      end
    end.
Fixpoint add_ref (k1 k2 n : nat) (H : heap) (r s : ref) : heap * res ref :=
  match r, s with
  | RNone, RNone => (H, Ok RNone)
  | RNone, _ => let '(H1, x) := copy_ref n H s in (H1, Ok x)
  | _, RNone => let '(H1, x) := copy_ref n H r in (H1, Ok x)
  | RLoc l, RLoc m =>
    match get H l, get H m with
    | Some (OArr d), Some (OArr e) =>
        match arr_add k1 k2 d e with
        | Ok s => let '(H1, x) := alloc H (OArr s) in (H1, Ok x)
        | Err e => (H, Err e)
        end
    | Some (ODict a), Some (ODict b) =>
        match n with
        | O => (H, Err AssertionError)
        | S n' => match add_refs (add_ref k1 k2 n') b H a with
                  | (H1, Err e) => (H1, Err e)
                  | (H1, Ok items) => let '(H2, x) := alloc H1 (ODict (items ++ new_refs a b)) in (H2, Ok x)
                  end
        end
    | _, _ => (H, Err AssertionError)
    end
  end.

(** cutcontent (proj.py 465-470) with the group axis number [p] as the cut axis: new dicts down to that
    axis; the blocks of the kept keys are taken over as they are, not copied.  (Where an array is in the
    place of a dict the code raises; such contents do not occur.) *)
Definition sel_refs (f : heap -> ref -> heap * ref) : heap -> list (gkey * ref) -> heap * list (gkey * ref) :=
  fix go H l := match l with
                | [] => (H, [])
                | (k, x) :: t => let '(H1, y) := f H x in let '(H2, t') := go H1 t in (H2, (k, y) :: t')
                end.
Fixpoint sel_ref (p : nat) (b : gkey -> bool) (H : heap) (r : ref) : heap * ref :=
  match r with
  | RNone => (H, RNone)
  | RLoc l =>
    match get H l with
    | Some (ODict items) =>
      match p with
      | O => alloc H (ODict (filter (fun kv => b (fst kv)) items))
      | S p' => let '(H1, items') := sel_refs (sel_ref p' b) H items in alloc H1 (ODict items')
      end
    | _ => (H, r)
    end
  end.

(** ** Programs over histogram variables *)
(** [v_obj]: everything but the content (its own content is always None); [v_flag]: _copyonfill. *)
Record var : Type := { v_obj : hobj; v_ref : ref; v_flag : bool }.
Record state : Type := { s_heap : heap; s_vars : list var }.
Definition ngroups (h : hobj) : nat := length (o_group h).

(** A fill is given by what it does to the content of this histogram (hist.py 375-377). *)
Definition filler := content -> content * option err.
Inductive op : Type :=
| OFill (i : nat) (f : filler)
| OIAdd (i j : nat)                    (* hi += hj *)
| OIMul (i : nat) (v : Num)            (* hi *= v *)
| OClear (i : nat)                     (* hi.clear() *)
| OCopy (i : nat)                      (* new variable: hi.copy() *)
| OCopyOnFill (i : nat)                (* hi.copyonfill() *)
| OCleared (i : nat)                   (* hi.cleared() *)
| OAdd (i j : nat)                     (* hi + hj *)
| OMul (i : nat) (v : Num)             (* hi * v *)
| OGroup (by_ : string) (hs : list (string * nat))    (* Hist.group(by=by_, name=hi, ...) *)
| OPart (i : nat) (f : filler)         (* what the fill of a book does to hi (book.py 580-584) *)
| ODerive (i : nat) (f : hobj -> res hobj)             (* project, drop, rebin, and select on a fixed axis *)
| OSelGroup (i p : nat) (b : gkey -> bool).            (* select on the group axis number p: the keys to keep *)

Definition with_ref (v : var) (r : ref) : var := {| v_obj := v_obj v; v_ref := r; v_flag := v_flag v |}.
Definition set_nth {A} (l : list A) (i : nat) (x : A) : list A := upd (fun _ => x) i l.
Definition new_var (H : heap) (vs : list var) (h : hobj) (r : ref) (flag : bool) : state :=
  {| s_heap := H; s_vars := vs ++ [{| v_obj := h; v_ref := r; v_flag := flag |}] |}.
Definition var_view (H : heap) (v : var) : content := view (ngroups (v_obj v)) H (v_ref v).
(** a histogram as a value *)
Definition var_value (H : heap) (v : var) : hobj := with_content (v_obj v) (var_view H v).

Definition step (s : state) (o : op) : state * option err :=
  let H := s_heap s in
  let vs := s_vars s in
  match o with
  | OFill i f =>                                            (* hist.py 346-384 *)
    match nth_error vs i with
    | None => (s, Some NameError)
    | Some v =>
      let n := ngroups (v_obj v) in
      let '(H1, r1) := if v_flag v then copy_ref n H (v_ref v) else (H, v_ref v) in
      let '(c, e) := f (view n H1 r1) in
      let '(H2, r2) := store n H1 r1 c in
      ({| s_heap := H2; s_vars := set_nth vs i {| v_obj := v_obj v; v_ref := r2; v_flag := false |} |}, e)
    end
  | OIAdd i j =>                                            (* hist.py 534-565 *)
    match nth_error vs i, nth_error vs j with
    | Some v, Some w =>
      if axes_eqb (o_axes (v_obj v)) (o_axes (v_obj w)) then
        let n := ngroups (v_obj v) in
        let '(c, e) := content_iadd (l_last (o_layout (v_obj v))) (l_last (o_layout (v_obj w))) (var_view H v) (var_view H w) in
        let '(H1, r) := store n H (v_ref v) c in
        ({| s_heap := H1; s_vars := set_nth vs i (with_ref v r) |}, e)
      else (s, Some TypeError)
    | _, _ => (s, Some NameError)
    end
  | OIMul i x =>                                            (* hist.py 585-597 *)
    match nth_error vs i with
    | None => (s, Some NameError)
    | Some v =>
      let '(c, e) := content_imul x (var_view H v) in
      let '(H1, r) := store (ngroups (v_obj v)) H (v_ref v) c in
      ({| s_heap := H1; s_vars := set_nth vs i (with_ref v r) |}, e)
    end
  | OClear i =>                                             (* hist.py 92-94 *)
    match nth_error vs i with
    | None => (s, Some NameError)
    | Some v => ({| s_heap := H; s_vars := set_nth vs i (with_ref v RNone) |}, None)
    end
  | OCopy i =>                                              (* hist.py 79-83 *)
    match nth_error vs i with
    | None => (s, Some NameError)
    | Some v => let '(H1, r) := copy_ref (ngroups (v_obj v)) H (v_ref v) in (new_var H1 vs (v_obj v) r false, None)
    end
  | OCopyOnFill i =>                                        (* hist.py 85-90 *)
    match nth_error vs i with
    | None => (s, Some NameError)
    | Some v => (new_var H vs (v_obj v) (v_ref v) true, None)
    end
  | OCleared i =>                                           (* hist.py 96-98 *)
    match nth_error vs i with
    | None => (s, Some NameError)
    | Some v => (new_var H vs (v_obj v) RNone false, None)
    end
  | OAdd i j =>                                             (* hist.py 496-532; the result keeps the flag of hi *)
    match nth_error vs i, nth_error vs j with
    | Some v, Some w =>
      if axes_eqb (o_axes (v_obj v)) (o_axes (v_obj w)) then
        match add_ref (l_last (o_layout (v_obj v))) (l_last (o_layout (v_obj w))) (ngroups (v_obj v)) H (v_ref v) (v_ref w) with
        | (H1, Ok r) => (new_var H1 vs (v_obj v) r (v_flag v), None)
        | (H1, Err e) => ({| s_heap := H1; s_vars := vs |}, Some e)
        end
      else (s, Some TypeError)
    | _, _ => (s, Some NameError)
    end
  | OMul i x =>                                             (* hist.py 567-583 *)
    match nth_error vs i with
    | None => (s, Some NameError)
    | Some v => match content_mul x (var_view H v) with
                | Ok c => let '(H1, r) := alloc_tree H c in (new_var H1 vs (v_obj v) r (v_flag v), None)
                | Err e => (s, Some e)
                end
    end
  | OGroup by_ hs =>                                        (* hist.py 599-649 *)
    match mapM (fun ni => match nth_error vs (snd ni) with
                          | Some v => Ok (fst ni, var_value H v)
                          | None => Err NameError
                          end) hs with
    | Err e => (s, Some e)
    | Ok hists => match group_hists by_ hists with
                  | Err e => (s, Some e)
                  | Ok g => let '(H1, r) := alloc_tree H (o_content g) in
                            (new_var H1 vs (with_content g CNone) r false, None)
                  end
    end
  | OPart i f =>                                            (* book.py 580-584: _prefill and _postfill do not look at _copyonfill *)
    match nth_error vs i with
    | None => (s, Some NameError)
    | Some v =>
      let '(c, e) := f (var_view H v) in
      let '(H1, r) := store (ngroups (v_obj v)) H (v_ref v) c in
      ({| s_heap := H1; s_vars := set_nth vs i (with_ref v r) |}, e)
    end
  | ODerive i f =>                                          (* proj.py 129-136, 213-228, 247-289, 471-486: new arrays only *)
    match nth_error vs i with
    | None => (s, Some NameError)
    | Some v => match f (var_value H v) with
                | Err e => (s, Some e)
                | Ok g => let '(H1, r) := alloc_tree H (o_content g) in (new_var H1 vs (with_content g CNone) r false, None)
                end
    end
  | OSelGroup i p b =>                                      (* proj.py 460-486 *)
    match nth_error vs i with
    | None => (s, Some NameError)
    | Some v => if Nat.ltb p (ngroups (v_obj v))
                then let '(H1, r) := sel_ref p b H (v_ref v) in (new_var H1 vs (v_obj v) r false, None)
                else (s, Some ValueError)
    end
  end.
Fixpoint run (s : state) (os : list op) : state * list (option err) :=
  match os with
  | [] => (s, [])
  | o :: t => let '(s1, e) := step s o in let '(s2, es) := run s1 t in (s2, e :: es)
  end.
