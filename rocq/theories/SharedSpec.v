(** Programs that make histograms from new axes or from the axes of other histograms, and which of them
    leave every axis where it was. *)
From Coq Require Import String.
From Verif Require Import Base Num Axis Tree Elem HistFill Shared.
Local Open Scope list_scope.

(** What a new histogram is made from an old one by. *)
Inductive derivation : Type :=
| DSame                                        (* copy, copyonfill, cleared, weight, filter, systematic, select of groups *)
| DGroup (x : axis) (t : tree)                 (* Hist.group *)
| DReplace (cut : nat) (x : axis) (t : tree)   (* select and rebin: the axis object [cut] is replaced *)
| DProject (keep : nat -> bool)                (* project *)
| DDrop (keep : nat -> bool)                   (* drop *)
| DRemove (cut : nat).                         (* select of a cut *)
Definition derived_args (d : derivation) (a : ahist) : list axarg :=
  match d with
  | DSame => same_args a
  | DGroup x t => group_args x t a
  | DReplace cut x t => replace_args cut x t a
  | DProject keep => project_args keep a
  | DDrop keep => drop_args keep a
  | DRemove cut => remove_args cut a
  end.
Inductive cop : Type :=
| CNew (axes : list (axis * tree)) (w : option wexpr)
| CDerive (i : nat) (d : derivation) (w : option wexpr).
Definition cstate : Type := axheap * list ahist.
Definition cstep (s : cstate) (o : cop) : cstate :=
  let '(X, vs) := s in
  match o with
  | CNew axes w => let '(X', a) := construct X w (map (fun p => ANew (fst p) (snd p)) axes) in (X', vs ++ [a])
  | CDerive i d w => match nth_error vs i with
                     | Some a => let '(X', a') := construct X w (derived_args d a) in (X', vs ++ [a'])
                     | None => s
                     end
  end.
Definition crun (s : cstate) (os : list cop) : cstate := fold_left cstep os s.

(** The derivation removes fixed axes and profiles only from the end; an axis is replaced by one of its
    kind, and Hist.group adds a group axis. *)
Definition starts {A} (l m : list A) : Prop := exists n, m = firstn n l.
Definition kind_of (a : axis) : nat := if is_group a then 0 else if is_fixed a then 1 else if is_profile a then 2 else 3.
Definition keeps_places (X : axheap) (a : ahist) (d : derivation) : Prop :=
  match d with
  | DSame => True
  | DGroup x _ => is_group x = true
  | DReplace cut x _ => kind_of x = kind_of (x_axis (obj X cut))
  | DProject keep => starts (a_fixed a) (filter keep (a_fixed a))
  | DDrop keep => starts (a_prof a) (filter keep (a_prof a))
  | DRemove cut => starts (a_fixed a) (filter (fun l => negb (Nat.eqb l cut)) (a_fixed a)) /\ starts (a_prof a) (filter (fun l => negb (Nat.eqb l cut)) (a_prof a))
  end.
Fixpoint keeps_run (s : cstate) (os : list cop) : Prop :=
  match os with
  | [] => True
  | o :: t => match o with
              | CNew _ _ => True
              | CDerive i d _ => match nth_error (snd s) i with Some a => keeps_places (fst s) a d | None => True end
              end /\ keeps_run (cstep s o) t
  end.
