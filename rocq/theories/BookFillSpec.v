(** What filling a book should do. *)
From Coq Require Import String Permutation.
From Verif Require Import Num Base Tree Instr InstrSpec Content Fill FillSpec Elem HistFill HistSpec Book BookSpec BookFill.
Local Open Scope list_scope.

(** The histograms [ids] are defined, distinct, and each could be filled with these arrays:
    [len] rows for every one of them. *)
Definition fillable (hs : list hist) (ids : list nat) (A : arrays) (len : nat) : Prop :=
  NoDup ids /\ ids <> [] /\
  forall i, In i ids -> exists h, nth_error hs i = Some h /\ hist_wf h /\ no_bcast h /\ args_ok h A len.

(** The goals of some histograms. *)
Definition goals_of (hs : list hist) (ids : list nat) : list tree :=
  flat_map (fun i => match nth_error hs i with Some h => hist_goals h | None => [] end) ids.

(** The book has no stored instructions, or those of the histograms it now has. *)
Definition up_to_date (hs : list hist) (limit : nat) (B : books) (b : nat) : Prop :=
  exists o, nth_error B b = Some o /\
  match b_cache o with
  | None => True
  | Some (is, stored) =>
      exists ids order srcs, book_hists limit B b = Ok ids /\ stored = ids /\ is_order order /\
        Permutation srcs (sources (goals_of hs ids)) /\ instructions order srcs (goals_of hs ids) = Ok is
  end.

(** The store holds the same books with the same entries. *)
Definition same_entries (B B' : books) : Prop := forall b, option_map b_content (nth_error B' b) = option_map b_content (nth_error B b).

(** Exactly the histograms [ids] change, each as [each] says. *)
Definition changes_as (ids : list nat) (each : nat -> content -> content) (cs cs' : list content) : Prop :=
  List.length cs' = List.length cs /\
  forall i c, nth_error cs i = Some c ->
    (In i ids -> nth_error cs' i = Some (each i c)) /\ (~ In i ids -> nth_error cs' i = Some c).
