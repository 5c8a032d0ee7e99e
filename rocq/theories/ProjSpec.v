(** What projections must give: sums over the axes that are projected out. *)
From Coq Require Import String.
From Verif Require Import Base Num Axis Calc Content Fill FillSpec HistAlg AlgSpec Nd Proj.
Local Open Scope list_scope.

(** Which of the axes [all] are among [axes]. *)
Definition keep_of (axes all : list axis) : list bool := map (fun x => axis_in x axes) all.
(** The layout of a block in which only the chosen fixed axes remain. *)
Definition layout_keep (keep : list bool) (L : layout) : layout := {|
  l_tots := select keep (l_tots L); l_nprof := l_nprof L; l_weighted := l_weighted L |}.

(** Slot tuples of the fixed axes of [h] that show [ss] on the kept axes. *)
Definition slots_over (keep : list bool) (tots : list nat) (ss : list nat) : list (list nat) :=
  filter (fun ss' => idx_eqb (select keep ss') ss) (indices tots).
(** Key paths, out of [paths], that show [ks] on the kept group axes. *)
Fixpoint keys_same (a b : list gkey) : bool :=
  match a, b with
  | [], [] => true
  | x :: a', y :: b' => gkey_eqb x y && keys_same a' b'
  | _, _ => false
  end.
Definition keys_over (keep : list bool) (paths : list (list gkey)) (ks : list gkey) : list (list gkey) :=
  filter (fun p => keys_same (select keep p) ks) paths.
(** [paths] lists the blocks of a content, each once. *)
Definition lists_blocks (c : content) (paths : list (list gkey)) : Prop :=
  NoDup paths /\ forall ks, In ks paths <-> block c ks <> None.

(** In every dict of a group axis that is projected out, the number of keys is 2, 4, 8, ... *)
Fixpoint power_groups (keep : list bool) (c : content) : Prop :=
  match keep with
  | [] => True
  | g :: gs =>
    match c with
    | CDict l => (g = true \/ exists k, length l = 2 ^ S k) /\ Forall (fun kv => power_groups gs (snd kv)) l
    | _ => True
    end
  end.

(** A row as a histogram with only the kept axes sees it, and whether the removed axes drop it. *)
Definition proj_row (keepg keepf : list bool) (r : row) : row := {|
  r_keys := select keepg (r_keys r); r_slots := select keepf (r_slots r);
  r_prof := r_prof r; r_w := r_w r; r_w2 := r_w2 r |}.
Definition removed_keep (keepg keepf : list bool) (r : row) : bool :=
  forallb (fun o => negb (is_none o)) (select (map negb keepg) (r_keys r)) &&
  forallb (fun o => negb (is_none o)) (select (map negb keepf) (r_slots r)).
