(** What a table must list. *)
From Coq Require Import String.
From Verif Require Import Base Num Axis Calc Content Fill FillSpec Tree Order Expr HistAlg AlgSpec Nd Proj ProjSpec Select Table.
Local Open Scope list_scope.

(** The array of a table under a path of group keys, and the row of one bin in it. *)
Fixpoint table_block (c : pv) (ks : list gkey) : option (list nat * list Num) :=
  match ks, c with
  | [], PArr sh d => Some (sh, d)
  | k :: ks', PDict l => match assoc k l with Some c' => table_block c' ks' | None => None end
  | _, _ => None
  end.
Definition bin_row (c : pv) (ks : list gkey) (ss : list nat) : option (list Num) :=
  match table_block c ks with
  | Some (sh, d) => Some (map (fun j => aget sh d (ss ++ [j])) (seq 0 (last sh 0)))
  | None => None
  end.
(** The table has an array for each group of [h], with one row per bin and [ncols] columns (a histogram
    that was never filled and has no group axes has one, of zeros). *)
Definition has_group (h : hobj) (ks : list gkey) : Prop :=
  has_block h ks \/ (o_content h = CNone /\ o_group h = [] /\ ks = []).
Definition one_row_per_bin (h : hobj) (T : pv) (tots : list nat) (ncols : nat) : Prop :=
  forall ks, (has_group h ks -> exists d, table_block T ks = Some (tots ++ [ncols], d)) /\ (~ has_group h ks -> table_block T ks = None).

(** Profile [p] is the number [i] of [h]. *)
Definition profile_number (h : hobj) (p : axis) (i : nat) : Prop :=
  nth_error (o_prof h) i = Some p /\ forall j, j < i -> nth_error (o_prof h) j <> Some p.

(** The number of entries of a bin, its error, the effective number of entries, the mean of a profile
    and its error.  Where there are no entries, all but the first two are zero. *)
Section Entries.
  Variable sqrt : Num -> Num.
  Variable h : hobj.
  Variable ks : list gkey.
  Variable ss : list nat.
  Definition entries : Num := hcell h ks ss SumW.
  Definition entries_error : Num := sqrt (if weighted h then hcell h ks ss SumW2 else entries).
  Definition if_entries (x : Num) : Num := if nltb nzero entries then x else nzero.
  Definition effective : Num := if weighted h then ndiv (nmul entries entries) (hcell h ks ss SumW2) else entries.
  Definition mean (i : nat) : Num := ndiv (hcell h ks ss (SumWX i)) entries.
  Definition mean_square (i : nat) : Num := ndiv (hcell h ks ss (SumWX2 i)) entries.
  Definition mean_error (i : nat) : Num := sqrt (ndiv (nsub (mean_square i) (nmul (mean i) (mean i))) effective).
  Definition expected_row (count effcount error : bool) (profs : list nat) : list Num :=
    (if count then entries :: (if error then [entries_error] else []) else []) ++
    (if effcount then [if_entries effective] else []) ++
    flat_map (fun i => if_entries (mean i) :: (if error then [if_entries (mean_error i)] else [])) profs.
End Entries.

(** ** Normalized tables *)
(** The slots of the bins that are not overflow bins, for axes all of whose bins have one width. *)
Definition underflows (a : axis) : nat :=
  match a with ABin _ _ _ _ u _ _ _ | AIntbin _ _ _ u _ => b2n u | _ => 0 end.
Definition finite_bins (a : axis) : nat :=
  match a with ABin _ n _ _ _ _ _ _ => n | AIntbin _ mn mx _ _ => Z.to_nat (mx - mn + 1) | ACut _ => 2 | _ => 0 end.
Definition finite_slot (a : axis) (s : nat) : bool := Nat.leb (underflows a) s && Nat.ltb s (underflows a + finite_bins a).
Fixpoint finite_slots (axes : list axis) (ss : list nat) : bool :=
  match axes, ss with
  | a :: axes', s :: ss' => finite_slot a s && finite_slots axes' ss'
  | _, _ => true
  end.
Definition finite_cells (h : hobj) : list (list nat) := filter (finite_slots (o_fixed h)) (indices (l_tots (o_layout h))).
Definition uniform (a : axis) : Prop := match a with ABin _ _ _ _ _ _ _ _ | AIntbin _ _ _ _ _ | ACut _ => True | _ => False end.
(** The volume of a bin. *)
Definition width_of (bin_width : nat -> Num -> Num -> Num) (a : axis) : Num :=
  match a with ABin _ n l h _ _ _ _ => bin_width n l h | _ => none1 end.
Definition volume (bin_width : nat -> Num -> Num -> Num) (axes : list axis) : Num := fold_right nmul none1 (map (width_of bin_width) axes).

(** ** Fractions *)
(** The fixed axes that are not among the cuts, the bins of [h] that show [ss] on them, and the sum of
    their entries: all, and those that pass the cut at position [q]. *)
Definition other_axes (cuts : list axis) (h : hobj) : list bool := map (fun a => negb (axis_in a cuts)) (o_fixed h).
Definition bins_over (h : hobj) (cuts : list axis) (ss : list nat) : list (list nat) := slots_over (other_axes cuts h) (l_tots (o_layout h)) ss.
Definition total_over (h : hobj) (cuts : list axis) (ks : list gkey) (ss : list nat) : Num :=
  nsum (map (fun ss' => hcell h ks ss' SumW) (bins_over h cuts ss)).
Definition part_over (h : hobj) (cuts : list axis) (q v : nat) (ks : list gkey) (ss : list nat) : Num :=
  nsum (map (fun ss' => hcell h ks ss' SumW) (filter (fun ss' => Nat.eqb (nth q ss' 0) v) (bins_over h cuts ss))).
(** A cut axis has slot 1 for the rows that pass and slot 0 for those that fail (C04). *)
Definition passing (h : hobj) (cuts : list axis) (q : nat) (ks : list gkey) (ss : list nat) : Num := part_over h cuts q 1 ks ss.
Definition failing (h : hobj) (cuts : list axis) (q : nat) (ks : list gkey) (ss : list nat) : Num := part_over h cuts q 0 ks ss.

(** The errors: z standard deviations of a binomial fraction, and the upper limit of Wilson's interval. *)
Definition binomial_error (sqrt : Num -> Num) (z p n : Num) : Num := nmul z (sqrt (ndiv (nmul p (nsub (nz 1) p)) n)).
Definition wilson_limit (sqrt : Num -> Num) (z p n : Num) : Num :=
  ndiv (nadd (nadd p (ndiv (nmul (Fin (qfrac 1 2)) (nmul z z)) n))
             (nmul z (sqrt (nadd (ndiv (nmul p (nsub (nz 1) p)) n) (ndiv (nmul (Fin (qfrac 1 4)) (nmul z z)) (nmul n n))))))
       (nadd (nz 1) (ndiv (nmul z z) n)).
Section Fractions.
  Variables (sqrt sigmas : Num -> Num).
  Definition fraction_cells (e : ferror) (levels : list Num) (n passed : Num) : list Num :=
    let here x := if nltb nzero n then x else nzero in
    here (ndiv passed n) ::
    match e with
    | FNormal => map (fun l => here (binomial_error sqrt (sigmas l) (ndiv passed n) n)) levels
    | FWilson => map (fun l => here (wilson_limit sqrt (sigmas l) (ndiv passed n) n)) levels
    | _ => []
    end.
  (** [qs] are the positions of the cuts among the fixed axes. *)
  Definition fraction_row (h : hobj) (cuts : list axis) (qs : list nat) (o : fopts) (ks : list gkey) (ss : list nat) : list Num :=
    (if f_count o then [total_over h cuts ks ss] else []) ++
    flat_map (fun q => fraction_cells (f_error o) (f_levels o) (total_over h cuts ks ss) (passing h cuts q ks ss)) qs.
End Fractions.
(** [c] is a cut axis of [h], at position [q] among the fixed axes, and no other one is the same cut. *)
Definition cut_number (parse : string -> expr) (h : hobj) (c : axis) (q : nat) : Prop :=
  is_cut c = true /\ nth_error (o_fixed h) q = Some c /\
  forall i a, nth_error (o_fixed h) i = Some a -> is_cut a = true -> parse (axis_expr a) = parse (axis_expr c) -> i = q.
