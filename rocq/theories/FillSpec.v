(** Specification of what a fill must do, row by row. *)
From Coq Require Import String.
From Verif Require Import Base Num Axis Calc Content Fill.

(** What one row of the filled data amounts to: its key on each group axis and its slot on each
    fixed axis ([None]: the axis drops the row), the value and squared value of each profiled
    quantity, and its weight and squared weight. *)
Record row : Type := {
  r_keys : list (option gkey);
  r_slots : list (option Z);
  r_prof : list (Num * Num);
  r_w : Num;
  r_w2 : Num }.

(** How a histogram is weighted: not at all, by a constant, or by an expression (or filter). *)
Inductive wmode : Type := Unweighted | ConstWeight (v : Num) | ExprWeight.

(** The columns that reach [postfill] when the data consist of [rows]. *)
Definition column {A} (f : row -> list A) (d : A) (j : nat) (rows : list row) : list A :=
  map (fun r => nth j (f r) d) rows.
Definition dest_of (L : layout) (ng : nat) (m : wmode) (rows : list row) : dest := {|
  d_group := map (fun j => group_col (column r_keys None j rows)) (seq 0 ng);
  d_fixed := map (fun j => Some (column r_slots None j rows)) (seq 0 (length (l_tots L)));
  d_prof := map (fun p => (map fst (column r_prof (nzero, nzero) p rows),
                           map snd (column r_prof (nzero, nzero) p rows))) (seq 0 (l_nprof L));
  d_weight := match m with
              | Unweighted => WNone
              | ConstWeight v => WConst v
              | ExprWeight => WCol (map r_w rows) (map r_w2 rows)
              end |}.

(** One fill: _prefill, then _postfill (hist.py 375-377). *)
Definition fill_rows (L : layout) (ng : nat) (m : wmode) (rows : list row) (c : content)
  : content * option err :=
  postfill L (length rows) (dest_of L ng m rows) (prefill L ng c).

(** ** Observation: the block under a path of group keys, and the number in one cell of it. *)
Fixpoint block (c : content) (ks : list gkey) : option (list Num) :=
  match ks, c with
  | [], CArr d => Some d
  | k :: ks', CDict l => match assoc k l with Some c' => block c' ks' | None => None end
  | _, _ => None
  end.

(** Row-major position of a slot tuple. *)
Fixpoint ravel (tots ss : list nat) : nat :=
  match tots, ss with
  | _ :: ts, s :: ss' => s * fold_right Nat.mul 1 ts + ravel ts ss'
  | _, _ => 0
  end.
Definition cell (L : layout) (c : content) (ks : list gkey) (ss : list nat) (column : nat) : Num :=
  match block c ks with
  | Some d => nth (ravel (l_tots L) ss * l_last L + column) d nzero
  | None => nzero
  end.

(** [ss] is a slot tuple of the fixed axes. *)
Definition in_shape (L : layout) (ss : list nat) : Prop := Forall2 lt ss (l_tots L).

(** The row belongs to the cell with group keys [ks] and slots [ss]. *)
Fixpoint keys_match (ks : list gkey) (rk : list (option gkey)) : bool :=
  match ks, rk with
  | [], [] => true
  | k :: ks', Some k' :: rk' => gkey_eqb k k' && keys_match ks' rk'
  | _, _ => false
  end.
Fixpoint slots_match (ss : list nat) (rs : list (option Z)) : bool :=
  match ss, rs with
  | [], [] => true
  | s :: ss', Some z :: rs' => (Z.of_nat s =? z)%Z && slots_match ss' rs'
  | _, _ => false
  end.
Definition in_cell (ks : list gkey) (ss : list nat) (r : row) : bool :=
  keys_match ks (r_keys r) && slots_match ss (r_slots r).

(** The weight of a row: one, the constant, or the computed weight with NaN counting as zero. *)
Definition row_weight (m : wmode) (r : row) : Num :=
  match m with
  | Unweighted => none1
  | ConstWeight v => v
  | ExprWeight => if isnan (r_w r) then nzero else r_w r
  end.
Definition row_weight2 (m : wmode) (r : row) : Num :=
  match m with
  | Unweighted => none1
  | ConstWeight v => nmul v v
  | ExprWeight => if isnan (r_w r) then nzero else r_w2 r
  end.

(** What one row adds to each column of its cell. *)
Inductive column_kind : Type := SumWX (p : nat) | SumWX2 (p : nat) | SumW | SumW2.
Definition column_of (L : layout) (k : column_kind) : nat :=
  match k with
  | SumWX p => 2 * p
  | SumWX2 p => 2 * p + 1
  | SumW => 2 * l_nprof L
  | SumW2 => 2 * l_nprof L + 1
  end.
Definition has_column (L : layout) (k : column_kind) : Prop :=
  match k with
  | SumWX p | SumWX2 p => p < l_nprof L
  | SumW => True
  | SumW2 => l_weighted L = true
  end.
Definition row_adds (m : wmode) (k : column_kind) (r : row) : Num :=
  match k with
  | SumWX p => nmul (fst (nth p (r_prof r) (nzero, nzero))) (row_weight m r)
  | SumWX2 p => nmul (snd (nth p (r_prof r) (nzero, nzero))) (row_weight m r)
  | SumW => row_weight m r
  | SumW2 => row_weight2 m r
  end.

(** ** Well-formedness *)
Definition key_ok (k : gkey) : Prop := k <> GNum NaN.
Definition slot_ok (t : nat) (s : option Z) : Prop :=
  match s with Some z => (0 <= z < Z.of_nat t)%Z | None => True end.
Definition row_ok (L : layout) (ng : nat) (r : row) : Prop :=
  length (r_keys r) = ng /\
  (forall k, In (Some k) (r_keys r) -> key_ok k) /\
  Forall2 slot_ok (l_tots L) (r_slots r) /\
  length (r_prof r) = l_nprof L.
Definition mode_ok (L : layout) (m : wmode) : Prop :=
  l_weighted L = match m with Unweighted => false | _ => true end.

(** The row is dropped by no fixed axis. *)
Definition unmasked (r : row) : Prop := ~ In None (r_slots r).

(** The flat index is an int32. *)
Definition layout_ok (L : layout) : Prop := (Z.of_nat (l_rows L) <= 2 ^ 31)%Z.

(** A content of [n] nested dicts whose blocks have the size of the layout. *)
Fixpoint content_ok (L : layout) (n : nat) (c : content) : Prop :=
  match n, c with
  | 0, CArr d => length d = l_size L
  | S m, CDict l => Forall (fun kv => content_ok L m (snd kv)) l /\
                    NoDup (map fst l) /\ Forall key_ok (map fst l)
  | _, _ => False
  end.
(** ... or a histogram that was never filled. *)
Definition hist_ok (L : layout) (n : nat) (c : content) : Prop := c = CNone \/ content_ok L n c.

(** Equality of contents as mappings from key paths to blocks, and equality up to blocks that are
    absent on one side and all zero on the other. *)
Definition same_content (a b : content) : Prop := forall ks, block a ks = block b ks.
Definition same_cells (L : layout) (a b : content) : Prop :=
  forall ks ss j, cell L a ks ss j = cell L b ks ss j.

(** The sum of one column over all cells of all blocks. *)
Fixpoint total (L : layout) (n : nat) (column : nat) (c : content) : Num :=
  match n, c with
  | 0, CArr d => nsum (map (fun i => nth (i * l_last L + column) d nzero) (seq 0 (l_rows L)))
  | S m, CDict l => nsum (map (fun kv => total L m column (snd kv)) l)
  | _, _ => nzero
  end.

(** No axis drops the row. *)
Definition kept (r : row) : bool :=
  forallb (fun o => match o with Some _ => true | None => false end) (r_keys r) &&
  forallb (fun o => match o with Some _ => true | None => false end) (r_slots r).

(** Several fills, one after the other. *)
Fixpoint fill_all (L : layout) (ng : nat) (m : wmode) (chunks : list (list row)) (c : content)
  : content * option err :=
  match chunks with
  | [] => (c, None)
  | rows :: rest =>
    match fill_rows L ng m rows c with
    | (c', None) => fill_all L ng m rest c'
    | (c', Some e) => (c', Some e)
    end
  end.

(** Profiles need rows that no fixed axis drops (the code raises otherwise, see C10). *)
Definition no_masked_profile (L : layout) (rows : list row) : Prop :=
  l_nprof L = 0 \/ Forall unmasked rows.

(** What must hold of a layout, a weight mode, the rows and the content before a fill. *)
Definition fill_pre (L : layout) (ng : nat) (m : wmode) (rows : list row) (c : content) : Prop :=
  layout_ok L /\ mode_ok L m /\ Forall (row_ok L ng) rows /\ hist_ok L ng c /\ no_masked_profile L rows.

(** All profiled quantities of the row are finite. *)
Definition finite_profiles (r : row) : Prop :=
  Forall (fun p => isfin (fst p) = true /\ isfin (snd p) = true) (r_prof r).

(** The weight and squared weight of a row under a filter: [where(f, 1, 0) * w] and its square. *)
Definition filtered (keep : row -> bool) (r : row) : row :=
  let w := nmul (if keep r then none1 else nzero) (r_w r) in
  {| r_keys := r_keys r; r_slots := r_slots r; r_prof := r_prof r; r_w := w; r_w2 := nmul w w |}.
(** ... and without a weight expression: [where(f, 1, 0)]. *)
Definition filtered1 (keep : row -> bool) (r : row) : row :=
  let w := if keep r then none1 else nzero in
  {| r_keys := r_keys r; r_slots := r_slots r; r_prof := r_prof r; r_w := w; r_w2 := nmul w w |}.

(** The layout of the same histogram without weights. *)
Definition unweighted (L : layout) : layout := {| l_tots := l_tots L; l_nprof := l_nprof L; l_weighted := false |}.
