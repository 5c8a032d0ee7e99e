(** What the data of a plot must say. *)
From Coq Require Import String Sorted Permutation.
From Verif Require Import Base Num Axis AxisSpec Calc Content Fill FillSpec Tree Order Expr InstrSpec Elem HistFill HistSpec KeySpec HistAlg AlgSpec
  Nd Proj ProjSpec Select Table TableSpec Pandas PandasSpec Vega.
Local Open Scope list_scope.

(** The ends of a bin, for a bin that has two finite ends.  The bin of the integer z is centred at z. *)
Definition bin_ends (a : axis) (s : nat) : option (Num * Num) :=
  match nth_error (keys a) s with
  | Some (KIv lo hi _ _) => if isfin lo && isfin hi then Some (lo, hi) else None
  | Some (KInt z) => Some (nsub (nz z) half, nadd (nz z) half)
  | _ => None
  end.
(** The ends of the whole axis *)
Definition axis_ends (a : axis) : Num * Num :=
  match a with
  | ABin _ _ l h _ _ _ _ => (l, h)
  | AIntbin _ mn mx _ _ => (nsub (nz mn) half, nadd (nz mx) half)
  | ASplit _ es _ _ _ _ => (hd NaN es, last es NaN)
  | _ => (NaN, NaN)
  end.

(** The text stands for bin [s] of the axis, or for a group: it is "pass" or "fail" of a cut, the key of
    a groupby axis, or it is written from an interval with the same numbers (the same integers, if the axis
    counts integers). *)
Definition names_bin (a : axis) (s : nat) (t : text) : Prop :=
  match a with
  | ACut _ => exists b, t = XCut b /\ nth_error (keys a) s = Some (KBool b)
  | AIntbin _ _ _ _ _ => exists k k', t = XBin k' /\ nth_error (keys a) s = Some k /\ forall z, contains k' (nz z) <-> contains k (nz z)
  | _ => exists k, t = XBin k /\ nth_error (keys a) s = Some k
  end.
Definition names_group (a : axis) (k : gkey) (t : text) : Prop :=
  match a with
  | AGroupby _ => t = XKey k
  | _ => exists k', t = XBin k' /\ forall x, isfin x = true -> (contains k' x <-> in_group a (VNum x) k)
  end.

(** A datum for a place (group keys, bin numbers): a cell for each axis, then the numbers.  The fixed axis
    number [q], if any, has the position [x] instead of a text. *)
Definition cells (groups fixed : list axis) (x : option (nat * Num)) (p : place) (row : list vcell) : Prop :=
  exists gl fl, row = gl ++ fl /\
    Forall2 (fun ak c => exists t, c = VText t /\ names_group (fst ak) (snd ak) t) (combine groups (fst p)) gl /\ length gl = length groups /\
    length fl = length fixed /\
    (forall i a s c, nth_error fixed i = Some a -> nth_error (snd p) i = Some s -> nth_error fl i = Some c ->
      match x with
      | Some (q, v) => if Nat.eqb i q then c = VNumber v else exists t, c = VText t /\ names_bin a s t
      | None => exists t, c = VText t /\ names_bin a s t
      end).
(** The datum: its id, cells and numbers; [centre]: what the column for the error bars says, if there is one. *)
Definition says (groups fixed : list axis) (id : option string) (x : option (nat * Num)) (centre : option Num) (numbers : list Num)
           (p : place) (d : datum) : Prop :=
  exists row, d_id d = id /\ d_row d = row ++ map VNumber numbers /\ cells groups fixed x p row /\ d_centre d = option_map VNumber centre.

(** Each place with a group of the histogram and bins of its axes, once, in order. *)
Definition all_places (has : list gkey -> Prop) (tots : list nat) (places : list place) : Prop :=
  (forall ks ss, In (ks, ss) places <-> has ks /\ Forall2 lt ss tots) /\ StronglySorted before places.

(** ** Plots whose plotted axis is numerical: [a] is the fixed axis number [q].  Bins with two finite ends
    are drawn.  Lines and markers are at the centres.  Steps and areas are at the low ends, and 1e-10 of the axis
    further for the first bin, because at its low end, and at the high end of the last bin, the data also
    go down to zero. *)
Section Numerical.
  Variables (groups fixed : list axis) (id : option string) (l : last1d) (q : nat) (a : axis) (numbers : place -> list Num).
  Definition slot (p : place) : nat := nth q (snd p) 0.
  Definition ends (p : place) : Num * Num := match bin_ends a (slot p) with Some e => e | None => (NaN, NaN) end.
  Definition drawn (p : place) : bool := match bin_ends a (slot p) with Some _ => true | None => false end.
  Definition is_first (p : place) : bool := drawn p && neqb (fst (ends p)) (fst (axis_ends a)).
  Definition is_last (p : place) : bool := drawn p && neqb (snd (ends p)) (snd (axis_ends a)).
  Definition at_position (p : place) : Num :=
    if is_baseline (c_kind l) then
      if is_first p then nadd (fst (ends p)) (nmul tiny (nsub (snd (axis_ends a)) (fst (axis_ends a)))) else fst (ends p)
    else middle (fst (ends p)) (snd (ends p)).
  Definition error_bar (x : Num) : option Num := if c_error l && is_baseline (c_kind l) then Some x else None.
  Definition zero_numbers : list Num := if c_error l then [nzero; nzero] else [nzero].
  Definition bin_datum (p : place) (d : datum) : Prop :=
    says groups fixed id (Some (q, at_position p)) (error_bar (middle (fst (ends p)) (snd (ends p)))) (numbers p) p d.
  Definition low_datum (p : place) (d : datum) : Prop := says groups fixed id (Some (q, fst (ends p))) (error_bar (fst (ends p))) zero_numbers p d.
  Definition high_datum (p : place) (d : datum) : Prop := says groups fixed id (Some (q, snd (ends p))) (error_bar (snd (ends p))) zero_numbers p d.
  (** With a logarithmic scale only positive numbers stay. *)
  Definition visible (d : datum) : bool :=
    negb (c_log l) || match nth_error (d_row d) (length (groups ++ fixed)) with Some (VNumber y) => nltb nzero y | _ => false end.
  Definition numerical_data (has : list gkey -> Prop) (data : list datum) : Prop :=
    exists places bins lows highs,
      all_places has (map totbins fixed) places /\
      Forall2 bin_datum (filter drawn places) bins /\
      (if is_baseline (c_kind l)
       then Forall2 low_datum (filter is_first places) lows /\ Forall2 high_datum (filter is_last places) highs
       else lows = [] /\ highs = []) /\
      Permutation data (filter visible (bins ++ lows ++ highs)).
  (** ** Plots of categories: one datum for each bin. *)
  Definition category_datum (p : place) (d : datum) : Prop :=
    exists row, d_id d = id /\ d_row d = row ++ map VNumber (numbers p) /\ cells groups fixed None p row /\
      d_centre d = if c_error l && is_baseline (c_kind l) then nth_error row q else None.
  Definition category_data (has : list gkey -> Prop) (data : list datum) : Prop :=
    exists places ds, all_places has (map totbins fixed) places /\ Forall2 category_datum places ds /\ data = filter visible ds.
End Numerical.

(** Conditions.  The keys of groupbin axes are numbers; the first bin of the plotted axis is wider than
    1e-10 of the axis. *)
Definition number_keys (groups : list axis) (c : content) : Prop :=
  forall p k e w org nf cl, key_at c p k -> nth_error groups (length p) = Some (AGroupbin e w org nf cl) -> exists x, k = GNum x.
Definition first_bin_wide (a : axis) : Prop :=
  forall s lo hi, bin_ends a s = Some (lo, hi) -> lo = fst (axis_ends a) ->
    nltb (nadd lo (nmul tiny (nsub (snd (axis_ends a)) lo))) hi = true.
