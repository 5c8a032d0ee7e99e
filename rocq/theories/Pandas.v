(** Export to Pandas: /repo/histbook/export.py 38-156.

    Simplifications: a DataFrame is its index rows, column names and rows of numbers; a record array is
    an array with one more dimension for its fields (as in Table.v); numbers are exact; an axis given
    by name or position is already looked up; options are already read by [table] or [fraction].
    Interval labels are Pandas' [pd.Interval], which refuses a left end above the right end or NaN. *)
From Coq Require Import String.
From Verif Require Import Base Num Axis Calc Content Fill FillSpec Tree Order Expr HistAlg Nd Proj Select Table.
Local Open Scope list_scope.

(** The objects in the index: the key of a groupby axis, pd.Interval(lo, hi, closed="left" or
    "right"), str(i) for an integer i, "{NaN}", a bool, "" *)
Inductive label : Type :=
| LKey (k : gkey)
| LIv (lo hi : Num) (lowclosed : bool)
| LText (z : Z)
| LNaN
| LBool (b : bool)
| LEmpty.
Definition pd_interval (lo hi : Num) (lowclosed : bool) : res label :=
  if nleb lo hi then Ok (LIv lo hi lowclosed) else Err ValueError.

(** The labels of the bins of a fixed axis, in order (export.py 102-145).  [last] starts as axis.low and
    then is the previous [this]. *)
Fixpoint bin_labels (n : nat) (low high : Num) (lowclosed : bool) (last : Num) (is : list nat) : res (list label) :=
  match is with
  | [] => Ok []
  | i :: t =>
    let this := nadd (nmul (ndiv (nnat (i + 1)) (nnat n)) (nsub high low)) low in
    do l <- pd_interval last this lowclosed; do r <- bin_labels n low high lowclosed this t; Ok (l :: r)
  end.
(** [last] after the loop is also needed for the overflow of a split axis (132-133). *)
Fixpoint edge_labels (lowclosed : bool) (last : Num) (edges : list Num) : res (list label * Num) :=
  match edges with
  | [] => Ok ([], last)
  | this :: t =>
    do l <- pd_interval last this lowclosed; do r <- edge_labels lowclosed this t; Ok (l :: fst r, snd r)
  end.
Definition opt_label (b : bool) (l : res label) : res (list label) := if b then rmap (fun x => [x]) l else Ok [].
Definition fixed_labels (a : axis) : res (list label) :=
  match a with
  | ABin _ n low high u o nf cl =>
    do r1 <- opt_label u (pd_interval NInf low cl);
    do r2 <- bin_labels n low high cl low (seq 0 n);
    do r3 <- opt_label o (pd_interval high PInf cl);
    do r4 <- opt_label nf (Ok LNaN);
    Ok (r1 ++ r2 ++ r3 ++ r4)
  | AIntbin _ mn mx u o =>
    do r1 <- opt_label u (pd_interval NInf (nz mn) true);
    do r3 <- opt_label o (pd_interval (nz mx) PInf false);
    Ok (r1 ++ map (fun i => LText (mn + Z.of_nat i)) (seq 0 (Z.to_nat (mx + 1 - mn))) ++ r3)
  | ASplit _ edges u o nf cl =>
    match edges with
    | [] => Err IndexError
    | e0 :: es =>
      do r1 <- opt_label u (pd_interval NInf e0 cl);
      do r2 <- edge_labels cl e0 es;
      do r3 <- opt_label o (pd_interval (snd r2) PInf cl);
      do r4 <- opt_label nf (Ok LNaN);
      Ok (r1 ++ fst r2 ++ r3 ++ r4)
    end
  | ACut _ => Ok [LBool false; LBool true]
  | ANull => Ok [LEmpty]
  | _ => Err AssertionError
  end.

(** The label of a group (86-96). *)
Definition group_label (a : axis) (k : gkey) : res label :=
  match a with
  | AGroupbin _ w _ _ cl =>
    match k with
    | GStr s => if String.eqb s "NaN" then Ok LNaN else Err TypeError
    | GNum x => pd_interval x (nadd x w) cl
    end
  | _ => Ok (LKey k)
  end.

(** sorted(content) for a dict: numbers and strings cannot be compared with each other (Python 3), and
    any sort of a list that has both must compare one with the other. *)
Definition is_str (k : gkey) : bool := match k with GStr _ => true | GNum _ => false end.
Definition py_sorted (ks : list gkey) : res (list gkey) :=
  if existsb is_str ks && existsb (fun k => negb (is_str k)) ks then Err TypeError else Ok (sort_keys ks).

(** index (74-145): the arrays and the index rows it appends, and how many of the axes it has reached
    (their [names[j]] are set).  [nofixed] is len(self._fixed) == 0. *)
Definition lookup (k : gkey) (l : list (gkey * pv)) : res pv := match assoc k l with Some c => Ok c | None => Err KeyError end.
Definition indexed : Type := (list pv * list (list label) * nat)%type.
Definition gather (rs : list indexed) : indexed :=
  (flat_map (fun r => fst (fst r)) rs, flat_map (fun r => snd (fst r)) rs, fold_right Nat.max 0 (map snd rs)).
Definition deeper (r : indexed) : indexed := (fst r, S (snd r)).
Fixpoint index (nofixed : bool) (axes : list axis) (content : option pv) (key : list label) : res indexed :=
  match axes with
  | [] =>
    if nofixed then
      match content with Some c => Ok ([c], [key], 0) | None => Err TypeError end
    else Ok ([], [key], 0)
  | a :: axes' =>
    if is_group a then
      match content with
      | Some (PDict l) =>
        do ks <- py_sorted (map fst l);
        do rs <- mapM (fun k => do c <- lookup k l; do lb <- group_label a k; index nofixed axes' (Some c) (key ++ [lb])) ks;
        Ok (deeper (gather rs))
      | _ => Err TypeError
      end
    else
      do ls <- fixed_labels a;
      do rs <- mapM (fun lb => index nofixed axes' None (key ++ [lb])) ls;
      let r := gather rs in
      Ok (deeper ((match content with Some c => [c] | None => [] end) ++ fst (fst r), snd (fst r), snd r))
  end.

(** The DataFrame (147-156).  [f_names]: the names of the index levels, [None] where index never got.
    An index without levels is refused by Pandas.  Without arrays the numbers are missing (NaN). *)
Record frame : Type := { f_names : list (option string); f_index : list (list label); f_cols : list string; f_data : list (list Num) }.
Definition flat_array (c : pv) : list Num := match c with PArr _ d => d | _ => [] end.
Definition to_frame (axes : list axis) (columns : list string) (r : indexed) : res frame :=
  let '(arrays, keys, reached) := r in
  let names := map (fun p => if Nat.ltb (fst p) reached then Some (axis_expr (snd p)) else None) (combine (seq 0 (length axes)) axes) in
  match axes, arrays with
  | [], _ => Err ValueError
  | _, [] => Ok {| f_names := names; f_index := keys; f_cols := columns; f_data := map (fun _ => map (fun _ => NaN) columns) keys |}
  | _, _ =>
    let flat := flat_map flat_array arrays in
    let k := length columns in
    if Nat.eqb (length keys) 0 || negb (Nat.eqb (length flat) (length keys * k)) then Err ValueError
    else Ok {| f_names := names; f_index := keys; f_cols := columns;
               f_data := map (fun r => map (fun j => nth (r * k + j) flat nzero) (seq 0 k)) (seq 0 (length keys)) |}
  end.
Definition make_frame (nofixed : bool) (axes : list axis) (table : pv * list string) : res frame :=
  do r <- index nofixed axes (Some (fst table)) []; to_frame axes (snd table) r.

Section Pandas.
  Variables (sqrt : Num -> Num) (bin_width : nat -> Num -> Num -> Num) (sigmas : Num -> Num)
            (err_name : string -> Num -> string) (parse : string -> expr).
  Definition no_axes (l : list axis) : bool := match l with [] => true | _ => false end.
  Definition with_recarray (o : topts) : topts :=
    {| t_count := t_count o; t_effcount := t_effcount o; t_error := t_error o; t_normalized := t_normalized o; t_recarray := true |}.
  Definition with_frecarray (o : fopts) : fopts :=
    {| f_count := f_count o; f_error := f_error o; f_levels := f_levels o; f_recarray := true |}.
  (** The axes of the histogram that _fraction divides by (proj.py 685-686), which it also returns. *)
  Definition fraction_axes (h : phist) (cut : list axis) : res (list axis) :=
    let hd := p_head h in
    do np <- drop (PH hd (pprefill h)) (o_prof hd);
    do dn <- project np (filter (fun x => negb (axis_in x cut)) (o_group hd ++ o_fixed hd));
    Ok (o_group (p_head dn) ++ o_fixed (p_head dn)).
  (** pandas (38-156), with the options as table and as _fraction read them. *)
  Definition pandas (h : phist) (ot : topts) (of : fopts) (axes : list axis) : res frame :=
    let hd := p_head h in
    let nofixed := no_axes (o_fixed hd) in
    if forallb is_profile axes then
      do t <- table sqrt bin_width h (with_recarray ot) axes;
      make_frame nofixed (o_group hd ++ o_fixed hd) t
    else if forallb is_cut axes then
      do t <- fraction sqrt sigmas err_name parse h (with_frecarray of) axes;
      do xs <- fraction_axes h axes;
      make_frame nofixed xs t
    else Err TypeError.
End Pandas.
