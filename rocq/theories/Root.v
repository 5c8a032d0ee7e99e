(** Export to ROOT: /repo/histbook/export.py 158-322.

    Simplifications: an axis given by name or position is already looked up; the name, the title and the
    cache of the result are left out; numbers are exact; ROOT objects are what the calls store in them:
    SetContent, SetError, SetEntries, SetBinEntries, SetBinContent, SetBinError.  (ROOT's own SetBinContent
    also counts its calls, which would change GetEntries of a profile; that is not modelled.)  TH1D and
    TProfile are made with [xaxis.numbins, xaxis.low, xaxis.high], for at least one bin. *)
From Coq Require Import String.
From Verif Require Import Base Num Axis Calc Content Fill FillSpec Tree Order Expr HistAlg Nd Proj Select Table.
Local Open Scope list_scope.

(** The object: number of bins, low and high edge, and arrays of n + 2 numbers. *)
Record th1 : Type := { r_bins : nat; r_low : Num; r_high : Num; r_content : list Num; r_total : Num; r_errors : option (list Num) }.
Record tprofile : Type := { q_bins : nat; q_lower : Num; q_upper : Num; q_total : Num; q_entries : list Num; q_content : list Num; q_errors : list Num }.
Inductive robject : Type := TH1D (r : th1) | TProfile (q : tprofile).

(** xaxis.numbins, .low, .high, .underflow, .overflow, .nanflow (axis.py 603-629, 1086-1117): only bin and
    split have them all; intbin and cut have no .low. *)
Definition root_range (a : axis) : res (nat * Num * Num * bool * bool * bool) :=
  match a with
  | ABin _ n l h u o nf _ => Ok (n, l, h, u, o, nf)
  | ASplit _ es u o nf _ => Ok (length es - 1, nth 0 es nzero, last es nzero, u, o, nf)
  | _ => Err AttributeError
  end.

(** numpy.zeros(n + 2) with [lo:hi] = src (258-259): as many numbers as places, or one for all of them. *)
Definition assign_slice (n lo hi : nat) (src : list Num) : res (list Num) :=
  if Nat.eqb (length src) (hi - lo) then
    Ok (map (fun i => if Nat.leb lo i && Nat.ltb i hi then nth (i - lo) src nzero else nzero) (seq 0 n))
  else if Nat.eqb (length src) 1 then
    Ok (map (fun i => if Nat.leb lo i && Nat.ltb i hi then nth 0 src nzero else nzero) (seq 0 n))
  else Err ValueError.
(** entries[(0 if underflow else 1) : (None if overflow else -1)] = column[: (-1 if nanflow else None)] *)
Definition root_array (n : nat) (u o nf : bool) (column : list Num) : res (list Num) :=
  assign_slice (n + 2) (if u then 0 else 1) (if o then n + 2 else n + 1) (if nf then removelast column else column).

(** content[name] and content[content.dtype.names[j]] of a record array *)
Fixpoint name_index (s : string) (l : list string) : option nat :=
  match l with
  | [] => None
  | x :: t => if String.eqb x s then Some 0 else option_map S (name_index s t)
  end.
Definition field (T : pv) (ncols j : nat) : res (list Num) :=
  match T with
  | PArr _ d => if Nat.ltb j ncols then Ok (map (fun r => nth (r * ncols + j) d nzero) (seq 0 (length d / ncols))) else Err IndexError
  | _ => Err TypeError
  end.
Definition named_field (T : pv) (names : list string) (s : string) : res (list Num) :=
  match name_index s names with Some j => field T (length names) j | None => Err KeyError end.

Definition is_groupby (a : axis) : bool := match a with AGroupby _ => true | _ => false end.
Definition is_groupbin (a : axis) : bool := match a with AGroupbin _ _ _ _ _ => true | _ => false end.
(** The loop that separates the profile from the other axes (196-204). *)
Fixpoint split_profile (axes : list axis) (prof : option axis) : res (list axis * option axis) :=
  match axes with
  | [] => Ok ([], prof)
  | a :: t =>
    if is_profile a then
      match prof with None => split_profile t (Some a) | Some _ => Err ValueError end
    else do r <- split_profile t prof; Ok (a :: fst r, snd r)
  end.

Section Root.
  Variables (sqrt : Num -> Num) (bin_width : nat -> Num -> Num -> Num).
  (** the options of the tables (207-210) *)
  Definition root_opts (error : bool) : topts := {| t_count := true; t_effcount := false; t_error := error; t_normalized := false; t_recarray := true |}.
  (** 252-268 *)
  Definition make_th1 (a : axis) (T : pv) (names : list string) : res robject :=
    do r <- root_range a; let '(n, l, h, u, o, nf) := r in
    do counts <- named_field T names "count()";
    do entries <- root_array n u o nf counts;
    do errors <- match name_index "err(count())" names with
                 | Some j => do e <- field T (length names) j; do e' <- root_array n u o nf e; Ok (Some e')
                 | None => Ok None
                 end;
    Ok (TH1D {| r_bins := n; r_low := l; r_high := h; r_content := entries; r_total := nsum entries; r_errors := errors |}).
  (** 270-291 *)
  Definition zip2 (f : Num -> Num -> Num) (x y : list Num) : list Num := map (fun p => f (fst p) (snd p)) (combine x y).
  Definition make_tprofile (a : axis) (T : pv) (names : list string) : res robject :=
    do r <- root_range a; let '(n, l, h, u, o, nf) := r in
    let k := length names in
    do c0 <- field T k 0; do entries <- root_array n u o nf c0;
    do c2 <- field T k 2; do contents <- root_array n u o nf c2;
    do c3 <- field T k 3; do errors <- root_array n u o nf c3;
    let sum2 := zip2 nadd (zip2 nmul (zip2 nmul errors errors) entries) (zip2 nmul contents contents) in
    Ok (TProfile {| q_bins := n; q_lower := l; q_upper := h; q_total := nsum entries; q_entries := entries;
                    q_content := zip2 nmul contents entries; q_errors := map sqrt (zip2 nmul sum2 entries) |}).
  (** root (158-322); the branches for more axes are all errors. *)
  Definition root (h : phist) (axes : list axis) : res robject :=
    let hd := p_head h in
    let chosen := match axes with [] => o_group hd ++ o_fixed hd | _ => axes end in
    if negb (all_in chosen (o_group hd ++ o_fixed hd ++ o_prof hd)) then Err IndexError else
    do s <- split_profile chosen None;
    let '(binaxis, prof) := s in
    do projected <- project h binaxis;
    do t <- match prof with
            | None => table sqrt bin_width projected (root_opts (l_weighted (o_layout hd))) []
            | Some p => table sqrt bin_width projected (root_opts true) [p]
            end;
    let none := match prof with None => true | _ => false end in
    match binaxis with
    | [] => Err TypeError
    | [a] =>
      if is_groupby a then Err NotImplementedError
      else if is_groupbin a then Err (if none then NotImplementedError else TypeError)
      else if none then make_th1 a (fst t) (snd t) else make_tprofile a (fst t) (snd t)
    | [a; b] =>
      if is_groupby a || is_groupby b then Err NotImplementedError
      else if is_groupbin a || is_groupbin b then Err (if none then NotImplementedError else TypeError)
      else Err NotImplementedError
    | _ =>
      if existsb is_groupby binaxis then Err TypeError
      else if existsb is_groupbin binaxis then Err (if none then NotImplementedError else TypeError)
      else if Nat.eqb (length binaxis) 3 || none then Err NotImplementedError else Err TypeError
    end.
End Root.
