(** Tables and fractions: /repo/histbook/proj.py 488-790 and the properties binwidth and finiteslice
    of the axes (axis.py).

    Simplifications: numpy.sqrt, the number of standard deviations of a confidence level
    (level2sigmas, proj.py 706-718), the rounded width of a bin (bin.binwidth, axis.py 631-639) and the
    label of an error column are parameters.  A record array is modelled as the plain array whose last
    dimension runs over the columns.  Arguments are axis objects. *)
From Coq Require Import String Ascii.
From Verif Require Import Base Num Axis Calc Content Fill FillSpec Tree Order Expr HistAlg Nd Proj Select.
Local Open Scope list_scope.

(** self._prefill() (hist.py 379-384) *)
Definition pprefill (h : phist) : pv :=
  match p_content h with
  | PNone => if Nat.eqb (length (o_group (p_head h))) 0
             then PArr (l_shape (o_layout (p_head h))) (zeros (l_size (o_layout (p_head h)))) else PDict []
  | c => c
  end.

(** handle (proj.py 608-612): dicts are kept, arrays are tabulated. *)
Fixpoint thandle (f : list nat -> list Num -> res pv) (c : pv) : res pv :=
  match c with
  | PDict l => rmap PDict (proj_items (thandle f) l)
  | PArr sh d => f sh d
  | _ => Err AttributeError                    (* None and lists have no reshape *)
  end.

(** The record type of a record array: names must differ.  (A table without columns is not modelled
    faithfully: Numpy's exception may be another one.) *)
Fixpoint has_dup (l : list string) : bool :=
  match l with
  | [] => false
  | x :: t => existsb (String.eqb x) t || has_dup t
  end.
(** The output array (568, 602-606): one row per bin; [cols] are the columns that were assigned, the
    others stay zero. *)
Definition fill_cols (nrows ncols : nat) (cols : list (list Num)) : list Num :=
  flat_map (fun r => map (fun j => nth r (nth j cols []) nzero) (seq 0 ncols)) (seq 0 nrows).
Definition prodn (sh : list nat) : nat := fold_right Nat.mul 1 sh.
Definition finish (recarray : bool) (tots : list nat) (names : list string) (nrows : nat) (cols : list (list Num)) : res pv :=
  let out := fill_cols nrows (length names) cols in
  if recarray then
    if has_dup names || Nat.eqb (length names) 0 || negb (Nat.eqb nrows (prodn tots)) then Err ValueError
    else Ok (PArr (tots ++ [length names]) out)
  else
    if Nat.eqb (length out) (prodn (tots ++ [length cols])) then Ok (PArr (tots ++ [length cols]) out) else Err ValueError.

(** finiteslice (axis.py 642-646, 858-862, 1107-1111, 1339-1340) and numbins *)
Definition num_bins (a : axis) : nat :=
  match a with
  | ABin _ n _ _ _ _ _ _ => n
  | AIntbin _ mn mx _ _ => Z.to_nat (mx - mn + 1)
  | ASplit _ es _ _ _ _ => length es - 1
  | ACut _ => 2
  | _ => 0
  end.
Definition finite_slice (a : axis) : res slc :=
  let after (u : bool) := Slice (Some (b2z u)) (Some (b2z u + Z.of_nat (num_bins a))%Z) in
  match a with
  | ABin _ _ _ _ u _ _ _ | AIntbin _ _ _ u _ | ASplit _ _ u _ _ _ => Ok (after u)
  | ACut _ => Ok (Slice (Some 0%Z) (Some 2%Z))
  | _ => Err AttributeError
  end.

Section Table.
  Variable sqrt : Num -> Num.
  Variable bin_width : nat -> Num -> Num -> Num.

  (** binwidth: a number, or one number per bin (axis.py 254-255, 390-391, 631-639, 854-855, 1095-1104,
      1335-1336) *)
  Inductive widths_of : Type := OneWidth (w : Num) | Widths (ws : list Num).
  Fixpoint gaps (es : list Num) : list Num :=
    match es with
    | x :: t => match t with y :: _ => nsub y x :: gaps t | [] => [] end
    | [] => []
    end.
  Definition axis_widths (a : axis) : widths_of :=
    match a with
    | AGroupbin _ w _ _ _ => OneWidth w
    | ABin _ n l h _ _ _ _ => OneWidth (bin_width n l h)
    | ASplit _ es _ _ _ _ => Widths (gaps es)
    | _ => OneWidth none1
    end.

  (** binwidths (542-558): infinite outside the finite region, then multiplied axis by axis.  The
      widths of a split are a one-dimensional array, which Numpy aligns with the last dimension. *)
  Definition inside (ss : list slc) (sh i : list nat) : bool :=
    forallb (fun p => let '(s, (n, j)) := p in Nat.leb (slice_lo s n) j && Nat.ltb j (slice_hi s n)) (combine ss (combine sh i)).
  Definition mul_widths (tots : list nat) (ss : list slc) (w : widths_of) (b : list Num) : res (list Num) :=
    let region (f : list nat -> Num) :=
      anew tots (fun i => if inside ss tots i then nmul (aget tots b i) (f i) else aget tots b i) in
    match w with
    | OneWidth x => Ok (region (fun _ => x))
    | Widths ws =>
      let n := last tots 0 in
      let m := slice_len (last ss full) n in
      if Nat.eqb (length ws) m then Ok (region (fun i => nth (last i 0 - slice_lo (last ss full) n) ws nzero))
      else if Nat.eqb (length ws) 1 then Ok (region (fun _ => nth 0 ws nzero))
      else Err ValueError
    end.
  Fixpoint width_loop (tots : list nat) (fs : list slc) (i : nat) (axes : list axis) (b : list Num) : res (list Num) :=
    match axes with
    | [] => Ok b
    | a :: t =>
      do b' <- mul_widths tots (map (fun j => if Nat.eqb j i then nth j fs full else full) (seq 0 (length tots))) (axis_widths a) b;
      width_loop tots fs (S i) t b'
    end.
  Definition binwidths (h : hobj) : res (list Num) :=
    let tots := l_tots (o_layout h) in
    let groupbins := fold_left (fun g a => match a with AGroupbin _ w _ _ _ => nmul g w | _ => g end) (o_group h) none1 in
    do gs <- mapM finite_slice (o_group h);
    do fs <- mapM finite_slice (o_fixed h);
    width_loop tots fs 0 (o_fixed h) (anew tots (fun i => if inside (gs ++ fs) tots i then groupbins else PInf)).

  Record topts : Type := { t_count : bool; t_effcount : bool; t_error : bool; t_normalized : bool; t_recarray : bool }.

  (** The labels (528-540) *)
  Definition err_of (s : string) : string := String.append "err(" (String.append s ")").
  Definition table_columns (o : topts) (profs : list axis) : list string :=
    (if t_count o then "count()"%string :: (if t_error o then ["err(count())"%string] else []) else []) ++
    (if t_effcount o then ["effcount()"%string] else []) ++
    flat_map (fun p => axis_expr p :: (if t_error o then [err_of (axis_expr p)] else [])) profs.

  (** handlearray (560-606).  [wx i] is the _sumwxindex of the profile with number [i]; its _sumwx2index
      is the next one. *)
  Definition table_array (wx : nat -> nat) (h : hobj) (o : topts) (names : list string) (profs : list nat) (widths : list Num)
             (sh : list nat) (d : list Num) : res pv :=
    let L := o_layout h in
    let k := l_last L in
    let nrows := length d / k in
    if negb (Nat.eqb (nrows * k) (length d)) then Err ValueError else
    let rows := seq 0 nrows in
    let item r j := nth (r * k + j) d nzero in
    let sumw r := item r (l_sumw L) in
    let err r := sqrt (if l_weighted L then item r (l_sumw2 L) else sumw r) in
    let good r := nltb nzero (sumw r) in
    let effcnt r := if l_weighted L then ndiv (nmul (sumw r) (sumw r)) (item r (l_sumw2 L)) else sumw r in
    let where_good (f : nat -> Num) := map (fun r => if good r then f r else nzero) rows in
    do counts <- (if t_count o then
                    if t_normalized o then
                      if negb (Nat.eqb (length widths) nrows) then Err ValueError else
                      let shaped r := nth r widths nzero in
                      let total := nsum (map (fun r => ndiv (sumw r) (shaped r)) rows) in
                      let correction r := nmul total (shaped r) in
                      Ok (map (fun r => ndiv (sumw r) (correction r)) rows ::
                          (if t_error o then [map (fun r => ndiv (err r) (correction r)) rows] else []))
                    else Ok (map sumw rows :: (if t_error o then [map err rows] else []))
                  else Ok []);
    let mean i r := ndiv (item r (wx i)) (sumw r) in
    let means i := where_good (mean i) ::
      (if t_error o
       then [where_good (fun r => sqrt (ndiv (nsub (ndiv (item r (S (wx i))) (sumw r)) (nmul (mean i r) (mean i r))) (effcnt r)))]
       else []) in
    finish (t_recarray o) (l_tots L) names nrows
           (counts ++ (if t_effcount o then [where_good effcnt] else []) ++ flat_map means profs).

  (** self._profile.index(prof) (524) *)
  Fixpoint index_of (x : axis) (l : list axis) : option nat :=
    match l with
    | [] => None
    | y :: t => if axis_eqb y x then Some 0 else option_map S (index_of x t)
    end.
  Definition profile_index (h : hobj) (prof : axis) : res nat :=
    match index_of prof (o_prof h) with Some i => Ok i | None => Err IndexError end.

  Definition table_with (wx : nat -> nat) (h : phist) (o : topts) (profile : list axis) : res (pv * list string) :=
    let hd := p_head h in
    let c := pprefill h in
    do is <- mapM (profile_index hd) profile;
    let names := table_columns o (map (fun i => nth i (o_prof hd) ANull) is) in
    do ws <- (if t_normalized o then binwidths hd else Ok []);
    do out <- thandle (table_array wx hd o names is ws) c;
    Ok (out, names).
  (** The constructor gives profile number i the columns 2i and 2i+1 (hist.py 190-196). *)
  Definition table (h : phist) (o : topts) (profile : list axis) : res (pv * list string) :=
    table_with (fun i => 2 * i) h o profile.

  (** ** _fraction (647-790) *)
  Variable sigmas : Num -> Num.
  Variable err_name : string -> Num -> string.
  Variable parse : string -> expr.
  Definition is_cut (a : axis) : bool := match a with ACut _ => true | _ => false end.
  (** The error option: None (or ""), "normal", "wilson", one of the names that are not implemented, or
      any other string. *)
  Inductive ferror : Type := FNone | FNormal | FWilson | FUnimplemented | FOther.
  Definition no_error (e : ferror) : bool := match e with FNone => true | _ => false end.
  Record fopts : Type := { f_count : bool; f_error : ferror; f_levels : list Num; f_recarray : bool }.
  Definition fraction_columns (o : fopts) (cuts : list axis) : list string :=
    (if f_count o then ["count()"%string] else []) ++
    flat_map (fun c => axis_expr c :: (if no_error (f_error o) then [] else map (err_name (axis_expr c)) (f_levels o))) cuts.

  Definition half : Num := Fin (qfrac 1 2).
  Definition quarter : Num := Fin (qfrac 1 4).
  Definition nsq (x : Num) : Num := nmul x x.
  Definition normal_err (level p n : Num) : Num :=
    nmul (sigmas level) (sqrt (ndiv (nmul p (nsub none1 p)) n)).
  Definition wilson_err (level p n : Num) : Num :=
    let z := sigmas level in
    ndiv (nadd (nadd p (ndiv (nmul half (nsq z)) n))
               (nmul z (sqrt (nadd (ndiv (nmul p (nsub none1 p)) n) (ndiv (nmul quarter (nsq z)) (nsq n))))))
         (nadd none1 (ndiv (nsq z) n)).

  (** handlearray (720-778).  [denom] and [cuts] are the heads of the histograms, [ccs] the contents of
      the cut ones. *)
  Definition frac_columns (o : fopts) (nrows : nat) (sumw : nat -> Num) (k j : nat) (cc : pv) : res (list (list Num)) :=
    match cc with
    | PArr _ d =>
      if negb (Nat.eqb (length d / k * k) (length d)) then Err ValueError
      else if negb (Nat.eqb (length d / k) nrows) then Err IndexError
      else
        let p r := ndiv (nth (r * k + j) d nzero) (sumw r) in
        let where_good (f : nat -> Num) := map (fun r => if nltb nzero (sumw r) then f r else nzero) (seq 0 nrows) in
        match f_error o with
        | FNone | FOther => Ok [where_good p]
        | FNormal => Ok (where_good p :: map (fun l => where_good (fun r => normal_err l (p r) (sumw r))) (f_levels o))
        | FWilson => Ok (where_good p :: map (fun l => where_good (fun r => wilson_err l (p r) (sumw r))) (f_levels o))
        | FUnimplemented => Err NotImplementedError
        end
    | _ => Err AttributeError
    end.
  Definition frac_array (o : fopts) (names : list string) (denom : hobj) (cuts : list hobj) (d : list Num) (ccs : list pv) : res pv :=
    let L := o_layout denom in
    let k := l_last L in
    let nrows := length d / k in
    if negb (Nat.eqb (nrows * k) (length d)) then Err ValueError else
    let sumw r := nth (r * k + l_sumw L) d nzero in
    do fs <- mapM (fun hc => frac_columns o nrows sumw (l_last (o_layout (fst hc))) (l_sumw (o_layout (fst hc))) (snd hc)) (combine cuts ccs);
    finish (f_recarray o) (l_tots L) names nrows ((if f_count o then [map sumw (seq 0 nrows)] else []) ++ concat fs).
  (** handle (780-784) *)
  Definition frac_key (n : gkey) (cc : pv) : res pv :=
    match cc with
    | PDict l => match assoc n l with Some x => Ok x | None => Err KeyError end
    | _ => Err TypeError
    end.
  Definition frac_items (f : pv -> list pv -> res pv) (ccs : list pv) : list (gkey * pv) -> res (list (gkey * pv)) :=
    fix go l := match l with
                | [] => Ok []
                | (n, x) :: t => do xs <- mapM (frac_key n) ccs; do y <- f x xs; do t' <- go t; Ok ((n, y) :: t')
                end.
  Fixpoint frac_handle (f : list Num -> list pv -> res pv) (c : pv) (ccs : list pv) : res pv :=
    match c with
    | PDict l => rmap PDict (frac_items (frac_handle f) ccs l)
    | PArr _ d => f d ccs
    | _ => Err AttributeError
    end.

  (** The cut axis of the projection (683-687), by its position among the fixed axes *)
  Fixpoint find_cut (c : axis) (l : list axis) : option nat :=
    match l with
    | [] => None
    | a :: t => if is_cut a && expr_same (parse (axis_expr c)) (parse (axis_expr a)) then Some 0 else option_map S (find_cut c t)
    end.
  Definition cut_hist (h : phist) (allaxis : list axis) (cuts : list axis) (c : axis) : res phist :=
    do g <- project h (filter (fun x => axis_eqb x c || negb (axis_in x cuts)) allaxis);
    match find_cut c (o_fixed (p_head g)) with
    | None => Err AssertionError
    | Some q => select_axis g (length (o_group (p_head g)) + q) ANull (CutSlice (Slice (Some 1%Z) (Some 2%Z))) false
    end.
  Definition fraction (h : phist) (o : fopts) (cut : list axis) : res (pv * list string) :=
    let hd := p_head h in
    let h' := PH hd (pprefill h) in
    if negb (forallb (fun c => axis_in c (o_fixed hd) && is_cut c) cut) then Err IndexError else
    let allaxis := o_group hd ++ o_fixed hd in
    do np <- drop h' (o_prof hd);
    do dn <- project np (filter (fun x => negb (axis_in x cut)) allaxis);
    do cs <- mapM (cut_hist np allaxis cut) cut;
    let names := fraction_columns o cut in
    do out <- frac_handle (frac_array o names (p_head dn) (map p_head cs)) (p_content dn) (map p_content cs);
    Ok (out, names).
End Table.
