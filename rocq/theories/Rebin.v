(** Rebinning: rebin and rebinby (/repo/histbook/proj.py 97-180) and the methods split, bin and
    _rebinsplit of the axes (axis.py 659-665, 685-686, 880-889, 908-909, 1146-1207).

    Simplifications, as in Proj.v: the axis argument is an axis object or the parsed form of the string
    given ([find_axis] is the search in the second loop); edges are numbers; the list of slices that
    indexes an array means the same as the tuple (Numpy before 1.23).  Arithmetic on the edges is exact. *)
From Coq Require Import String.
From Verif Require Import Base Num Axis Calc Content Fill FillSpec HistAlg Nd Proj Select Expr.
Local Open Scope list_scope.

(** isinstance(x, _RebinSplit), isinstance(x, _RebinFactor) (axis.py 235-236 and the class headers) *)
Definition has_rebin (a : axis) : bool :=
  match a with ABin _ _ _ _ _ _ _ _ | AIntbin _ _ _ _ _ | ASplit _ _ _ _ _ _ => true | _ => false end.
Definition has_rebinby (a : axis) : bool :=
  match a with AGroupbin _ _ _ _ _ => true | _ => has_rebin a end.

(** bin.split (659-665), intbin.bin (880-886), intbin.split (888-889).  A split stands for itself. *)
Definition bin_to_split (e : string) (n : nat) (l h : Num) (u o nf cl : bool) : res axis :=
  mk_split e (map (i2x n l h) (seq 0 n) ++ [h]) u o nf cl.
Definition half : Num := Fin (qfrac 1 2).
Definition to_split (a : axis) : res axis :=
  match a with
  | ABin e n l h u o nf cl => bin_to_split e n l h u o nf cl
  | AIntbin e mn mx u o =>
    do b <- mk_bin e (Z.to_nat (mx - mn + 1)) (nsub (nz mn) half) (nadd (nz mx) half) u o false true;
    match b with
    | ABin e n l h u o nf cl => bin_to_split e n l h u o nf cl
    | _ => Err TypeError
    end
  | ASplit _ _ _ _ _ _ => Ok a
  | _ => Err AttributeError
  end.

(** The slices of the old array that are summed into the positions of the new one, in order (1165-1196):
    [scan] is "while self._edges[oldi2] < edge: oldi2 += 1", started at the rest of the edges. *)
Fixpoint scan (rest : list Num) (oldi2 : nat) (edge : Num) : res nat :=
  match rest with
  | [] => Err IndexError
  | x :: t => if nltb x edge then scan t (oldi2 + 1) edge else Ok oldi2
  end.
(** the loop over newaxis._edges[1:]; the second component is [oldi] after the loop *)
Fixpoint bin_ranges (es : list Num) (u : bool) (oldi oldi2 : nat) (news : list Num) : res (list (nat * nat) * nat) :=
  match news with
  | [] => Ok ([], oldi)
  | edge :: t =>
    do j <- scan (skipn oldi2 es) oldi2 edge;
    let oldi2 := if u then j + 1 else j in
    do r <- bin_ranges es u oldi2 (if u then oldi2 else oldi2 + 1) t;
    Ok ((oldi, oldi2) :: fst r, snd r)
  end.
Definition rebin_ranges (es : list Num) (u o nf : bool) (news : list Num) : res (list (nat * nat)) :=
  match news with
  | [] => Err IndexError
  | edge :: t =>
    do j <- scan es 0 edge;
    let oldi2 := if u then j + 1 else j in
    do r <- bin_ranges es u oldi2 (if u then oldi2 else oldi2 + 1) t;
    let last := length es - 1 + b2n u + b2n o in
    Ok ((if u then [(0, oldi2)] else []) ++ fst r ++ (if o then [(snd r, last)] else []) ++ (if nf then [(last, last + 1)] else []))
  end.

(** recurse (1158-1199).  newcontent starts as numpy.empty; positions no slice is written to would stay
    undefined, here the sum of nothing (there are none, see RebinProofs.v). *)
Definition range_sums (q : nat) (sh : list nat) (d : list Num) (r : nat * nat) : list Num :=
  let ss := map (fun j => if Nat.eqb j q then Slice (Some (Z.of_nat (fst r))) (Some (Z.of_nat (snd r))) else full) (seq 0 (length sh)) in
  asum (map (fun j => negb (Nat.eqb j q)) (seq 0 (length sh))) (aslice_shape ss sh) (aslice ss sh d).
Definition rebin_data (q : nat) (rs : list (nat * nat)) (numbins : nat) (sh : list nat) (d : list Num) : list Num :=
  let keep := map (fun j => negb (Nat.eqb j q)) (seq 0 (length sh)) in
  anew (replace_nth q numbins sh) (fun i => aget (select keep sh) (range_sums q sh d (nth (nth q i 0) rs (0, 0))) (select keep i)).
Definition rebin_array (q : nat) (es news : list Num) (u o nf : bool) (sh : list nat) (d : list Num) : res pv :=
  if Nat.leb (length sh) q then Err IndexError
  else do rs <- rebin_ranges es u o nf news;
       let numbins := length news - 1 + b2n u + b2n o + b2n nf in
       Ok (PArr (replace_nth q numbins sh) (rebin_data q rs numbins sh d)).
Fixpoint rebin_content (f : list nat -> list Num -> res pv) (c : pv) : res pv :=
  match c with
  | PDict l => rmap PDict (proj_items (rebin_content f) l)
  | PArr sh d => f sh d
  | _ => Err AttributeError
  end.

(** split._rebinsplit (1146-1204), bin._rebinsplit (685-686), intbin._rebinsplit (908-909) *)
Definition rebinsplit (a : axis) (edges : list Num) (c : pv) (q : nat) : res (axis * pv) :=
  do s <- to_split a;
  match s with
  | ASplit e es u o nf cl =>
    if forallb (fun x => existsb (neqb x) es) edges then
      do a' <- mk_split e edges u o nf cl;
      match a', c with
      | _, PNone => Ok (a', PNone)
      | ASplit _ news _ _ _ _, _ => do c' <- rebin_content (rebin_array q es news u o nf) c; Ok (a', c')
      | _, _ => Err TypeError
      end
    else Err ValueError
  | _ => Err TypeError
  end.

(** rebin (97-136): the axis by itself, or by its expression *)
Inductive axis_arg : Type := ByAxis (a : axis) | ByExpr (e : expr).
Fixpoint find_axis (p : axis -> bool) (i : nat) (l : list axis) : option (nat * axis) :=
  match l with
  | [] => None
  | x :: t => if p x then Some (i, x) else find_axis p (i + 1) t
  end.
Definition find_arg (parse : string -> expr) (ok : axis -> bool) (arg : axis_arg) (l : list axis) : option (nat * axis) :=
  match arg with
  | ByAxis a => find_axis (fun x => ok x && axis_eqb a x) 0 l
  | ByExpr e => match find_axis (fun x => ok x && expr_same e (parse (axis_expr x))) 0 l with
                | Some (_, a) => find_axis (fun x => ok x && axis_eqb a x) 0 l
                | None => None
                end
  end.
Definition rebin (parse : string -> expr) (h : phist) (arg : axis_arg) (edges : list Num) : res phist :=
  let hd := p_head h in
  match find_arg parse has_rebin arg (o_group hd ++ o_fixed hd) with
  | None => Err IndexError
  | Some (p, x) =>
    do r <- rebinsplit x edges (p_content h) (p - length (o_group hd));
    Ok (PH (rebuild hd (replace_nth p (fst r) (o_group hd ++ o_fixed hd ++ o_prof hd))) (snd r))
  end.

(** rebinby (138-180) passes the factor, a number, where _rebinsplit expects edges, and groupbin has no
    _rebinsplit: [x for x in edges] raises TypeError for a number. *)
Definition rebinby (parse : string -> expr) (h : phist) (arg : axis_arg) (factor : Z) : res phist :=
  let hd := p_head h in
  if (factor <=? 0)%Z then Err TypeError
  else match find_arg parse has_rebinby arg (o_group hd ++ o_fixed hd) with
       | None => Err IndexError
       | Some (_, AGroupbin _ _ _ _ _) => Err AttributeError
       | Some (_, x) => do _ <- to_split x; Err TypeError
       end.
