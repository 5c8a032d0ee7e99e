(** Axis objects as Python objects that several histograms share: the constructor keeps an axis that has
    already been in a histogram (hist.py 150-157) and writes the axis' place into it (_shapeindex,
    _sumwxindex, hist.py 176-197); fills read these attributes (hist.py 396, 433-434).
    The fill below is that of Fill.v and HistFill.v with the attributes in place of the positions.
    Simplification: _dictindex is written but never read, so it is left out. *)
From Coq Require Import String.
From Verif Require Import Base Num Axis Calc Content Fill Elem Tree Instr HistFill Proj Table.
Local Open Scope list_scope.
Local Open Scope nat_scope.

(** ** Axis objects *)
Record axobj : Type := { x_axis : axis; x_tree : tree; x_shape : nat; x_wx : nat }.
Definition axheap := list axobj.
Definition no_axis : axobj := {| x_axis := ANull; x_tree := TConst (KS SNone); x_shape := 0; x_wx := 0 |}.
Definition obj (X : axheap) (l : nat) : axobj := nth l X no_axis.
(** A histogram refers to its axes. *)
Record ahist : Type := { a_group : list nat; a_fixed : list nat; a_prof : list nat; a_weight : option wexpr }.
Definition axis_at (X : axheap) (l : nat) : axis * tree := (x_axis (obj X l), x_tree (obj X l)).
Definition hist_of (X : axheap) (a : ahist) : hist := {|
  h_group := map (axis_at X) (a_group a); h_fixed := map (axis_at X) (a_fixed a);
  h_prof := map (fun l => x_tree (obj X l)) (a_prof a); h_weight := a_weight a |}.

(** ** The constructor (hist.py 150-197).  An argument is an axis that has not been in a histogram
    (hist.py 154-157: it is copied) or one that has (152: it is used as it is). *)
Inductive axarg : Type := ANew (a : axis) (t : tree) | AOld (l : nat).
Fixpoint alloc_args (X : axheap) (args : list axarg) : axheap * list nat :=
  match args with
  | [] => (X, [])
  | ANew a t :: rest => let '(X', ls) := alloc_args (X ++ [{| x_axis := a; x_tree := t; x_shape := 0; x_wx := 0 |}]) rest in (X', length X :: ls)
  | AOld l :: rest => let '(X', ls) := alloc_args X rest in (X', l :: ls)
  end.
Definition set_shape (i : nat) (x : axobj) : axobj := {| x_axis := x_axis x; x_tree := x_tree x; x_shape := i; x_wx := x_wx x |}.
Definition set_wx (i : nat) (x : axobj) : axobj := {| x_axis := x_axis x; x_tree := x_tree x; x_shape := x_shape x; x_wx := i |}.
(** new._shapeindex = len(self._shape); self._shape.append(...) (184-190) *)
Fixpoint number (set : nat -> axobj -> axobj) (i step : nat) (ls : list nat) (X : axheap) : axheap :=
  match ls with
  | [] => X
  | l :: rest => number set (i + step) step rest (upd (set i) l X)
  end.
Definition construct (X : axheap) (w : option wexpr) (args : list axarg) : axheap * ahist :=
  let '(X1, ls) := alloc_args X args in
  let kind p := filter (fun l => p (x_axis (obj X1 l))) ls in
  let X2 := number set_shape 0 1 (kind is_fixed) X1 in
  let X3 := number set_wx 0 2 (kind is_profile) X2 in
  (X3, {| a_group := kind is_group; a_fixed := kind is_fixed; a_prof := kind is_profile; a_weight := w |}).

(** ** The flat index (hist.py 387-399) with [self._shape[axis._shapeindex]]; [None]: no such entry *)
Fixpoint flat_loop_at (acc : col) (axes : list (option nat * option col)) : res col :=
  match axes with
  | [] => Ok acc
  | (t, d) :: rest =>
    match t, d with
    | None, _ => Err IndexError
    | Some _, None => Err TypeError
    | Some t, Some c => if Nat.eqb (length acc) (length c)
                        then flat_loop_at (map2 (flat_elem t) acc c) rest
                        else Err ValueError
    end
  end.
Definition flat_indexes_at (axes : list (option nat * option col)) : res (option col) :=
  match axes with
  | [] => Ok None
  | [(_, d)] => Ok d
  | (_, d) :: rest => match d with
                      | None => Err AttributeError
                      | Some c => do r <- flat_loop_at c rest; Ok (Some r)
                      end
  end.

(** ** fillblock (hist.py 423-450) with [axis._sumwxindex]; [wx] are those of the profiles *)
Definition add_at_col (k c : nat) (data : list Num) (idx : list Z) (vals : list Num) : res (list Num) :=
  if c <? k then add_at k c data idx vals else Err IndexError.
Fixpoint fill_profiles_at (k : nat) (data : list Num) (idx : option col) (ws : option (list Num * list Num))
         (wx : list nat) (profs : list (list Num * list Num)) : list Num * res (option col * option (list Num * list Num)) :=
  match profs, wx with
  | (sx, sx2) :: rest, c :: wx' =>
    let i := match idx with None => zeros_col sx | Some i => i end in
    match (match ws with
           | None => Ok None
           | Some (w, w2) => do w' <- mask_select i w; do w2' <- mask_select i w2; Ok (Some (w', w2'))
           end) with
    | Err e => (data, Err e)
    | Ok ws' =>
      match (do v <- mul_weight sx ws'; add_at_col k c data (compressed i) v) with
      | Err e => (data, Err e)
      | Ok d1 =>
        match (do v <- mul_weight sx2 ws'; add_at_col k (S c) d1 (compressed i) v) with
        | Err e => (d1, Err e)
        | Ok d2 => fill_profiles_at k d2 (Some i) ws' wx' rest
        end
      end
    end
  | _, _ => (data, Ok (idx, ws))
  end.
Definition fillblock_at (L : layout) (wx : list nat) (len : nat) (data : list Num) (idx : option col)
           (ws : option (list Num * list Num)) (profs : list (list Num * list Num)) : list Num * option err :=
  let k := l_last L in
  match fill_profiles_at k data idx ws wx profs with
  | (d, Err e) => (d, Some e)
  | (d, Ok (idx', None)) =>
    match idx' with
    | None => (add_column k (l_sumw L) d (nmul (nnat len) none1), None)
    | Some i => match add_at k (l_sumw L) d (compressed i) [none1] with
                | Err e => (d, Some e)
                | Ok d' => (d', None)
                end
    end
  | (d, Ok (idx', Some (w, w2))) =>
    let i := match idx' with None => zeros_col w | Some i => i end in
    match (do w' <- mask_select i w; do w2' <- mask_select i w2; Ok (w', w2')) with
    | Err e => (d, Some e)
    | Ok (w', w2') =>
      match add_at k (l_sumw L) d (compressed i) w' with
      | Err e => (d, Some e)
      | Ok d1 => match add_at k (l_sumw2 L) d1 (compressed i) w2' with
                 | Err e => (d1, Some e)
                 | Ok d2 => (d2, None)
                 end
      end
    end
  end.
(** filldict (hist.py 452-491) *)
Fixpoint filldict_at (L : layout) (wx : list nat) (len : nat) (groups : list (list gkey * list Z)) (c : content)
         (idx : option col) (profs : list (list Num * list Num)) (ws : option (list Num * list Num))
         (all : option (list bool)) : content * option err :=
  match groups with
  | [] =>
    match c with
    | CArr data => let '(d, e) := fillblock_at L wx len data idx ws profs in (CArr d, e)
    | _ => (c, Some AttributeError)
    end
  | (uniques, inverse) :: rest =>
    match c with
    | CDict items =>
      let fresh := match rest with [] => CArr (zeros (l_size L)) | _ => CDict [] end in
      let sub := fun i old =>
        let inv := match all with None => inverse | Some a => select a inverse end in
        let sel := map (fun z => (z =? Z.of_nat i)%Z) inv in
        let idx' := match idx with
                    | None => zeros_col (filter (fun b : bool => b) sel)
                    | Some c => select sel c
                    end in
        let profs' := map (fun p => (select sel (fst p), select sel (snd p))) profs in
        let ws' := match ws with None => None | Some (w, w2) => Some (select sel w, select sel w2) end in
        let all' := match all with
                    | None => sel
                    | Some a => map2 (fun b z => b && (z =? Z.of_nat i)%Z) a inverse
                    end in
        filldict_at L wx len rest old (Some idx') profs' ws' (Some all') in
      let '(items', e) := dict_loop sub fresh 0 uniques items in
      (CDict items', e)
    | _ => (c, Some TypeError)
    end
  end.
Definition postfill_at (L : layout) (mults : list (option nat)) (wx : list nat) (len : nat) (d : dest) (c : content) : content * option err :=
  match flat_indexes_at (combine mults (d_fixed d)) with
  | Err e => (c, Some e)
  | Ok idx => filldict_at L wx len (d_group d) c idx (d_prof d) (weights len (d_weight d)) None
  end.

(** Hist.fill (hist.py 375-377) of a histogram whose axes are objects *)
Section Fill.
  Variable cast : Num -> Z.
  Variable rnd : Qc -> Num.
  Variable user : string -> list arg -> res val.
  Variable order : tree -> list tree -> list tree.
  Definition object_fill (srcs : list tree) (X : axheap) (a : ahist) (A : arrays) (c : content) : content * option err :=
    let h := hist_of X a in
    let L := hist_layout h in
    let c0 := prefill L (length (h_group h)) c in
    match (do is <- instructions order srcs (hist_goals h);
           do _ <- fields srcs;
           do r <- fill_arrays cast rnd user A is;
           do d <- read_dest h (snd r);
           Ok (fst r, d)) with
    | Err e => (c0, Some e)
    | Ok (len, d) =>
      postfill_at L (map (fun l => nth_error (l_tots L ++ [l_last L]) (x_shape (obj X l))) (a_fixed a))
                  (map (fun l => x_wx (obj X l)) (a_prof a)) len d c0
    end.
End Fill.

(** ** The axes that derived histograms are constructed with *)
(** project (proj.py 283-285): the kept axes, and all profiles *)
Definition project_args (keep : nat -> bool) (a : ahist) : list axarg := map AOld (filter keep (a_group a ++ a_fixed a) ++ a_prof a).
(** drop (proj.py 225) *)
Definition drop_args (keep : nat -> bool) (a : ahist) : list axarg := map AOld (a_group a ++ a_fixed a ++ filter keep (a_prof a)).
(** select and rebin (proj.py 131-132, 480-483): one axis replaced by a new object *)
Definition replace_args (cut : nat) (x : axis) (t : tree) (a : ahist) : list axarg :=
  map (fun l => if Nat.eqb l cut then ANew x t else AOld l) (a_group a ++ a_fixed a ++ a_prof a).
(** select of a cut axis (480-483, with the null axis removed) *)
Definition remove_args (cut : nat) (a : ahist) : list axarg := map AOld (filter (fun l => negb (Nat.eqb l cut)) (a_group a ++ a_fixed a ++ a_prof a)).
(** copy, copyonfill, cleared, weight, filter, systematic (hist.py 58-98).  (+ and * make the new object
    without the constructor: hist.py 528-530, 579-581.) *)
Definition same_args (a : ahist) : list axarg := map AOld (a_group a ++ a_fixed a ++ a_prof a).
(** Hist.group (hist.py 639-647) *)
Definition group_args (x : axis) (t : tree) (a : ahist) : list axarg := ANew x t :: same_args a.

(** Hist.table (proj.py 488-624) of a histogram whose axes are objects: the columns of a profile are read
    from the axis object (608-611).  [h] is the histogram with its contents. *)
Definition object_table (sqrt : Num -> Num) (bin_width : nat -> Num -> Num -> Num) (X : axheap) (a : ahist) (h : phist) (o : topts) (profile : list axis) :=
  table_with sqrt bin_width (fun i => x_wx (obj X (nth i (a_prof a) 0))) h o profile.
