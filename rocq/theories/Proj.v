(** Projection, dropping of profiles, selection and rebinning: /repo/histbook/proj.py 97-512 and the
    methods _select, split, bin, _rebinsplit, _rebinfactor of the axes (axis.py).

    Simplifications: an axis argument is an axis object (looking up an axis by its expression is
    [find_axis] below); [x in list] compares with == (Python tries identity first, which differs only
    for axes whose numbers are NaN); the axis objects of one histogram are distinct.  The attributes
    that the constructor writes into shared axis objects are in Shared.v. *)
From Coq Require Import String.
From Verif Require Import Base Num Axis Calc Content Fill FillSpec HistAlg Nd.
Local Open Scope list_scope.

(** A histogram whose content is any value the methods can leave there; [o_content] of the head is
    not used. *)
Record phist : Type := PH { p_head : hobj; p_content : pv }.
Definition view (h : hobj) : phist := PH (with_content h CNone) (embed (o_layout h) (o_content h)).

Definition axis_in (x : axis) (l : list axis) : bool := existsb (axis_eqb x) l.
Definition all_in (l m : list axis) : bool := forallb (fun x => axis_in x m) l.

(** [self.__class__( *axis, weight=self._weightoriginal, filter=self._filteroriginal,
    defs=dict(self._defs), attachment=dict(self._attachment))]: the constructor sorts the axes by
    kind (hist.py 150-190). *)
Definition rebuild (h : hobj) (axes : list axis) : hobj := {|
  o_group := filter is_group axes; o_fixed := filter is_fixed axes; o_prof := filter is_profile axes;
  o_weight := o_weight h; o_filter := o_filter h; o_defs := o_defs h; o_attach := o_attach h;
  o_content := CNone |}.

(** ** project (proj.py 230-293) *)

(** addany (254-262) *)
Definition any_items (f : pv -> pv -> res pv) (m : list (gkey * pv)) : list (gkey * pv) -> res (list (gkey * pv)) :=
  fix go l := match l with
              | [] => Ok []
              | (n, x) :: t =>
                do y <- match assoc n m with Some x' => f x x' | None => Ok x end;
                do t' <- go t; Ok ((n, y) :: t')
              end.
Definition py_add (a b : pv) : res pv :=
  match a, b with
  | PList l, PList m => Ok (PList (l ++ m))
  | PArr _ _, PArr _ _ | PArr _ _, PList _ | PList _, PArr _ _ =>
    do x <- as_array a; do y <- as_array b; parr (badd (fst x) (snd x) (fst y) (snd y))
  | _, _ => Err TypeError
  end.
Fixpoint addany (a b : pv) {struct a} : res pv :=
  match a, b with
  | PDict l, PDict m =>
    do l' <- any_items addany m l;
    Ok (PDict (l' ++ filter (fun kv => negb (has_key (fst kv) l)) m))
  | _, _ => py_add a b
  end.

(** addall (264-275).  [values[:len(values) // 2]] is empty for one value, and then the list itself is
    returned; the case of an empty right half does not occur.  The recursive call on two values is
    [addany] of them.  [fuel] is the length of the list. *)
Fixpoint addall_fuel (fuel : nat) (values : list pv) : res pv :=
  match fuel with
  | 0 => Err AssertionError
  | S f =>
    match values with
    | [] => Err AssertionError
    | [x] => Ok (PList [x])
    | [x; y] => addany x y
    | _ => let h := length values / 2 in
           do l <- addall_fuel f (firstn h values);
           do r <- addall_fuel f (skipn h values);
           addany l r
    end
  end.
Definition addall (values : list pv) : res pv := addall_fuel (length values) values.

(** projarray (251-252): [keep] tells which fixed axes stay; other dimensions always stay. *)
Definition pad_keep (keep : list bool) (n : nat) : list bool := map (fun j => nth j keep true) (seq 0 n).
Definition projarray (keep : list bool) (c : pv) : res pv :=
  do a <- as_array c;
  if Nat.ltb (length (fst a)) (length keep) then Err IndexError
  else let k := pad_keep keep (length (fst a)) in Ok (PArr (select k (fst a)) (asum k (fst a) (snd a))).

(** projcontent (277-284) *)
Definition proj_items (f : pv -> res pv) : list (gkey * pv) -> res (list (gkey * pv)) :=
  fix go l := match l with
              | [] => Ok []
              | (n, x) :: t => do y <- f x; do t' <- go t; Ok ((n, y) :: t')
              end.
Fixpoint projcontent (groups fixed : list bool) (c : pv) : res pv :=
  match groups with
  | [] => projarray fixed c
  | g :: gs =>
    match c with
    | PDict l => do l' <- proj_items (projcontent gs fixed) l;
                 if g then Ok (PDict l') else addall (map snd l')
    | _ => Err AttributeError
    end
  end.

Definition project (h : phist) (axes : list axis) : res phist :=
  let hd := p_head h in
  let allaxis := o_group hd ++ o_fixed hd in
  if negb (all_in axes allaxis) then Err IndexError
  else
    let out := rebuild hd (filter (fun x => axis_in x axes) allaxis ++ o_prof hd) in
    match p_content h with
    | PNone => Ok (PH out PNone)
    | c => do c' <- projcontent (map (fun x => axis_in x axes) (o_group hd))
                                (map (fun x => axis_in x axes) (o_fixed hd)) c;
           Ok (PH out c')
    end.

(** ** drop (proj.py 186-228).  The positions kept in the last dimension are those the code computes:
    the number [i] of each kept profile (not the two columns 2i, 2i+1), then the sum of weights, then
    the sum of squared weights if there is a weight (not if there is only a filter). *)
Definition drop_index (h : hobj) (dropped : list axis) : list nat :=
  map fst (filter (fun p => negb (axis_in (snd p) dropped)) (combine (seq 0 (length (o_prof h))) (o_prof h)))
  ++ [l_sumw (o_layout h)]
  ++ match o_weight h with Some _ => [l_sumw2 (o_layout h)] | None => [] end.
(** dropcontent (220-224): [content[slc]] with [slc] of as many entries as the histogram's shape; on a
    list, or on an array of another rank, it is an error. *)
Fixpoint dropcontent (n : nat) (index : list nat) (c : pv) : res pv :=
  match c with
  | PDict l => rmap PDict (proj_items (dropcontent n index) l)
  | PArr sh d => if Nat.eqb (length sh) n && forallb (fun i => Nat.ltb i (last sh 0)) index
                 then let a := alast index sh d in Ok (PArr (fst a) (snd a)) else Err IndexError
  | _ => Err TypeError
  end.
Definition drop (h : phist) (profile : list axis) : res phist :=
  let hd := p_head h in
  match profile with
  | [] => Err IndexError
  | _ =>
    if negb (all_in profile (o_prof hd)) then Err IndexError
    else
      let out := rebuild hd (o_group hd ++ o_fixed hd ++ filter (fun x => negb (axis_in x profile)) (o_prof hd)) in
      match p_content h with
      | PNone => Ok (PH out PNone)
      | c => do c' <- dropcontent (length (l_shape (o_layout hd))) (drop_index hd profile) c; Ok (PH out c')
      end
  end.
