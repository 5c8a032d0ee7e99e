(** The encoding of a plot: /repo/histbook/vega.py 603-717, 819-885.

    Modelled: the fields, the order of the colours, the order of the stack, the layers.  Not modelled: marks,
    titles, scales, sizes.  str() of a key is left symbolic. *)
From Coq Require Import String.
From Verif Require Import Base Num Axis Calc Content Fill FillSpec Tree Order Expr HistAlg Nd Proj Select Table Pandas Vega.
Local Open Scope list_scope.

(** str(x) for the keys in domains (656, 661): a label as in the data, "True" or "False", an integer; or a
    string the user gave as [order] (663). *)
Inductive word : Type := WText (t : text) | WBool (b : bool) | WInt (z : Z) | WGiven (s : string).
Definition str_of (k : dkey) : word :=
  match k with
  | DGroup g => WText (XKey g)
  | DBin (KBool b) => WBool b
  | DBin (KInt z) => WInt z
  | DBin k' => WText (XBin k')
  end.

(** The expression that makeorder writes (644-650): [OIf v i e] is if(datum.<var> === v, i, e). *)
Inductive ordering : Type := OIf (v : word) (i : nat) (e : ordering) | ONum (i : nat).
Fixpoint makeorder (i : nat) (values : list word) : res ordering :=
  match values with
  | [] => Err AssertionError
  | [v] => Ok (OIf v i (ONum (i + 1)))
  | v :: t => do e <- makeorder (i + 1) t; Ok (OIf v i e)
  end.
(** What Vega computes from it for a datum whose field holds the word [w]. *)
Fixpoint ordering_value (same : word -> word -> bool) (o : ordering) (w : word) : nat :=
  match o with
  | OIf v i e => if same w v then i else ordering_value same e w
  | ONum i => i
  end.

(** encoding: the columns of x, y, the colour (with its domain), column and row; [n_order]: encoding["order"]
    and its transform, with the column and the values. *)
Record encoding : Type := {
  n_x : nat; n_y : nat; n_color : option (nat * list word); n_order : option (nat * ordering); n_column : option nat; n_row : option nat }.

Section Encode.
  (** sorted() of a set of keys (656, 661): an error if the keys cannot be compared. *)
  Variable sorted : list dkey -> res (list dkey).
  (** domains[axis] (656): the keys that were put there; KeyError if the axis was never reached. *)
  Definition domain_of (a : axis) (ds : list (axis * list dkey)) : res (list dkey) :=
    match filter (fun d => axis_eqb (fst d) a) ds with
    | [] => Err KeyError
    | l => Ok (flat_map snd l)
    end.
  Definition legend (a : axis) (ds : list (axis * list dkey)) : res (list word) :=
    do ks <- domain_of a ds; do l <- sorted ks; Ok (map str_of l).
  (** The loop over the channels (654-678) *)
  Definition encode_channel (order : list axis) (ds : list (axis * list dkey)) (c : channel) (e : encoding) : res encoding :=
    match c with
    | ChOverlay a =>
      do w <- legend a ds; do j <- position a order;
      Ok {| n_x := n_x e; n_y := n_y e; n_color := Some (j, w); n_order := n_order e; n_column := n_column e; n_row := n_row e |}
    | ChStack a given =>
      do w <- match given with None => legend a ds | Some l => Ok (map WGiven l) end;
      do j <- position a order;
      do o <- makeorder 0 w;
      Ok {| n_x := n_x e; n_y := n_y e; n_color := Some (j, rev w); n_order := Some (j, o); n_column := n_column e; n_row := n_row e |}
    | ChBeside a =>
      do j <- position a order;
      Ok {| n_x := n_x e; n_y := n_y e; n_color := n_color e; n_order := n_order e; n_column := Some j; n_row := n_row e |}
    | ChBelow a =>
      do j <- position a order;
      Ok {| n_x := n_x e; n_y := n_y e; n_color := n_color e; n_order := n_order e; n_column := n_column e; n_row := Some j |}
    end.
  Fixpoint encode_chain (order : list axis) (ds : list (axis * list dkey)) (cs : list channel) (e : encoding) : res encoding :=
    match cs with
    | [] => Ok e
    | c :: cs' => do e' <- encode_channel order ds c e; encode_chain order ds cs' e'
    end.
  (** Plotable1d._vegalite (603-717): the first encoding.  The second one, for error bars, has the same x, or
      the column varname<j>c; its y is varname<n> -+ varname<n+1> (703-717). *)
  Definition encode1d (p : plot1d) (order : list axis) (ds : list (axis * list dkey)) : res encoding :=
    do j <- position (c_axis (p1_last p)) order;
    encode_chain order ds (p1_chain p) {| n_x := j; n_y := length order; n_color := None; n_order := None; n_column := None; n_row := None |}.
  (** Plotable2d._vegalite (819-885): the number of columns that are binned again; [intbin.may] is an
      AttributeError (836); the colour is the number. *)
  Definition heat_axis (is_y : bool) (a : axis) : res unit :=
    match a with
    | AIntbin _ _ _ _ _ => if is_y then Err AttributeError else Ok tt
    | ASplit _ _ _ _ _ _ => Err NotImplementedError
    | _ => Ok tt
    end.
  Definition encode2d (p : plot2d) (order : list axis) (ds : list (axis * list dkey)) : res encoding :=
    let l := p2_last p in
    do _ <- heat_axis false (c_xaxis l);
    do _ <- heat_axis true (c_yaxis l);
    do jx <- position (c_xaxis l) order;
    do jy <- position (c_yaxis l) order;
    if existsb (fun c => is_overlay c || is_stack c) (p2_chain p) then Err AssertionError
    else encode_chain order ds (p2_chain p) {| n_x := jx; n_y := jy; n_color := Some (length order, []); n_order := None; n_column := None; n_row := None |}.
End Encode.
