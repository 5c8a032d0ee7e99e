(** Whole plots and combinations of plots: /repo/histbook/vega.py 719-737, 887-897, 908-1150.

    Modelled: the data with the names of their fields, the filters, the layout.  Not modelled: marks, titles,
    scales, sizes, config. *)
From Coq Require Import String Ascii DecimalString.
From Verif Require Import Base Num Axis Calc Content Fill FillSpec Tree Order Expr HistAlg Nd Proj Select Table Pandas Vega VegaEnc.
Local Open Scope string_scope.
Local Open Scope list_scope.

(** str(i) of a number that is not negative *)
Definition str_nat (n : nat) : string := NilZero.string_of_uint (Nat.to_uint n).
(** varname + str(i) (555, 652, ...) *)
Definition field (v : string) (i : nat) : string := (v ++ str_nat i)%string.
(** _varname (935-941).  The loop divides by 26 until nothing is left; [fuel] bounds its steps. *)
Definition letter (i : nat) : string := match get i "abcdefghijklmnopqrstuvwxyz" with Some c => String c "" | None => "" end.
Fixpoint varname_loop (fuel i : nat) (acc : string) : string :=
  match fuel with
  | O => acc
  | S f => match i with O => acc | _ => varname_loop f (Nat.div i 26) (letter (Nat.modulo i 26) ++ acc)%string end
  end.
Definition varname (i : nat) : string := varname_loop (S i) (S i) "".

(** A datum as a dict (555, 597-599, 795): id, the cells, the column for the error bars. *)
Inductive fval : Type := FId (s : string) | FCell (c : vcell).
Definition object : Type := list (string * fval).
Definition id_field (id : option string) : object := match id with Some s => [("id", FId s)] | None => [] end.
Definition centre_field (v : string) (lastj : nat) (x : option vcell) : object := match x with Some c => [((field v lastj ++ "c")%string, FCell c)] | None => [] end.
Definition to_object (v : string) (lastj : nat) (d : datum) : object :=
  id_field (d_id d) ++ combine (map (field v) (seq 0 (length (d_row d)))) (map FCell (d_row d)) ++ centre_field v lastj (d_centre d).

(** A mark with its encoding and transform: the values of "id" that its filters let through, the field of each
    channel, the domain of the colours, the expression for the stacking order. *)
Inductive role : Type := RX | RY | RColor | ROrder | RColumn | RRow | RErrorX | RErrorY | RErrorSize.
Record unit_view : Type := { u_ids : list string; u_fields : list (role * string); u_domain : list word; u_ordering : option ordering }.
Inductive view_tree : Type := VUnit (u : unit_view) | VLayer (l : list view_tree) | VHconcat (l : list view_tree) | VVconcat (l : list view_tree).

Definition opt_role {A} (r : role) (f : A -> string) (o : option A) : list (role * string) := match o with Some x => [(r, f x)] | None => [] end.
(** encodings[0] and transforms[0] (652-678, 842-863) *)
Definition unit_of (v : string) (e : encoding) : unit_view :=
  {| u_ids := [];
     u_fields := (RX, field v (n_x e)) :: (RY, field v (n_y e)) :: opt_role RColor (fun x => field v (fst x)) (n_color e) ++
       opt_role ROrder (fun x => field v (fst x)) (n_order e) ++ opt_role RColumn (field v) (n_column e) ++ opt_role RRow (field v) (n_row e);
     u_domain := match n_color e with Some x => snd x | None => [] end;
     u_ordering := option_map snd (n_order e) |}.
(** encoding2 and transform2 (703-715) *)
Definition error_unit (v : string) (l : last1d) (j n : nat) : unit_view :=
  {| u_ids := [];
     u_fields := [(RErrorX, if c_error l && is_baseline (c_kind l) then (field v j ++ "c")%string else field v j); (RErrorY, field v n); (RErrorSize, field v (n + 1))];
     u_domain := []; u_ordering := None |}.

Inductive plot : Type := Plot1 (h : phist) (p : plot1d) | Plot2 (h : phist) (p : plot2d).
Definition info : Type := list axis * list (axis * list dkey).
Section Plots.
  Variables (sqrt : Num -> Num) (bin_width : nat -> Num -> Num -> Num) (sorted : list dkey -> res (list dkey)).
  (** plotable._data(prefix, varname) (518, 769) *)
  Definition plot_data (x : plot) (id : option string) (v : string) : res (info * list object) :=
    match x with
    | Plot1 h p =>
      do r <- data1d sqrt bin_width h p id;
      let '(order, data, ds) := r in
      do lastj <- position (c_axis (p1_last p)) order;
      Ok ((order, ds), map (to_object v lastj) data)
    | Plot2 h p =>
      do r <- data2d sqrt bin_width h p id;
      let '(order, data, ds) := r in
      Ok ((order, ds), map (to_object v 0) data)
    end.
  (** plotable._vegalite(axis, domains, varname) (603-717, 819-885): one mark, or two if there are error bars *)
  Definition plot_units (x : plot) (i : info) (v : string) : res (list unit_view) :=
    match x with
    | Plot1 h p =>
      do e <- encode1d sorted p (fst i) (snd i);
      Ok (unit_of v e :: if c_error (p1_last p) then [error_unit v (p1_last p) (n_x e) (length (fst i))] else [])
    | Plot2 h p => do e <- encode2d sorted p (fst i) (snd i); Ok [unit_of v e]
    end.
  Definition one_or_layer (us : list unit_view) : view_tree := match us with [u] => VUnit u | _ => VLayer (map VUnit us) end.
  (** vegalite of one plot (719-737, 887-897) *)
  Definition plot_vegalite (x : plot) : res (list object * view_tree) :=
    do r <- plot_data x None "a";
    do us <- plot_units x (fst r) "a";
    Ok (snd r, one_or_layer us).

  (** ** Combinations *)
  Inductive comb : Type :=
  | Single (x : plot)
  | Overlay (l : list comb)
  | Beside (l : list comb)
  | Below (l : list comb)
  | Grid (numcol : nat) (l : list comb).
  (** Combination.__init__ (911-925): the arguments, or the elements of those that can be iterated over. *)
  Inductive arg : Type := One (c : comb) | Many (l : list comb).
  Definition flatten (args : list arg) : list comb := flat_map (fun a => match a with One c => [c] | Many l => l end) args.
  Definition combine_plots (types : comb -> bool) (args : list arg) : res (list comb) :=
    if forallb types (flatten args) then Ok (flatten args) else Err TypeError.
  (** The types that overlay (988), beside (1021), below (1062) and grid (1103) accept.  Their other checks
      (1022, 1063, 1104) ask whether a plot is a channel, which is never so. *)
  Definition in_overlay (c : comb) : bool := match c with Single (Plot1 _ _) => true | _ => false end.
  Definition in_beside (c : comb) : bool := match c with Single _ | Overlay _ | Below _ => true | _ => false end.
  Definition in_below (c : comb) : bool := match c with Single _ | Overlay _ | Beside _ => true | _ => false end.
  Definition in_grid (c : comb) : bool := match c with Single _ | Overlay _ => true | _ => false end.
  Definition overlay_ (args : list arg) : res comb := do l <- combine_plots in_overlay args; Ok (Overlay l).
  Definition beside_ (args : list arg) : res comb := do l <- combine_plots in_beside args; Ok (Beside l).
  Definition below_ (args : list arg) : res comb := do l <- combine_plots in_below args; Ok (Below l).
  Definition grid_ (numcol : nat) (args : list arg) : res comb := do l <- combine_plots in_grid args; Ok (Grid numcol l).

  (** _collectdata (943-963): the next number, the axes and domains, the data *)
  Fixpoint collect (c : comb) (i : nat) : res (nat * list info * list object) :=
    match c with
    | Single x => do r <- plot_data x (Some (varname i)) (varname i); Ok (i + 1, [fst r], snd r)
    | Overlay l | Beside l | Below l | Grid _ l =>
      (fix go (l : list comb) (i : nat) : res (nat * list info * list object) :=
         match l with
         | [] => Ok (i, [], [])
         | x :: t => do r <- collect x i; let '(i1, a, d) := r in do r' <- go t i1; let '(i2, a', d') := r' in Ok (i2, a ++ a', d ++ d')
         end) l i
    end.

  (** {"filter": {"field": "id", "equal": varname}} *)
  Definition with_filter (v : string) (u : unit_view) : unit_view :=
    {| u_ids := u_ids u ++ [v]; u_fields := u_fields u; u_domain := u_domain u; u_ordering := u_ordering u |}.
  (** allaxis[i], alldomains[i] *)
  Definition info_at (all : list info) (i : nat) : res info := match nth_error all i with Some x => Ok x | None => Err IndexError end.
  Section Fill.
    Variable all : list info.
    (** A plot in overlay._fill (990-1005) *)
    Definition fill_layers (x : plot) (i : nat) : res (list view_tree) :=
      do inf <- info_at all i;
      do us <- plot_units x inf (varname i);
      Ok (map (fun u => VUnit (with_filter (varname i) u)) us).
    (** A plot in the _fill of the others (1035-1044, 1076-1085, 1117-1127): with two marks there is no filter. *)
    Definition fill_plot (x : plot) (i : nat) : res view_tree :=
      do inf <- info_at all i;
      do us <- plot_units x inf (varname i);
      Ok match us with [u] => VUnit (with_filter (varname i) u) | _ => VLayer (map VUnit us) end.
    (** What c._fill(i, ...) returns and appends, for overlay (990), beside (1025) and below (1066) *)
    Fixpoint fill (c : comb) (i : nat) : res (nat * list view_tree) :=
      match c with
      | Overlay l =>
        (fix go (l : list comb) (i : nat) : res (nat * list view_tree) :=
           match l with
           | [] => Ok (i, [])
           | x :: t => do r <- match x with Single y => fill_layers y i | _ => Err AttributeError end; do r' <- go t (i + 1); Ok (fst r', r ++ snd r')
           end) l i
      | Beside l =>
        (fix go (l : list comb) (i : nat) : res (nat * list view_tree) :=
           match l with
           | [] => Ok (i, [])
           | x :: t =>
             do r <- match x with
                     | Overlay _ => do r <- fill x i; Ok (fst r, VLayer (snd r))
                     | Below _ => do r <- fill x i; Ok (fst r, VVconcat (snd r))
                     | Single y => do v <- fill_plot y i; Ok (i + 1, v)
                     | _ => Err AttributeError
                     end;
             do r' <- go t (fst r); Ok (fst r', snd r :: snd r')
           end) l i
      | Below l =>
        (fix go (l : list comb) (i : nat) : res (nat * list view_tree) :=
           match l with
           | [] => Ok (i, [])
           | x :: t =>
             do r <- match x with
                     | Overlay _ => do r <- fill x i; Ok (fst r, VLayer (snd r))
                     | Beside _ => do r <- fill x i; Ok (fst r, VHconcat (snd r))
                     | Single y => do v <- fill_plot y i; Ok (i + 1, v)
                     | _ => Err AttributeError
                     end;
             do r' <- go t (fst r); Ok (fst r', snd r :: snd r')
           end) l i
      | _ => Err AttributeError
      end.
    (** grid._fill (1108-1129).  [rows] and [row]: the rows before the last one, and the last one. *)
    Fixpoint fill_grid (numcol : nat) (l : list comb) (i : nat) (rows : list (list view_tree)) (row : list view_tree) : res (nat * list (list view_tree)) :=
      match l with
      | [] => Ok (i, rows ++ [row])
      | x :: t =>
        let '(rows, row) := if Nat.leb numcol (length row) then (rows ++ [row], []) else (rows, row) in
        do r <- match x with
                | Overlay _ => do r <- fill x i; Ok (fst r, VLayer (snd r))
                | Single y => do v <- fill_plot y i; Ok (i + 1, v)
                | _ => Err AttributeError
                end;
        fill_grid numcol t (fst r) rows (row ++ [snd r])
      end.
  End Fill.
  (** vegalite of a combination (1007-1015, 1048-1056, 1089-1097, 1132-1140) *)
  Definition comb_vegalite (c : comb) : res (list object * view_tree) :=
    match c with
    | Single x => plot_vegalite x
    | _ =>
      do r <- collect c 0;
      let '(_, all, data) := r in
      match c with
      | Grid n l => do f <- fill_grid all n l 0 [] []; Ok (data, VVconcat (map VHconcat (snd f)))
      | Overlay _ => do f <- fill all c 0; Ok (data, VLayer (snd f))
      | Beside _ => do f <- fill all c 0; Ok (data, VHconcat (snd f))
      | _ => do f <- fill all c 0; Ok (data, VVconcat (snd f))
      end
    end.
End Plots.
