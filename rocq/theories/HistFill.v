(** Hist.fill from the expressions of the axes to the bin contents.

    Models /repo/histbook/hist.py 158-264 (the part of the constructor that collects the goals),
    325-377 (_streamline, fill), /repo/histbook/fill.py 40-59 and 85-162 (fields, _fill), and the
    [_goals] methods of the axes (/repo/histbook/axis.py 284, 413, 668, 891, 1129, 1350, 1461).
    The instruction scheduler is in Instr.v and the bin arithmetic in Calc.v, Fill.v.

    Not modelled: Pandas and Spark inputs of [fill] (Spark: see Spark.v), arrays of more than one
    dimension, [_nullaxis] (it only appears in projected histograms). *)
From Coq Require Import String.
From Verif Require Import Num Base Tree Instr Axis Calc Content Fill Elem.

(** * Values in the symbol table *)
Inductive V : Type :=
| VCst (c : cst)                                  (* a literal argument *)
| VCol (l : list val)                             (* a one-dimensional array *)
| VIdx (l : col)                                  (* a masked array of slots *)
| VGrp (u : list gkey) (inverse : list Z).        (* groupby: (uniques, inverse) *)

Section Lib.
  Variable cast : Num -> Z.
  Variable rnd : Qc -> Num.
  Variable user : string -> list arg -> res val.

  (** Numpy broadcasting of literals against columns of one length. *)
  Definition is_col (v : V) : bool := match v with VCol _ => true | _ => false end.
  Fixpoint col_length (args : list V) : option nat :=
    match args with
    | [] => None
    | VCol l :: _ => Some (List.length l)
    | _ :: rest => col_length rest
    end.
  Definition elem_at (i : nat) (v : V) : res arg :=
    match v with
    | VCst c => Ok (AC c)
    | VCol l => match nth_error l i with Some x => Ok (AV x) | None => Err ValueError end
    | _ => Err TypeError
    end.
  (** A library function applied element by element (calc/__init__.py 354-355). *)
  Definition elementwise (f : string) (args : list V) : res V :=
    match col_length args with
    | None => Err TypeError        (* only literals: never scheduled *)
    | Some n =>
        if existsb (fun v => match v with VCol l => negb (Nat.eqb (List.length l) n) | _ => false end) args
        then Err ValueError
        else rmap VCol (mapM (fun i => do a <- mapM (elem_at i) args; efun user f a) (seq 0 n))
    end.

  (** Slot of one element on a fixed axis.  A cut of a boolean is 0 or 1; a number is cast
      (calc/__init__.py 325). *)
  Definition slot_of (ax : axis) (v : val) : res (option Z) :=
    match ax with
    | ABin _ n low high u o nf cl => do x <- val_num v; bin_index rnd cast u o nf cl n low high x
    | AIntbin _ mn mx u o => do x <- val_num v; Ok (intbin_index_float cast u o mn mx x)
    | ASplit _ edges u o nf cl => do x <- val_num v; Ok (split_index u o nf cl edges x)
    | ACut _ => match v with
                | VBool b => Ok (cut_index b)
                | VNum x => Ok (Some (cast x))
                | VStr _ => Err ValueError
                end
    | _ => Err TypeError
    end.
  (** Key of one element on a group axis (calc/__init__.py 149-152, 156-196). *)
  Definition val_key (v : val) : gkey :=
    match v with VNum x => GNum x | VStr s => GStr s | VBool b => GNum (nz (b2z b)) end.
  Definition key_of (ax : axis) (v : val) : res (option gkey) :=
    match ax with
    | AGroupby _ => Ok (Some (val_key v))
    | AGroupbin _ w origin nf cl => do x <- val_num v; Ok (groupbin_key rnd nf cl w origin x)
    | _ => Err TypeError
    end.

  (** The function names built by the axes' [_goals] and registered in [library]
      (calc/__init__.py 154, 198-201, 241-256, 281-284, 308-325). *)
  Open Scope string_scope.
  Definition flag (b : bool) (s : string) : string := if b then s else "_".
  Definition axis_fcn (ax : axis) : string :=
    match ax with
    | AGroupby _ => "histbook.groupby"
    | AGroupbin _ _ _ nf cl => "histbook.groupbin" ++ flag nf "N" ++ (if cl then "L" else "H")
    | ABin _ _ _ _ u o nf cl =>
        "histbook.bin" ++ flag u "U" ++ flag o "O" ++ flag nf "N" ++ (if cl then "L" else "H")
    | AIntbin _ _ _ u o => "histbook.intbin" ++ flag u "U" ++ flag o "O"
    | ASplit _ _ u o nf cl =>
        "histbook.split" ++ flag u "U" ++ flag o "O" ++ flag nf "N" ++ (if cl then "L" else "H")
    | ACut _ => "histbook.cut"
    | _ => ""
    end.
  Definition knum (x : Num) : cst := KS (SNum x).
  Definition axis_args (ax : axis) : list cst :=
    match ax with
    | AGroupbin _ w origin _ _ => [knum w; knum origin]
    | ABin _ n low high _ _ _ _ => [knum (nnat n); knum low; knum high]
    | AIntbin _ mn mx _ _ => [knum (nz mn); knum (nz mx)]
    | ASplit _ edges _ _ _ _ => [KTup edges]
    | _ => []
    end.

  (** The axis functions of the library, keyed by name, rebuilding the axis from the literal
      arguments they are called with. *)
  Definition b4 : list (bool * bool * bool * bool) :=
    flat_map (fun a => flat_map (fun b => flat_map (fun c => map (fun d => (a, b, c, d))
      [true; false]) [true; false]) [true; false]) [true; false].
  Definition to_nat (x : Num) : nat := match x with Fin q => Z.to_nat (qfloor q) | _ => 0 end.
  Definition to_z (x : Num) : Z := match x with Fin q => qfloor q | _ => 0%Z end.
  Definition axis_library : list (string * (list cst -> option axis)) :=
    [("histbook.groupby", fun a => match a with [] => Some (AGroupby "") | _ => None end);
     ("histbook.cut", fun a => match a with [] => Some (ACut "") | _ => None end)] ++
    flat_map (fun p : bool * bool * bool * bool => let '(u, o, nf, cl) := p in
      [(axis_fcn (ABin "" 0 nzero nzero u o nf cl),
        fun a => match a with
                 | [KS (SNum n); KS (SNum low); KS (SNum high)] => Some (ABin "" (to_nat n) low high u o nf cl)
                 | _ => None end);
       (axis_fcn (ASplit "" [] u o nf cl),
        fun a => match a with [KTup edges] => Some (ASplit "" edges u o nf cl) | _ => None end);
       (axis_fcn (AIntbin "" 0 0 u o),
        fun a => match a with
                 | [KS (SNum mn); KS (SNum mx)] => Some (AIntbin "" (to_z mn) (to_z mx) u o)
                 | _ => None end);
       (axis_fcn (AGroupbin "" nzero nzero nf cl),
        fun a => match a with
                 | [KS (SNum w); KS (SNum origin)] => Some (AGroupbin "" w origin nf cl)
                 | _ => None end)]) b4.
  Fixpoint lib_find {A} (f : string) (l : list (string * A)) : option A :=
    match l with
    | [] => None
    | (g, v) :: l => if String.eqb f g then Some v else lib_find f l
    end.

  Definition literal (v : V) : res cst := match v with VCst c => Ok c | _ => Err TypeError end.

  (** [library[fcn]( *args)]. *)
  Definition lib (f : string) (args : list V) : res V :=
    match lib_find f axis_library with
    | None => elementwise f args
    | Some mk =>
        match args with
        | VCol l :: rest =>
            do cs <- mapM literal rest;
            match mk cs with
            | None => Err TypeError
            | Some ax =>
                if is_group ax
                then do ks <- mapM (key_of ax) l; let (u, inv) := group_col ks in Ok (VGrp u inv)
                else rmap VIdx (mapM (slot_of ax) l)
            end
        | _ => Err TypeError
        end
    end.
End Lib.

(** * The histogram as the constructor prepares it (hist.py 158-243) *)
Inductive wexpr : Type :=
| WxConst (v : Num)                (* weight is a literal *)
| WxTree (t : tree).               (* weight and/or filter, lowered *)
Record hist : Type := {
  h_group : list (axis * tree);    (* each axis with its lowered expression *)
  h_fixed : list (axis * tree);
  h_prof : list tree;
  h_weight : option wexpr }.

Definition square (t : tree) : tree := TCall "numpy.multiply" [t; t].
Definition axis_goal (p : axis * tree) : tree :=
  TCall (axis_fcn (fst p)) (snd p :: map TConst (axis_args (fst p))).
(** The goals in the order of their destinations. *)
Definition hist_goals (h : hist) : list tree :=
  map axis_goal (h_group h) ++ map axis_goal (h_fixed h)
  ++ flat_map (fun t => [t; square t]) (h_prof h)
  ++ match h_weight h with
     | None => []
     | Some (WxConst v) => [TConst (knum v); square (TConst (knum v))]
     | Some (WxTree t) => [t; square t]
     end.
Definition hist_layout (h : hist) : layout := {|
  l_tots := map (fun p => totbins (fst p)) (h_fixed h);
  l_nprof := List.length (h_prof h);
  l_weighted := match h_weight h with None => false | Some _ => true end |}.

(** * Fill arguments *)
Inductive inarr : Type :=
| ISc (v : val)                    (* a number or string: shape () *)
| IAr (l : list val).              (* one-dimensional *)
Definition arrays := string -> option inarr.

(** util/__init__.py 38-47 (ChainedDict): keyword arguments have precedence. *)
Definition chained (one two : arrays) : arrays :=
  fun n => match two n with Some a => Some a | None => one n end.

(** Expr.maybeconstants (expr.py 328-331): numpy.pi and numpy.e are the float64 nearest to the
    real constants. *)
Open Scope string_scope.
Definition float_pi : Num := Fin (qfrac 884279719003555 281474976710656).
Definition float_e : Num := Fin (qfrac 6121026514868073 2251799813685248).
Definition maybeconstants : list (string * val) :=
  [("pi", VNum float_pi); ("Pi", VNum float_pi); ("e", VNum float_e); ("E", VNum float_e);
   ("inf", VNum PInf); ("Inf", VNum PInf); ("infinity", VNum PInf); ("Infinity", VNum PInf);
   ("nan", VNum NaN); ("NaN", VNum NaN); ("Nan", VNum NaN)].

Definition field_name (t : tree) : option string :=
  match t with TName s | TPred s _ => Some s | _ => None end.

(** fill.py 88-110: the length is that of the first array parameter, 1 if there is none. *)
Fixpoint scan_length (A : arrays) (is : list instr) : res nat :=
  match is with
  | [] => Ok 1
  | Param _ t :: rest =>
      match field_name t with
      | None => scan_length A rest
      | Some s => match A s with
                  | Some (IAr l) => Ok (List.length l)
                  | Some (ISc _) => scan_length A rest
                  | None => match lib_find s maybeconstants with
                            | Some _ => scan_length A rest
                            | None => Err ValueError
                            end
                  end
      end
  | _ :: rest => scan_length A rest
  end.

(** fill.py 112-146 ([full] and the Param branch). *)
Definition param (A : arrays) (len : nat) (t : tree) : res V :=
  match t with
  | TBcast c => do v <- arg_val (AC c); Ok (VCol (repeat v len))
  | TName s | TPred s _ =>
      match A s with
      | Some (ISc v) => Ok (VCol (repeat v len))
      | Some (IAr l) => if Nat.eqb len (List.length l) then Ok (VCol l) else Err ValueError
      | None => match lib_find s maybeconstants with
                | Some v => Ok (VCol (repeat v len))
                | None => Err ValueError
                end
      end
  | _ => Err AssertionError
  end.

(** fill.py 41-59 (fields): sorted() of the names; a constant axis contributes its value, and
    sorting values of different types raises TypeError.  The order of constants among
    themselves is not modelled. *)
Fixpoint insert_str (x : string) (l : list string) : list string :=
  match l with
  | [] => [x]
  | y :: ys => if String.ltb y x then y :: insert_str x ys else x :: l
  end.
Definition sort_str (l : list string) : list string := fold_right insert_str [] l.
Definition same_type (a b : cst) : bool :=
  match a, b with
  | KS (SNum _), KS (SNum _) | KS (SStr _), KS (SStr _) | KS (SBool _), KS (SBool _) => true
  | _, _ => false
  end.
Definition names_of (srcs : list tree) : list string :=
  flat_map (fun t => match field_name t with Some s => [s] | None => [] end) srcs.
Definition consts_of (srcs : list tree) : list cst :=
  flat_map (fun t => match t with TBcast c => [c] | _ => [] end) srcs.
Definition fields (srcs : list tree) : res (list string * list cst) :=
  match consts_of srcs, names_of srcs with
  | [], ns => Ok (sort_str ns, [])
  | [c], [] => Ok ([], [c])
  | c :: cs, ns =>
      if forallb (same_type c) cs &&
         match ns with [] => true | _ => match c with KS (SStr _) => true | _ => false end end
      then Ok (sort_str ns, c :: cs) else Err TypeError
  end.

(** hist.py 325-334 (_streamline) and fill.py 151-154: the value stored for a goal. *)
Fixpoint dest_find (g : tree) (out : list (tree * V)) : option V :=
  match out with
  | [] => None
  | (u, v) :: out => if tree_eq_dec g u then Some v else dest_find g out
  end.

Definition as_nums (o : option V) : res (list Num) :=
  match o with Some (VCol l) => mapM val_num l | _ => Err TypeError end.
(** hist.py 386-405: what _postfill reads from the destinations.  A destination that was never
    stored is None: a group axis or a weight then raises TypeError (unpacking None, isnan(None)),
    a fixed axis is passed on as a missing column. *)
Definition read_dest (h : hist) (out : list (tree * V)) : res dest :=
  do g <- mapM (fun p => match dest_find (axis_goal p) out with
                         | Some (VGrp u inv) => Ok (u, inv)
                         | _ => Err TypeError end) (h_group h);
  do f <- mapM (fun p => match dest_find (axis_goal p) out with
                         | Some (VIdx c) => Ok (Some c)
                         | None => Ok None
                         | _ => Err TypeError end) (h_fixed h);
  do pr <- mapM (fun t => do x <- as_nums (dest_find t out);
                          do x2 <- as_nums (dest_find (square t) out); Ok (x, x2)) (h_prof h);
  do w <- match h_weight h with
          | None => Ok WNone
          | Some (WxConst v) => Ok (WConst v)
          | Some (WxTree t) => do x <- as_nums (dest_find t out);
                               do x2 <- as_nums (dest_find (square t) out); Ok (WCol x x2)
          end;
  Ok {| d_group := g; d_fixed := f; d_prof := pr; d_weight := w |}.

Section HistFill.
  Variable cast : Num -> Z.
  Variable rnd : Qc -> Num.
  Variable user : string -> list arg -> res val.
  Variable order : tree -> list tree -> list tree.     (* iteration orders: see Instr.v *)

  (** fill.py 85-162: the length and the stored destinations. *)
  Definition fill_arrays (A : arrays) (is : list instr) : res (nat * list (tree * V)) :=
    do len <- scan_length A is;
    do r <- run V VCst (lib cast rnd user) (param A len) is [] [];
    Ok (len, snd r).

  (** hist.py 375-377: _prefill, _fill, _postfill.  [srcs] is the set of sources in some order. *)
  Definition hist_fill (srcs : list tree) (h : hist) (A : arrays) (c : content)
    : content * option err :=
    let c0 := prefill (hist_layout h) (List.length (h_group h)) c in
    match (do is <- instructions order srcs (hist_goals h);
           do _ <- fields srcs;
           do r <- fill_arrays A is;
           do d <- read_dest h (snd r);
           Ok (fst r, d)) with
    | Err e => (c0, Some e)
    | Ok (len, d) => postfill (hist_layout h) len d c0
    end.
End HistFill.
