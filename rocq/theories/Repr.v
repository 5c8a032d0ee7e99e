(** What axes, histograms and the keys of bins print, as calls of their constructors, and how Python
    reads such a call.  /repo/histbook/axis.py 46-52, 120-121, 260-261, 375-383, 587-597, 825-831,
    1052-1061, 1319-1320, 1385-1386, 1446-1447 and /repo/histbook/hist.py 307-315.

    Simplifications: a printed call is its class, its positional and its keyword arguments as values,
    not the text (Python's [repr] of a string, bool, int, float or tuple of floats reads back as the
    value, with [inf] and [nan] for floats that have no literal); definitions are texts or numbers as
    in HistAlg.v. *)
From Coq Require Import String.
From Verif Require Import Base Num Axis Content Fill AxisAttr HistAlg Json.
Open Scope string_scope.
Local Open Scope list_scope.

Record call : Type := { c_class : string; c_args : list yv; c_kwargs : list (string * yv) }.

(** [if x is not True: args.append("name={0}".format(repr(x)))] *)
Definition not_true (name : string) (b : bool) : list (string * yv) := if b then [] else [(name, YBool b)].

(** ** __repr__ of the axes *)
Definition axis_repr (a : axis) : call :=
  match a with
  | AGroupby e => {| c_class := "groupby"; c_args := [YStr e]; c_kwargs := [] |}                (* 260-261 *)
  | AGroupbin e w o nf cl =>                                                                      (* 375-383 *)
      {| c_class := "groupbin"; c_args := [YStr e; YFloat w];
         c_kwargs := (if negb (neqb o nzero) then [("origin", YFloat o)] else []) ++ not_true "nanflow" nf ++ not_true "closedlow" cl |}
  | ABin e n l h u o nf cl =>                                                                     (* 587-597 *)
      {| c_class := "bin"; c_args := [YStr e; YInt (Z.of_nat n); YFloat l; YFloat h];
         c_kwargs := not_true "underflow" u ++ not_true "overflow" o ++ not_true "nanflow" nf ++ not_true "closedlow" cl |}
  | AIntbin e mn mx u o =>                                                                        (* 825-831 *)
      {| c_class := "intbin"; c_args := [YStr e; YInt mn; YInt mx];
         c_kwargs := not_true "underflow" u ++ not_true "overflow" o |}
  | ASplit e es u o nf cl =>                                                                      (* 1052-1061 *)
      {| c_class := "split"; c_args := [YStr e; YTuple (map Some es)];
         c_kwargs := not_true "underflow" u ++ not_true "overflow" o ++ not_true "nanflow" nf ++ not_true "closedlow" cl |}
  | ACut e => {| c_class := "cut"; c_args := [YStr e]; c_kwargs := [] |}                          (* 1319-1320 *)
  | ANull => {| c_class := "_nullaxis"; c_args := []; c_kwargs := [] |}                           (* 1385-1386 *)
  | AProfile e => {| c_class := "profile"; c_args := [YStr e]; c_kwargs := [] |}                  (* 1446-1447 *)
  end.

(** ** Python reads a call: positional arguments first, then keywords, then defaults *)
Definition param : Type := (string * option yv)%type.
Fixpoint find_kw (name : string) (kw : list (string * yv)) : option yv :=
  match kw with
  | [] => None
  | (n, v) :: t => if String.eqb n name then Some v else find_kw name t
  end.
Fixpoint bind_args (ps : list param) (args : list yv) (kw : list (string * yv)) : res (list yv) :=
  match ps with
  | [] => match args with [] => Ok [] | _ => Err TypeError end                   (* too many *)
  | (n, d) :: ps =>
    match args, find_kw n kw with
    | _ :: _, Some _ => Err TypeError                                            (* twice *)
    | v :: args, None => do vs <- bind_args ps args kw; Ok (v :: vs)
    | [], Some v => do vs <- bind_args ps [] kw; Ok (v :: vs)
    | [], None => match d with Some v => do vs <- bind_args ps [] kw; Ok (v :: vs) | None => Err TypeError end
    end
  end.
(** A keyword that is no parameter, or is given twice, is an error. *)
Fixpoint kw_ok (ps : list param) (kw : list (string * yv)) : bool :=
  match kw with
  | [] => true
  | (n, _) :: t => existsb (fun p => String.eqb (fst p) n) ps && negb (existsb (fun p => String.eqb (fst p) n) t) && kw_ok ps t
  end.
Definition call_with (ps : list param) (c : call) : res (list yv) :=
  if kw_ok ps (c_kwargs c) then bind_args ps (c_args c) (c_kwargs c) else Err TypeError.

(** The parameters of the constructors and their defaults (axis.py 250, 355, 559, 802, 1020, 1305, 1432). *)
Definition required (n : string) : param := (n, None).
Definition option_true (n : string) : param := (n, Some (YBool true)).
Definition sig_expr : list param := [required "expr"].
Definition sig_groupbin : list param := [required "expr"; required "binwidth"; ("origin", Some (YInt 0)); option_true "nanflow"; option_true "closedlow"].
Definition sig_bin : list param :=
  [required "expr"; required "numbins"; required "low"; required "high"; option_true "underflow"; option_true "overflow"; option_true "nanflow"; option_true "closedlow"].
Definition sig_intbin : list param := [required "expr"; required "min"; required "max"; option_true "underflow"; option_true "overflow"].
Definition sig_split : list param :=
  [required "expr"; required "edges"; option_true "underflow"; option_true "overflow"; option_true "nanflow"; option_true "closedlow"].

(** The expression is kept as it is given; only texts are modelled. *)
Definition y_text (y : yv) : res string := match y with YStr s => Ok s | _ => Err TypeError end.
Definition call_axis (c : call) : res axis :=
  let is n := String.eqb (c_class c) n in
  if is "groupby" then
    do v <- call_with sig_expr c; match v with [e] => do e <- y_text e; Ok (AGroupby e) | _ => Err TypeError end
  else if is "groupbin" then
    do v <- call_with sig_groupbin c;
    match v with [e; w; o; nf; cl] => do e <- y_text e; new_groupbin e w o nf cl | _ => Err TypeError end
  else if is "bin" then
    do v <- call_with sig_bin c;
    match v with [e; n; l; h; u; o; nf; cl] => do e <- y_text e; new_bin e n l h u o nf cl | _ => Err TypeError end
  else if is "intbin" then
    do v <- call_with sig_intbin c;
    match v with [e; mn; mx; u; o] => do e <- y_text e; new_intbin e mn mx u o | _ => Err TypeError end
  else if is "split" then
    do v <- call_with sig_split c;
    match v with [e; es; u; o; nf; cl] => do e <- y_text e; new_split e es u o nf cl | _ => Err TypeError end
  else if is "cut" then
    do v <- call_with sig_expr c; match v with [e] => do e <- y_text e; Ok (ACut e) | _ => Err TypeError end
  else if is "profile" then
    do v <- call_with sig_expr c; match v with [e] => do e <- y_text e; Ok (AProfile e) | _ => Err TypeError end
  else if is "_nullaxis" then
    do v <- call_with [] c; match v with [] => Ok ANull | _ => Err TypeError end
  else Err ValueError.

(** ** __repr__ of a histogram (hist.py 307-315): the axes, then weight, filter and definitions *)
Record hist_call : Type := {
  hc_axes : list call; hc_weight : option wsrc; hc_filter : option wsrc; hc_defs : option (list (string * wsrc)) }.
Definition hist_repr (h : hobj) : hist_call := {|
  hc_axes := map axis_repr (o_group h ++ o_fixed h ++ o_prof h);
  hc_weight := o_weight h; hc_filter := o_filter h;
  hc_defs := match o_defs h with [] => None | d => Some d end |}.
Section Hist.
  Variable axis_check : list (string * wsrc) -> string -> option err.
  Variable weight_check : list (string * wsrc) -> option wsrc -> option wsrc -> option err.
  Definition call_hist (c : hist_call) : res hobj :=
    do axes <- mapM call_axis (hc_axes c);
    mk_hist axis_check weight_check axes (hc_weight c) (hc_filter c) (match hc_defs c with None => [] | Some d => d end) [].
End Hist.

(** ** __repr__ of the keys of bins: Interval (axis.py 46-52) and IntervalNaN (120-121).  The other
    keys are Python's own numbers. *)
Definition interval_repr (k : key) : option call :=
  match k with
  | KIv l h cl ch =>
      Some {| c_class := "Interval"; c_args := [YFloat l; YFloat h];
              c_kwargs := not_true "closedlow" cl ++ (if ch then [("closedhigh", YBool ch)] else []) |}
  | KNaN => Some {| c_class := "IntervalNaN"; c_args := []; c_kwargs := [] |}
  | _ => None
  end.
(** axis.py 40-44 and 117-118.  The constructor checks nothing; only numbers and bools are modelled. *)
Definition sig_interval : list param := [required "low"; required "high"; option_true "closedlow"; ("closedhigh", Some (YBool false))].
Definition call_interval (c : call) : res key :=
  if String.eqb (c_class c) "Interval" then
    do v <- call_with sig_interval c;
    match v with
    | [l; h; cl; ch] => do l <- to_real l; do h <- to_real h; do cl <- to_bool cl; do ch <- to_bool ch; Ok (KIv l h cl ch)
    | _ => Err TypeError
    end
  else if String.eqb (c_class c) "IntervalNaN" then do v <- call_with [] c; Ok KNaN
  else Err ValueError.
