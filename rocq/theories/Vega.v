(** Plots: /repo/histbook/vega.py, the numbers and labels that a Vega-Lite plot gets.

    Simplifications: axes are given as axis objects; numbers are exact; str() of a key is left symbolic
    ([text]); groupby keys that are booleans are not distinguished from numbers; the datum, a dict, is a
    record.  Of the encoding (vega.py 603-712) the fields, the order of the colours and the transforms are
    modelled; marks, titles, scales and sizes are not. *)
From Coq Require Import String Ascii.
From Verif Require Import Base Num Axis Calc Content Fill FillSpec Tree Order Expr HistAlg Nd Proj Select Table Pandas.
Local Open Scope list_scope.

(** ** Plotting chains (39-466) *)
(** The kinds of terminal channels (119-137) and of the channels before (45-74) *)
Inductive terminal : Type := TBar | TStep | TArea | TLine | TMarker.
Inductive channel : Type :=
| ChOverlay (a : axis)
| ChStack (a : axis) (order : option (list string))
| ChBeside (a : axis)
| ChBelow (a : axis).
Definition ch_axis (c : channel) : axis := match c with ChOverlay a | ChStack a _ | ChBeside a | ChBelow a => a end.
Definition is_overlay (c : channel) : bool := match c with ChOverlay _ => true | _ => false end.
Definition is_stack (c : channel) : bool := match c with ChStack _ _ => true | _ => false end.
Definition is_beside (c : channel) : bool := match c with ChBeside _ => true | _ => false end.
Definition is_below (c : channel) : bool := match c with ChBelow _ => true | _ => false end.

(** Terminal1dChannel (76-91): the options that decide about the data.  [c_log]: yscale is "log" or a
    dict with type "log" (556). *)
Record last1d : Type := { c_kind : terminal; c_axis : axis; c_profile : option axis; c_error : bool; c_normalized : bool; c_log : bool }.
(** Plotable1d (497-516): the channels before the last one, and the last one. *)
Record plot1d : Type := { p1_chain : list channel; p1_last : last1d }.

(** overlay, stack, beside, below (211-280) *)
Definition chain_overlay (c : list channel) (a : axis) : res (list channel) :=
  if existsb is_overlay c then Err TypeError else Ok (c ++ [ChOverlay a]).
Definition chain_stack (c : list channel) (a : axis) (order : option (list string)) : res (list channel) :=
  if existsb is_stack c then Err TypeError else Ok (c ++ [ChStack a order]).
Definition chain_beside (c : list channel) (a : axis) : res (list channel) :=
  if existsb is_beside c then Err TypeError else Ok (c ++ [ChBeside a]).
Definition chain_below (c : list channel) (a : axis) : res (list channel) :=
  if existsb is_below c then Err TypeError else Ok (c ++ [ChBelow a]).
(** bar (282), step (311), area (342), line (371), marker (402): step, line and marker refuse a stack. *)
Definition stackable (k : terminal) : bool := match k with TBar | TArea => true | _ => false end.
Definition chain_last (c : list channel) (l : last1d) : res plot1d :=
  if negb (stackable (c_kind l)) && existsb is_stack c then Err TypeError
  else if c_error l && existsb (fun x => is_beside x || is_below x) c then Err NotImplementedError
  else Ok {| p1_chain := c; p1_last := l |}.
(** HeatmapChannel (139-176) and heatmap (433-468) *)
Record last2d : Type := { c_xaxis : axis; c_yaxis : axis; c_profile2 : option axis }.
Record plot2d : Type := { p2_chain : list channel; p2_last : last2d }.
Definition chain_heatmap (c : list channel) (l : last2d) : res plot2d :=
  if existsb is_overlay c then Err TypeError
  else if existsb is_stack c then Err TypeError
  else Ok {| p2_chain := c; p2_last := l |}.

(** ** The data *)
(** str() of a group key or of an Interval, "pass" and "fail" (587-594) *)
Inductive text : Type := XKey (k : gkey) | XBin (k : key) | XCut (b : bool).
Inductive vcell : Type := VText (t : text) | VNumber (x : Num).
(** The values in [domains] (544, 561-563): the keys that the axis objects list. *)
Inductive dkey : Type := DGroup (k : gkey) | DBin (k : key).

(** A datum: the id (1st entry of [prefix]), the values of varname0, varname1, ... and of
    varname<lastj>c (555-557, 597-599). *)
Record datum : Type := { d_id : option string; d_row : list vcell; d_centre : option vcell }.

(** What [recurse] appends to [data], [shifts] and [domains]. *)
Record out : Type := { w_rows : list (list vcell); w_shifts : list (Num * Num); w_domains : list (axis * list dkey) }.
Definition out_app (a b : out) : out :=
  {| w_rows := w_rows a ++ w_rows b; w_shifts := w_shifts a ++ w_shifts b; w_domains := w_domains a ++ w_domains b |}.
Definition out_none : out := {| w_rows := []; w_shifts := []; w_domains := [] |}.
Definition outs (l : list out) : out := fold_right out_app out_none l.
Definition out_rows (l : list (list vcell)) : out := {| w_rows := l; w_shifts := []; w_domains := [] |}.
Definition out_shift (x y : Num) : out := {| w_rows := []; w_shifts := [(x, y)]; w_domains := [] |}.
Definition out_domain (a : axis) (ks : list dkey) : out := {| w_rows := []; w_shifts := []; w_domains := [(a, ks)] |}.

(** axis.low and axis.high of bin (axis.py 607-613) and split (axis.py 1087-1093) *)
Definition axis_low (a : axis) : Num := match a with ABin _ _ l _ _ _ _ _ => l | ASplit _ es _ _ _ _ => hd NaN es | _ => NaN end.
Definition axis_high (a : axis) : Num := match a with ABin _ _ _ h _ _ _ _ => h | ASplit _ es _ _ _ _ => last es NaN | _ => NaN end.
(** intbin.bin (axis.py 880-886) *)
Definition as_bin (a : axis) : axis :=
  match a with
  | AIntbin e mn mx u o => ABin e (Z.to_nat (mx - mn + 1)) (nsub (nz mn) half) (nadd (nz mx) half) u o false true
  | _ => a
  end.

(** len(content) and iteration over an array (axis.py 225-230): its parts along the first dimension. *)
Definition parts (c : pv) : res (list pv) :=
  match c with
  | PArr (n :: sh) d => let m := prodn sh in Ok (map (fun i => PArr sh (firstn m (skipn (i * m) d))) (seq 0 n))
  | PList l => Ok l
  | _ => Err TypeError
  end.
(** axis.items(content): groupby (axis.py 325-329), groupbin (521-525), the fixed axes (225-230) *)
Definition items (a : axis) (c : pv) : res (list (dkey * pv)) :=
  match a with
  | AGroupby _ | AGroupbin _ _ _ _ _ =>
    match c with
    | PDict l =>
      do ks <- py_sorted (map fst l);
      mapM (fun k => do x <- lookup k l;
                     match a with
                     | AGroupbin _ w _ _ cl =>
                       match k with
                       | GNum n => Ok (DBin (KIv n (nadd n w) cl (negb cl)), x)
                       | GStr _ => Err TypeError
                       end
                     | _ => Ok (DGroup k, x)
                     end) ks
    | _ => Err TypeError
    end
  | _ =>
    do ps <- parts c;
    if Nat.eqb (length (keys a)) (length ps) then Ok (combine (map DBin (keys a)) ps) else Err ValueError
  end.
(** axis.keys(content) (axis.py 321, 517, 769, 988, 1286, 1380); _nullaxis.keys takes no argument (1418). *)
Definition keys_of (a : axis) (c : pv) : res (list dkey) :=
  match a with
  | AGroupby _ | AGroupbin _ _ _ _ _ => rmap (map fst) (items a c)
  | ANull => Err TypeError
  | _ => Ok (map DBin (keys a))
  end.

(** quantitative (522-528) and baseline (520) *)
Definition is_baseline (k : terminal) : bool := match k with TStep | TArea => true | _ => false end.
Definition is_number_axis (a : axis) : bool := match a with ABin _ _ _ _ _ _ _ _ | AIntbin _ _ _ _ _ | ASplit _ _ _ _ _ _ => true | _ => false end.
Definition is_bar (k : terminal) : bool := match k with TBar => true | _ => false end.
Definition quantitative (l : last1d) : bool := is_number_axis (c_axis l) && negb (is_bar (c_kind l)).
Definition tiny : Num := Fin (qfrac 1 10000000000).
Definition middle (lo hi : Num) : Num := nmul half (nadd lo hi).

(** The cell of a key that is not drawn at a position (588, 591, 594) *)
Definition text_of (k : dkey) : text :=
  match k with
  | DGroup g => XKey g
  | DBin (KBool b) => XCut b
  | DBin k' => XBin k'
  end.

(** float(x) for x in content (553) *)
Definition numbers_of (c : pv) : res (list Num) := match c with PArr [_] d => Ok d | _ => Err TypeError end.

Section Recurse.
  Variables (l : last1d) (lastj : nat).
  Definition keeps (y : Num) : bool := nltb nzero y || negb (c_log l).
  (** recurse (548-594).  [j] counts the axes that are done; [axes] are those that are left. *)
  Fixpoint recurse (j : nat) (axes : list axis) (content : pv) (row : list vcell) (base : bool) : res out :=
    match axes with
    | [] =>
      do ns <- (if base then Ok (if c_error l then [nzero; nzero] else [nzero]) else numbers_of content);
      match ns with
      | [] => Err KeyError
      | y :: _ => Ok (out_rows (if keeps y then [row ++ map VNumber ns] else []))
      end
    | a0 :: axes' =>
      do ks <- keys_of a0 content;
      let a := as_bin a0 in
      do is <- items a content;
      do rs <- mapM (fun kx =>
        let '(k, x) := kx in
        match k with
        | DBin (KIv lo hi _ _) =>
          if Nat.eqb j lastj && quantitative l then
            if isfin lo && isfin hi then
              let edged := match a with ABin _ _ _ _ _ _ _ _ | ASplit _ _ _ _ _ _ => true | _ => false end in
              let starts := is_baseline (c_kind l) && edged && neqb lo (axis_low a) in
              do r1 <- (if starts then recurse (S j) axes' x (row ++ [VNumber lo]) true else Ok out_none);
              let low := if starts then nadd lo (nmul tiny (nsub (axis_high a) (axis_low a)))
                         else if negb (is_baseline (c_kind l)) && edged then middle lo hi else lo in
              do r2 <- recurse (S j) axes' x (row ++ [VNumber low]) base;
              let r3 := if c_error l && is_baseline (c_kind l) then out_shift low (middle lo hi) else out_none in
              do r4 <- (if is_baseline (c_kind l) && edged && neqb hi (axis_high a)
                        then recurse (S j) axes' x (row ++ [VNumber hi]) true else Ok out_none);
              Ok (outs [r1; r2; r3; r4])
            else Ok out_none
          else recurse (S j) axes' x (row ++ [VText (text_of k)]) base
        | DBin KNaN =>
          if Nat.eqb j lastj && quantitative l then Ok out_none
          else recurse (S j) axes' x (row ++ [VText (text_of k)]) base
        | _ => recurse (S j) axes' x (row ++ [VText (text_of k)]) base
        end) is;
      Ok (outs (out_domain a0 ks :: rs))
    end.
End Recurse.

(** shifts.get(x, x) for a dict to which the pairs were assigned in order (598-599) *)
Definition shift (s : list (Num * Num)) (x : vcell) : vcell :=
  match x with
  | VNumber n => match find (fun p => neqb (fst p) n) (rev s) with Some p => VNumber (snd p) | None => x end
  | VText _ => x
  end.

(** Position in a list of axes, by == (541, 652, ...) *)
Definition position (a : axis) (l : list axis) : res nat := match index_of a l with Some i => Ok i | None => Err ValueError end.

Definition profiles (p : option axis) : list axis := match p with Some x => [x] | None => [] end.
Definition no_profile (p : option axis) : bool := match p with Some _ => false | None => true end.
Section Data.
  Variables (sqrt : Num -> Num) (bin_width : nat -> Num -> Num -> Num).
  (** Plotable1d._data (518-601) *)
  Definition data1d (h : phist) (p : plot1d) (id : option string) : res (list axis * list datum * list (axis * list dkey)) :=
    let l := p1_last p in
    do pr <- project h (map ch_axis (p1_chain p) ++ [c_axis l]);
    do t <- table sqrt bin_width pr {| t_count := no_profile (c_profile l); t_effcount := false; t_error := c_error l;
                                       t_normalized := c_normalized l; t_recarray := false |} (profiles (c_profile l));
    let order := o_group (p_head pr) ++ o_fixed (p_head pr) in
    do lastj <- position (c_axis l) order;
    do r <- recurse l lastj 0 order (fst t) [] false;
    Ok (order,
        map (fun row => {| d_id := id; d_row := row;
                           d_centre := if c_error l && is_baseline (c_kind l)
                                       then option_map (shift (w_shifts r)) (nth_error row lastj) else None |}) (w_rows r),
        w_domains r).
End Data.

(** ** The heat map *)
Section Recurse2.
  Variables (jx jy : nat).
  (** recurse of Plotable2d._data (785-814) *)
  Fixpoint recurse2 (j : nat) (axes : list axis) (content : pv) (row : list vcell) : res out :=
    match axes with
    | [] => do ns <- numbers_of content; Ok (out_rows [row ++ map VNumber ns])
    | a0 :: axes' =>
      do ks <- keys_of a0 content;
      do is <- items (as_bin a0) content;
      do rs <- mapM (fun kx =>
        let '(k, x) := kx in
        match k with
        | DBin (KIv lo hi _ _) =>
          if Nat.eqb j jx || Nat.eqb j jy then
            if isfin lo && isfin hi then recurse2 (S j) axes' x (row ++ [VNumber (middle lo hi)]) else Ok out_none
          else recurse2 (S j) axes' x (row ++ [VText (text_of k)])
        | DBin KNaN =>
          if Nat.eqb j jx || Nat.eqb j jy then Ok out_none else recurse2 (S j) axes' x (row ++ [VText (text_of k)])
        | _ => recurse2 (S j) axes' x (row ++ [VText (text_of k)])
        end) is;
      Ok (outs (out_domain a0 ks :: rs))
    end.
End Recurse2.
Section Data2.
  Variables (sqrt : Num -> Num) (bin_width : nat -> Num -> Num -> Num).
  (** Plotable2d._data (769-817) *)
  Definition data2d (h : phist) (p : plot2d) (id : option string) : res (list axis * list datum * list (axis * list dkey)) :=
    let l := p2_last p in
    do pr <- project h (map ch_axis (p2_chain p) ++ [c_xaxis l; c_yaxis l]);
    do t <- table sqrt bin_width pr {| t_count := no_profile (c_profile2 l); t_effcount := false; t_error := false;
                                       t_normalized := false; t_recarray := false |} (profiles (c_profile2 l));
    let order := o_group (p_head pr) ++ o_fixed (p_head pr) in
    do jx <- position (c_xaxis l) order;
    do jy <- position (c_yaxis l) order;
    do r <- recurse2 jx jy 0 order (fst t) [];
    Ok (order, map (fun row => {| d_id := id; d_row := row; d_centre := None |}) (w_rows r), w_domains r).
End Data2.
