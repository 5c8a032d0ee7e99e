(** Selection: /repo/histbook/proj.py 287-478 and the methods _select of the axes in
    /repo/histbook/axis.py.

    Simplifications: the expression is already parsed (Expr.v); [parse] gives the parsed expression
    that the histogram keeps in each axis ([_parsed]); the constants pi, e, inf, nan of
    [Expr.maybeconstants] are a parameter; a constant that is not a number inside a sum or a product
    makes the expression not constant (Python raises TypeError at once).  Numbers are exact. *)
From Coq Require Import String.
From Verif Require Import Base Num Axis Calc Content Fill FillSpec Tree Order Expr HistAlg Nd Proj.
Local Open Scope list_scope.

(** The comparisons after [normalizeexpr]. *)
Inductive scmp : Type := SEq | SNe | SLt | SLe | SGt | SGe | SIn | SNotIn.

(** What an axis answers: a new axis and what to cut, or (close, wrongcmp). *)
Inductive selcut : Type := CutSlice (s : slc) | CutKeys (p : gkey -> res bool).
Inductive selres : Type := Selected (a : axis) (c : selcut) | NotSelected (close : option Num) (wrong : bool).

(** [isinstance(value, (numbers.Real, ...))]: numbers, and bools. *)
Definition as_real (v : cst) : option Num :=
  match v with
  | KS (SNum x) => Some x
  | KS (SBool b) => Some (nnat (b2n b))
  | _ => None
  end.

(** ** groupby._select (axis.py 301-319): Python's comparison of a group key with a constant *)
Definition gkey_is (k : gkey) (s : scal) : bool :=
  match k, s with
  | GNum x, SNum y => neqb x y
  | GNum x, SBool b => neqb x (nnat (b2n b))
  | GStr a, SStr b => String.eqb a b
  | _, _ => false
  end.
Definition key_order (nums : Num -> Num -> bool) (strs : string -> string -> bool) (k : gkey) (v : cst) : res bool :=
  match k, v with
  | GNum x, KS (SNum y) => Ok (nums x y)
  | GNum x, KS (SBool b) => Ok (nums x (nnat (b2n b)))
  | GStr a, KS (SStr b) => Ok (strs a b)
  | _, _ => Err TypeError
  end.
Definition key_in (k : gkey) (v : cst) : res bool :=
  match v, k with
  | KSet l, _ => Ok (existsb (gkey_is k) l)
  | KS (SStr s), GStr a => Ok (match String.index 0 a s with Some _ => true | None => false end)
  | _, _ => Err TypeError
  end.
Definition key_cmp (c : scmp) (v : cst) (k : gkey) : res bool :=
  match c with
  | SEq => Ok (match v with KS s => gkey_is k s | _ => false end)
  | SNe => Ok (negb (match v with KS s => gkey_is k s | _ => false end))
  | SLt => key_order nltb String.ltb k v
  | SLe => key_order nleb String.leb k v
  | SGt => key_order (fun x y => nltb y x) (fun a b => String.ltb b a) k v
  | SGe => key_order (fun x y => nleb y x) (fun a b => String.leb b a) k v
  | SIn => key_in k v
  | SNotIn => rmap negb (key_in k v)
  end.

(** [round(x)] of a float: to the nearest integer, ties to even; OverflowError for an infinity,
    ValueError for NaN. *)
Definition qround (q : Qc) : Z :=
  let f := qfloor q in
  let d := (q - qz f)%Qc in
  let half := qfrac 1 2 in
  if qltb d half then f else if qltb half d then (f + 1)%Z else if Z.even f then f else (f + 1)%Z.
Definition nround (x : Num) : res Z :=
  match x with
  | Fin q => Ok (qround q)
  | NaN => Err ValueError
  | _ => Err OverflowError
  end.
Definition absdiff (x y : Num) : Num := let d := nsub x y in if nltb d nzero then nsub y x else d.
Definition is_pinf (x : Num) : bool := match x with PInf => true | _ => false end.
Definition is_ninf (x : Num) : bool := match x with NInf => true | _ => false end.
Definition scmp_is (a b : scmp) : bool :=
  match a, b with
  | SEq, SEq | SNe, SNe | SLt, SLt | SLe, SLe | SGt, SGt | SGe, SGe | SIn, SIn | SNotIn, SNotIn => true
  | _, _ => false
  end.

(** ** groupbin._select (axis.py 474-515).  A key is the low edge of its interval, or "NaN". *)
Definition nan_key (k : gkey) : bool := match k with GStr s => String.eqb s "NaN" | _ => false end.
Definition groupbin_select (a : axis) (w origin : Num) (cl : bool) (c : scmp) (v : cst) (tol : Num) : res selres :=
  let others := Ok (Selected a (CutKeys (fun k => Ok (negb (nan_key k))))) in
  match as_real v with
  | None => Ok (NotSelected None false)
  | Some x =>
    if is_ninf x && (scmp_is c SGe || scmp_is c SGt || scmp_is c SNe) then others
    else if is_pinf x && (scmp_is c SLe || scmp_is c SLt || scmp_is c SNe) then others
    else if isnan x && scmp_is c SNe then others
    else if isnan x && scmp_is c SEq then Ok (Selected a (CutKeys (fun k => Ok (nan_key k))))
    else
      do r <- nround (ndiv (nsub x origin) w);
      let close := nadd (nmul (nz r) w) origin in
      if nltb (absdiff x close) tol then
        if cl && scmp_is c SLt || negb cl && scmp_is c SLe
        then Ok (Selected a (CutKeys (fun k => key_cmp SLt (KS (SNum close)) k)))
        else if cl && scmp_is c SGe || negb cl && scmp_is c SGt
        then Ok (Selected a (CutKeys (fun k => key_cmp SGe (KS (SNum close)) k)))
        else Ok (NotSelected (Some close) true)
      else Ok (NotSelected (Some close) false)
  end.

Definition zslice (lo hi : Z) : slc := Slice (Some lo) (Some hi).
(** [_checktot]: at least one bin. *)
Definition checked (a : axis) (s : slc) : res selres :=
  if Nat.eqb (totbins a) 0 then Err ValueError else Ok (Selected a (CutSlice s)).

(** ** bin._select (axis.py 692-767).  [edgenum] is not clipped in the code: with a tolerance of half a
    bin or more it can be negative or more than the number of bins, and then the new axis would have a
    negative number of bins, or more than the content; the model gives AssertionError there. *)
Definition bin_select (e : string) (n : nat) (l h : Num) (u o nf cl : bool) (c : scmp) (v : cst) (tol : Num) : res selres :=
  let numbers := (Z.of_nat n + b2z u + b2z o)%Z in
  let all := checked (ABin e n l h u o false cl) (zslice 0 numbers) in
  match as_real v with
  | None => Ok (NotSelected None false)
  | Some x =>
    if is_ninf x && scmp_is c SGe then all
    else if is_pinf x && scmp_is c SLe then all
    else if isnan x && scmp_is c SNe then all
    else if isnan x && scmp_is c SEq then checked (ABin e n l h u o false cl) (zslice numbers (numbers + 1))
    else
      if neqb (nsub h l) nzero then Err ZeroDivisionError else
      let scale := ndiv (nnat n) (nsub h l) in
      do edgenum <- nround (nmul (nsub x l) scale);
      if neqb scale nzero then Err ZeroDivisionError else
      let close := nadd (ndiv (nz (Z.min (Z.of_nat n) (Z.max 0 edgenum))) scale) l in
      if nltb (absdiff x close) tol then
        if (edgenum <? 0)%Z || (Z.of_nat n <? edgenum)%Z then Err AssertionError
        else if cl && scmp_is c SLt || negb cl && scmp_is c SLe
        then checked (ABin e (Z.to_nat edgenum) l close u false false cl) (zslice 0 (edgenum + b2z u))
        else if cl && scmp_is c SGe || negb cl && scmp_is c SGt
        then checked (ABin e (n - Z.to_nat edgenum) close h false o false cl) (zslice (edgenum + b2z u) numbers)
        else Ok (NotSelected (Some close) true)
      else Ok (NotSelected (Some close) false)
  end.

(** ** intbin._select (axis.py 914-986).  For the infinities the slice mentions [self._numbins], which an
    intbin does not have. *)
Definition int_checked (e : string) (mn mx : Z) (u o : bool) (s : slc) : res selres :=
  if (mx <? mn)%Z then Err ValueError else Ok (Selected (AIntbin e mn mx u o) (CutSlice s)).
Definition intbin_select (e : string) (mn mx : Z) (u o : bool) (c : scmp) (v : cst) (tol : Num) : res selres :=
  match as_real v with
  | None => Ok (NotSelected None false)
  | Some x =>
    if is_ninf x && (scmp_is c SGe || scmp_is c SGt) || is_pinf x && (scmp_is c SLe || scmp_is c SLt) then Err AttributeError
    else if nltb (nadd x tol) (nz mn) then Ok (NotSelected (Some (nz mn)) false)
    else if nltb (nz mx) (nsub x tol) then Ok (NotSelected (Some (nz mx)) false)
    else
      do r <- nround x;
      if nltb (absdiff x (nz r)) tol then
        match c with
        | SLt => int_checked e mn (r - 1) u false (Slice None (Some (r - 1 - mn + b2z u + 1)%Z))
        | SLe => int_checked e mn r u false (Slice None (Some (r - mn + b2z u + 1)%Z))
        | SGt => int_checked e (r + 1) mx false o (Slice (Some (r + 1 - mn + b2z u)%Z) None)
        | SGe => int_checked e r mx false o (Slice (Some (r - mn + b2z u)%Z) None)
        | _ => Ok (NotSelected (Some (nz r)) true)
        end
      else Ok (NotSelected (Some (nz r)) false)
  end.

(** ** split._select (axis.py 1213-1284).  [sorted((abs(value - x), x, i) ...)[0]]: the nearest edge, the
    lower one of two at the same distance. *)
Fixpoint nearest (x : Num) (i : nat) (edges : list Num) (best : Num * Num * nat) : Num * Num * nat :=
  match edges with
  | [] => best
  | y :: ys =>
    let d := absdiff x y in
    let '(bd, bx, _) := best in
    nearest x (S i) ys (if nltb d bd || neqb d bd && nltb y bx then (d, y, i) else best)
  end.
Definition split_select (e : string) (edges : list Num) (u o nf cl : bool) (c : scmp) (v : cst) (tol : Num) : res selres :=
  let m := (Z.of_nat (length edges) - 1)%Z in
  let numbers := (m + b2z u + b2z o)%Z in
  let all := checked (ASplit e edges u o false cl) (zslice 0 numbers) in
  match as_real v with
  | None => Ok (NotSelected None false)
  | Some x =>
    if is_ninf x && scmp_is c SGe then all
    else if is_pinf x && scmp_is c SLe then all
    else if isnan x && scmp_is c SNe then all
    else if isnan x && scmp_is c SEq then checked (ASplit e edges u o false cl) (zslice numbers (numbers + 1))
    else
      match edges with
      | [] => Err IndexError
      | y :: ys =>
        let '(dist, edgex, edgei) := nearest x 1 ys (absdiff x y, y, 0) in
        if nltb dist tol then
          let cuti := (Z.of_nat edgei + b2z u)%Z in
          if cl && scmp_is c SLt || negb cl && scmp_is c SLe
          then checked (ASplit e (firstn (edgei + 1) edges) u false false cl) (zslice 0 cuti)
          else if cl && scmp_is c SGe || negb cl && scmp_is c SGt
          then let es := skipn edgei edges in
               checked (ASplit e es false o false cl) (zslice cuti (cuti + Z.of_nat (length es) + b2z o - 1))
          else Ok (NotSelected (Some edgex) true)
        else Ok (NotSelected (Some edgex) false)
      end
  end.

(** ** cut._select (axis.py 1367-1378) *)
Definition cut_select (c : scmp) (v : cst) : res selres :=
  match v with
  | KS (SBool b) =>
    match c with
    | SEq => Ok (Selected ANull (CutSlice (if b then zslice 1 2 else zslice 0 1)))
    | SNe => Ok (Selected ANull (CutSlice (if b then zslice 0 1 else zslice 1 2)))
    | _ => Ok (NotSelected None true)
    end
  | _ => Ok (NotSelected None false)
  end.

Definition axis_select (a : axis) (c : scmp) (v : cst) (tol : Num) : res selres :=
  match a with
  | AGroupby _ => Ok (Selected a (CutKeys (key_cmp c v)))
  | AGroupbin _ w origin _ cl => groupbin_select a w origin cl c v tol
  | ABin e n l h u o nf cl => bin_select e n l h u o nf cl c v tol
  | AIntbin e mn mx u o => intbin_select e mn mx u o c v tol
  | ASplit e edges u o nf cl => split_select e edges u o nf cl c v tol
  | ACut _ => cut_select c v
  | ANull => Ok (NotSelected None false)       (* 1415-1416 *)
  | AProfile _ => Err AttributeError           (* no such method; never asked *)
  end.

(** ** _selectaxis (proj.py 460-478).  [p] is the position of the cut axis among the group and fixed
    axes. *)
Definition filter_keys (p : gkey -> res bool) : list (gkey * pv) -> res (list (gkey * pv)) :=
  fix go l := match l with
              | [] => Ok []
              | (k, x) :: t => do b <- p k; do t' <- go t; Ok (if b then (k, x) :: t' else t')
              end.
(** content[slc].copy(), with one slice for each fixed axis and one for the last dimension; the
    dimension of the cut axis is dropped if the new axis is the null axis. *)
Definition cut_array (nfixed p : nat) (s : slc) (dropped : bool) (c : pv) : res pv :=
  match c with
  | PArr sh d =>
    if Nat.ltb (length sh) (nfixed + 1) then Err IndexError
    else
      let ss := map (fun j => if Nat.eqb j p then s else full) (seq 0 (length sh)) in
      let sh' := aslice_shape ss sh in
      let keep := map (fun j => negb (Nat.eqb j p)) (seq 0 (length sh)) in
      if dropped && negb (Nat.eqb (nth p sh' 0) 1) then Err ValueError
      else Ok (PArr (if dropped then select keep sh' else sh') (aslice ss sh d))
  | _ => Err TypeError
  end.
Fixpoint cutcontent (ngroup nfixed p : nat) (cut : selcut) (dropped : bool) (c : pv) : res pv :=
  match c with
  | PNone => Ok PNone
  | _ =>
    match ngroup with
    | S g =>
      match c, p with
      | PDict l, 0 => match cut with
                      | CutKeys q => rmap PDict (filter_keys q l)
                      | CutSlice _ => Err TypeError
                      end
      | PDict l, S p' => rmap PDict (proj_items (cutcontent g nfixed p' cut dropped) l)
      | _, _ => Err AttributeError
      end
    | 0 => match cut with
           | CutSlice s => cut_array nfixed p s dropped c
           | CutKeys _ => Err TypeError
           end
    end
  end.
Definition is_null (a : axis) : bool := match a with ANull => true | _ => false end.
Definition replace_nth {A} (p : nat) (x : A) (l : list A) : list A :=
  map (fun iy => if Nat.eqb (fst iy) p then x else snd iy) (combine (seq 0 (length l)) l).
Definition select_axis (h : phist) (p : nat) (newaxis : axis) (cut : selcut) (dropnull : bool) : res phist :=
  let hd := p_head h in
  let axes := replace_nth p newaxis (o_group hd ++ o_fixed hd) ++ o_prof hd in
  let out := rebuild hd (if dropnull then filter (fun a => negb (is_null a)) axes else axes) in
  match p_content h with
  | PNone => Ok (PH out PNone)
  | c => do c' <- cutcontent (length (o_group hd)) (length (o_fixed hd)) p cut (dropnull && is_null newaxis) c;
         Ok (PH out c')
  end.

(** ** The expression (proj.py 303-458) *)
Section Expression.
  Variable maybeconstants : string -> option Num.
  Variable parse : string -> expr.
  Definition parsed (a : axis) : expr := parse (axis_expr a).
  (** asconst (323-353) *)
  Definition fold_const {A} (op : Num -> Num -> Num) (f : A -> option Num) : Num -> list A -> option Num :=
    fix go acc l := match l with
                    | [] => Some acc
                    | x :: t => match f x with Some v => go (op acc v) t | None => None end
                    end.
  Fixpoint asnum (e : expr) : option Num :=
    let asterm t := match t with
                    | T c p n => match fold_const nmul asnum (Fin c) p with
                                 | Some v => fold_const ndiv asnum v n
                                 | None => None
                                 end
                    end in
    match e with
    | EConst v => as_real v
    | EName s => maybeconstants s
    | EPM c p n => match fold_const nadd asterm (Fin c) p with
                   | Some v => fold_const nsub asterm v n
                   | None => None
                   end
    | ETD t => asterm t
    | _ => None
    end.
  Definition asconst (e : expr) : option cst :=
    match e with
    | EConst c => Some c
    | _ => option_map (fun x => KS (SNum x)) (asnum e)
    end.

  (** normalizeexpr (355-386).  In the flipped case only < and <= are turned round. *)
  Definition scmp_of (c : cmp) : scmp :=
    match c with CEq => SEq | CNe => SNe | CLt => SLt | CLe => SLe | CIn => SIn | CNotIn => SNotIn end.
  Definition flip (c : scmp) : scmp := match c with SLt => SGt | SLe => SGe | c => c end.
  Definition normalizeexpr (e : expr) : res (expr * scmp * cst) :=
    match e with
    | ERel c l r =>
      match asconst l, asconst r with
      | Some v, None => Ok (r, flip (scmp_of c), v)
      | None, Some v => Ok (l, scmp_of c, v)
      | _, _ => Err TypeError
      end
    | EPred s b => Ok (EName s, if b then SEq else SNe, KS (SBool true))
    | _ => Ok (e, SEq, KS (SBool true))
    end.

  (** The lambdas that [logical] makes for an "or" (392-421) look up the variables slice1 and slice2 of
      the call when they are called, that is, after the loops have ended: [CAnd] is
      [lambda x: slice1(x) and slice2(x)], [COr] is [lambda x: slice1(x) or slice2(x)]. *)
  Inductive clo : Type := CBase (p : gkey -> res bool) | CAnd | COr.
  Fixpoint eval_clo (depth : nat) (s1 s2 : clo) (c : clo) (k : gkey) : res bool :=
    match c with
    | CBase p => p k
    | CAnd => match depth with
              | 0 => Err RecursionError
              | S n => do b <- eval_clo n s1 s2 s1 k; if b then eval_clo n s1 s2 s2 k else Ok false
              end
    | COr => match depth with
             | 0 => Err RecursionError
             | S n => do b <- eval_clo n s1 s2 s1 k; if b then Ok true else eval_clo n s1 s2 s2 k
             end
    end.
  Definition recursion_limit : nat := 100.
  Record frame : Type := Fr { slice1 : clo; slice2 : clo }.

  Variable tol : Num.

  (** One clause for one group axis: [None] if the axis cannot select it. *)
  Definition clause (a : axis) (e : expr) : res (option (gkey -> res bool)) :=
    do n <- normalizeexpr e;
    let '(x, c, v) := n in
    if expr_same x (parsed a) then
      do r <- axis_select a c v tol;
      match r with
      | Selected _ (CutKeys p) => Ok (Some p)
      | _ => Ok None
      end
    else Ok None.
  Fixpoint and_loop (a : axis) (l : list expr) (andslice : option clo) (f : frame) : res (option (option clo * frame)) :=
    match l with
    | [] => Ok (Some (andslice, f))
    | e :: t =>
      do r <- clause a e;
      match r with
      | None => Ok None
      | Some p =>
        match andslice with
        | None => and_loop a t (Some (CBase p)) (Fr (CBase p) (slice2 f))
        | Some s => and_loop a t (Some CAnd) (Fr (CBase p) s)
        end
      end
    end.
  Fixpoint or_loop (a : axis) (l : list expr) (orslice : option clo) (f : frame) : res (option (option clo * frame)) :=
    match l with
    | [] => Ok (Some (orslice, f))
    | EAnd xs :: t =>
      do r <- and_loop a xs None f;
      match r with
      | None => Ok None
      | Some (andslice, f') =>
        match orslice, andslice with
        | None, _ => or_loop a t andslice f'
        | Some s, Some s' => or_loop a t (Some COr) (Fr s' s)
        | Some _, None => Err TypeError
        end
      end
    | _ :: _ => Err AttributeError
    end.

  (** [logical] for one axis (390-443) and the loop over the axes (445-456).  [closest], [closestaxis]
      and [wrongcmpaxis] only choose the message; the call passes the last two in the wrong order. *)
  Definition hit := (axis * selcut)%type.
  Definition or_hit (a : axis) (l : list expr) : res (option hit) :=
    if is_group a then
      do r <- or_loop a l None (Fr (CBase (fun _ => Err NameError)) (CBase (fun _ => Err NameError)));
      match r with
      | Some (Some s, f) => Ok (Some (a, CutKeys (eval_clo recursion_limit (slice1 f) (slice2 f) s)))
      | _ => Ok None
      end
    else Ok None.
  Definition logical (whole cutexpr : expr) (c : scmp) (v : cst) (a : axis) : res (hit + selres) :=
    do o <- match cutexpr with EOr l => or_hit a l | _ => Ok None end;
    match o with
    | Some r => Ok (inl r)
    | None =>
      match a with
      | ACut _ =>
        if expr_same whole (parsed a) then Ok (inl (ANull, CutSlice (zslice 1 2)))
        else if expr_same cutexpr (parsed a) then
          do r <- axis_select a c v tol;
          match r with Selected a' s => Ok (inl (a', s)) | _ => Ok (inr r) end
        else Ok (inr (NotSelected None false))
      | _ =>
        if expr_same cutexpr (parsed a) then
          do r <- axis_select a c v tol;
          match r with Selected a' s => Ok (inl (a', s)) | _ => Ok (inr r) end
        else Ok (inr (NotSelected None false))
      end
    end.
  Definition has_closedlow (a : axis) : bool :=
    match a with AGroupbin _ _ _ _ _ | ABin _ _ _ _ _ _ _ _ | ASplit _ _ _ _ _ _ => true | _ => false end.
  Definition closer (v : cst) (close : Num) (closest : option Num) : bool :=
    match closest, as_real v with
    | Some x, Some y => nltb (absdiff y close) (absdiff y x)
    | _, _ => true
    end.
  Fixpoint find_hit (whole cutexpr : expr) (c : scmp) (v : cst) (p : nat) (axes : list axis)
           (closest : option Num) (wrongax closeax : option axis) : res (nat * hit) :=
    match axes with
    | [] => match wrongax with
            | Some a => if has_closedlow a then Err ValueError else Err AttributeError
            | None => Err ValueError
            end
    | a :: t =>
      do r <- logical whole cutexpr c v a;
      match r with
      | inl x => Ok (p, x)
      | inr (NotSelected close wrong) =>
        (* the parameters closestaxis and wrongcmpaxis receive [wrongax] and [closeax] *)
        let nearer := match close with Some y => closer v y closest | None => false end in
        find_hit whole cutexpr c v (S p) t (if nearer then close else closest)
                 (if wrong then Some a else closeax) (if nearer then Some a else wrongax)
      | inr _ => Err AssertionError
      end
    end.

  Definition select1 (h : phist) (e : expr) : res phist :=
    match e with
    | ERel _ _ _ | EAnd _ | EOr _ | EPred _ _ | EName _ =>
      do n <- normalizeexpr e;
      let '(x, c, v) := n in
      do r <- find_hit e x c v 0 (o_group (p_head h) ++ o_fixed (p_head h)) None None None;
      let '(p, (a, s)) := r in
      select_axis h p a s true
    | _ => Err TypeError
    end.
  Fixpoint select_all (h : phist) (l : list expr) : res phist :=
    match l with
    | [] => Ok h
    | e :: t => do h' <- select1 h e; select_all h' t
    end.
  Definition hist_select (h : phist) (e : expr) : res phist :=
    match e with
    | EAnd l => select_all h l
    | _ => select1 h e
    end.
End Expression.
