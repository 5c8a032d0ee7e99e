(** What an axis says about itself (its properties), how it is copied and relabelled, the checks of
    the types of the arguments of its constructor, and the lookup of an axis by its kind and properties
    ([hist.axis.bin("x", numbins=10)]).  /repo/histbook/axis.py and /repo/histbook/proj.py 52-85. *)
From Coq Require Import String.
From Verif Require Import Base Num Axis Calc Content Fill FillR Tree Order Expr Nd Table Access.
Open Scope string_scope.
Local Open Scope list_scope.

(** Python values given as arguments, or got from a property.  An element of a tuple or list that is
    not a number is [None].  [YMethod] is a bound method (split.binwidth), equal to no other value. *)
Inductive yv : Type :=
| YNone | YBool (b : bool) | YInt (z : Z) | YFloat (x : Num) | YStr (s : string)
| YTuple (l : list (option Num)) | YList (l : list (option Num)) | YSlice (s : slc) | YMethod.

(** Booleans, integers and floats compare by value. *)
Definition y_num (y : yv) : option Num :=
  match y with YBool b => Some (nz (b2z b)) | YInt z => Some (nz z) | YFloat x => Some x | _ => None end.
(** Elements of sequences; two elements that are not numbers are taken to be different (simplification:
    the edges of an axis are numbers, and nothing else is compared). *)
Fixpoint items_eqb (l m : list (option Num)) : bool :=
  match l, m with
  | [], [] => true
  | Some x :: l', Some y :: m' => neqb x y && items_eqb l' m'
  | _, _ => false
  end.
Definition bound_eqb (a b : option Z) : bool :=
  match a, b with Some x, Some y => (x =? y)%Z | None, None => true | _, _ => false end.
(** [==].  A tuple never equals a list. *)
Definition y_eqb (a b : yv) : bool :=
  match y_num a, y_num b with
  | Some x, Some y => neqb x y
  | None, None =>
    match a, b with
    | YNone, YNone => true
    | YStr s, YStr t => String.eqb s t
    | YTuple l, YTuple m | YList l, YList m => items_eqb l m
    | YSlice (Slice l h), YSlice (Slice l' h') => bound_eqb l l' && bound_eqb h h'
    | _, _ => false
    end
  | _, _ => false
  end.

(** ** Argument checks: Axis._int, _nonnegint, _real and _bool (axis.py 166-190).  A bool is a
    [numbers.Integral].  Simplification: [float] of an integer does not round or overflow, and there
    are no other number types (numpy's behave as the Python ones). *)
Definition to_int (y : yv) : res Z :=
  match y with YInt z => Ok z | YBool b => Ok (b2z b) | _ => Err TypeError end.
Definition to_nonneg (y : yv) : res nat :=
  match to_int y with
  | Ok z => if (z <? 0)%Z then Err TypeError else Ok (Z.to_nat z)
  | Err e => Err e
  end.
Definition to_real (y : yv) : res Num :=
  match y_num y with Some x => Ok x | None => Err TypeError end.
Definition to_bool (y : yv) : res bool :=
  match y with YBool b => Ok b | _ => Err TypeError end.
(** The edges of a split: one number, or a sequence of numbers (axis.py 1022-1027).  [len] of a value
    that is no sequence raises TypeError, and so do the characters of a string. *)
Fixpoint all_some {A} (l : list (option A)) : option (list A) :=
  match l with
  | [] => Some []
  | Some x :: l' => match all_some l' with Some m => Some (x :: m) | None => None end
  | None :: _ => None
  end.
Definition to_edges (y : yv) : res (list Num) :=
  match y_num y with
  | Some x => Ok [x]
  | None =>
    match y with
    | YTuple l | YList l => match l, all_some l with [], _ => Err TypeError | _, Some m => Ok m | _, None => Err TypeError end
    | _ => Err TypeError
    end
  end.

(** groupbin.__init__ (axis.py 355-362) *)
Definition new_groupbin (e : string) (w origin nf cl : yv) : res axis :=
  do w' <- to_real w;
  if nleb w' nzero then Err ValueError
  else do o <- to_real origin; do nf' <- to_bool nf; do cl' <- to_bool cl; Ok (AGroupbin e w' o nf' cl').
(** bin.__init__ (axis.py 559-574) *)
Definition new_bin (e : string) (n low high u o nf cl : yv) : res axis :=
  do n' <- to_nonneg n; do l <- to_real low; do h <- to_real high;
  if (Nat.ltb 0 n' && nleb h l) || nltb h l then Err ValueError
  else
    do u' <- to_bool u; do o' <- to_bool o; do nf' <- to_bool nf; do cl' <- to_bool cl;
    if Nat.eqb (n' + b2n u' + b2n o' + b2n nf') 0 then Err ValueError else Ok (ABin e n' l h u' o' nf' cl').
(** intbin.__init__ (axis.py 802-812) *)
Definition new_intbin (e : string) (mn mx u o : yv) : res axis :=
  do a <- to_int mn; do b <- to_int mx; do u' <- to_bool u; do o' <- to_bool o;
  if (b <? a)%Z then Err ValueError else Ok (AIntbin e a b u' o').
(** split.__init__ (axis.py 1020-1038) *)
Definition new_split (e : string) (edges u o nf cl : yv) : res axis :=
  do es <- to_edges edges;
  let s := sort_num es in
  if Axis.has_dup s then Err ValueError
  else
    do u' <- to_bool u; do o' <- to_bool o; do nf' <- to_bool nf; do cl' <- to_bool cl;
    if Nat.eqb ((List.length s - 1) + b2n u' + b2n o' + b2n nf') 0 then Err ValueError else Ok (ASplit e s u' o' nf' cl').

(** ** copy() and relabel(label) (axis.py 276-283, 405-412, 652-659, 872-879, 1121-1128, 1326-1333,
    1392-1396, 1453-1460): the constructor is called again.  The attributes [_parsed] and [_original]
    that a histogram attaches to its axes are lost; they are not part of [axis]. *)
Definition relabel (label : string) (a : axis) : res axis :=
  match a with
  | AGroupby _ => Ok (AGroupby label)
  | AGroupbin _ w o nf cl => mk_groupbin label w o nf cl
  | ABin _ n l h u o nf cl => mk_bin label n l h u o nf cl
  | AIntbin _ mn mx u o => mk_intbin label mn mx u o
  | ASplit _ es u o nf cl => mk_split label es u o nf cl
  | ACut _ => Ok (ACut label)
  | ANull => Ok ANull
  | AProfile _ => Ok (AProfile label)
  end.
Definition copy_axis (a : axis) : res axis :=
  match a with
  | AGroupby e => Ok (AGroupby e)
  | AGroupbin e w o nf cl => mk_groupbin e w o nf cl
  | ABin e n l h u o nf cl => mk_bin e n l h u o nf cl
  | AIntbin e mn mx u o => mk_intbin e mn mx u o
  | ASplit e es u o nf cl => mk_split e es u o nf cl
  | ACut e => Ok (ACut e)
  | ANull => Ok ANull
  | AProfile e => Ok (AProfile e)
  end.

(** FixedAxis.items(content) (axis.py 225-230) *)
Definition items {A} (a : axis) (content : list A) : res (list (key * A)) :=
  if Nat.eqb (List.length (keys a)) (List.length content) then Ok (combine (keys a) content) else Err ValueError.

(** ** Bin widths *)
(** split.binwidth(index) (axis.py 1094-1104), with Python's indexing of the tuple of edges. *)
Definition split_binwidth (es : list Num) (z : Z) : res Num :=
  let nb := (Z.of_nat (List.length es) - 1)%Z in
  let ni := if (z <? 0)%Z then (z + nb)%Z else z in
  if (nb <=? ni)%Z then Err IndexError
  else do hi <- py_nth es (ni + 1)%Z; do lo <- py_nth es ni; Ok (nsub hi lo).

(** numpy.nextafter(x, 0): the next number with 53 bits towards zero.  For an infinity it is the
    largest double. *)
Definition toward0 (x : Num) : Num :=
  match x with
  | Fin q =>
    if qeqb q qc0 then x
    else
      let a := (if qltb q qc0 then - q else q)%Qc in
      let e := exponent q in
      let r := if qeqb a (p2 e) then (a - p2 (e - 53))%Qc else (a - p2 (e - 52))%Qc in
      Fin (if qltb q qc0 then - r else r)%Qc
  | PInf => Fin (qz (2 ^ 53 - 1) * p2 971)%Qc
  | NInf => Fin (- (qz (2 ^ 53 - 1) * p2 971))%Qc
  | NaN => NaN
  end.
Definition fsub (x y : Num) : Num := rnum (nsub x y).
Definition fdiv (x y : Num) : Num := rnum (ndiv x y).
(** [while approx * denom >= numer: approx -= delta] (axis.py 638-639); [None]: still running after
    [turns] turns. *)
Fixpoint width_turns (turns : nat) (approx delta denom numer : Num) : option Num :=
  match turns with
  | 0 => None
  | S k => if nleb numer (fmul approx denom) then width_turns k (fsub approx delta) delta denom numer else Some approx
  end.
(** bin.binwidth (axis.py 631-640).  Simplification: [float(numbins)] is exact (below 2^53). *)
Definition bin_binwidth (turns n : nat) (low high : Num) : option (res Num) :=
  let numer := fsub high low in
  let denom := nnat n in
  if Nat.eqb n 0 then Some (Err ZeroDivisionError)
  else
    let approx := fdiv numer denom in
    let delta := fsub approx (toward0 approx) in
    option_map Ok (width_turns turns approx delta denom numer).

(** ** Properties *)
Section Attr.
  (** bin.binwidth, see above *)
  Variable bw : nat -> Num -> Num -> res Num.

  (** [getattr(axis, name)] of the public properties (axis.py 271-273, 385-402, 598-650, 832-870,
      1063-1119, 1323-1347, 1388-1403, 1448-1450).  Other methods than split.binwidth answer like absent
      attributes, which makes no difference to the lookup below; private attributes are not modelled. *)
  Definition properties (a : axis) : list (string * res yv) :=
    match a with
    | AGroupby e => [("expr", Ok (YStr e)); ("binwidth", Ok (YInt 1))]
    | AGroupbin e w o nf cl =>
        [("expr", Ok (YStr e)); ("binwidth", Ok (YFloat w)); ("origin", Ok (YFloat o)); ("nanflow", Ok (YBool nf)); ("closedlow", Ok (YBool cl))]
    | ABin e n l h u o nf cl =>
        [("expr", Ok (YStr e)); ("numbins", Ok (YInt (Z.of_nat n))); ("low", Ok (YFloat l)); ("high", Ok (YFloat h));
         ("underflow", Ok (YBool u)); ("overflow", Ok (YBool o)); ("nanflow", Ok (YBool nf)); ("closedlow", Ok (YBool cl));
         ("binwidth", rmap YFloat (bw n l h)); ("finiteslice", rmap YSlice (finite_slice a)); ("totbins", Ok (YInt (Z.of_nat (totbins a))))]
    | AIntbin e mn mx u o =>
        [("expr", Ok (YStr e)); ("min", Ok (YInt mn)); ("max", Ok (YInt mx)); ("underflow", Ok (YBool u)); ("overflow", Ok (YBool o));
         ("binwidth", Ok (YInt 1)); ("finiteslice", rmap YSlice (finite_slice a)); ("numbins", Ok (YInt (mx - mn + 1)));
         ("totbins", Ok (YInt (Z.of_nat (totbins a))))]
    | ASplit e es u o nf cl =>
        [("expr", Ok (YStr e)); ("edges", Ok (YTuple (map Some es))); ("underflow", Ok (YBool u)); ("overflow", Ok (YBool o));
         ("nanflow", Ok (YBool nf)); ("closedlow", Ok (YBool cl)); ("low", rmap YFloat (py_nth es 0)); ("high", rmap YFloat (py_nth es (-1)));
         ("binwidth", Ok YMethod); ("finiteslice", rmap YSlice (finite_slice a)); ("numbins", Ok (YInt (Z.of_nat (List.length es) - 1)));
         ("totbins", Ok (YInt (Z.of_nat (totbins a))))]
    | ACut e =>
        [("expr", Ok (YStr e)); ("binwidth", Ok (YInt 1)); ("finiteslice", rmap YSlice (finite_slice a)); ("numbins", Ok (YInt 2)); ("totbins", Ok (YInt 2))]
    | ANull => [("numbins", Ok (YInt 1)); ("totbins", Ok (YInt 1))]
    | AProfile e => [("expr", Ok (YStr e))]
    end.
  Fixpoint lookup (name : string) (l : list (string * res yv)) : res yv :=
    match l with
    | [] => Err AttributeError
    | (n, v) :: rest => if String.eqb n name then v else lookup name rest
    end.
  Definition attr (a : axis) (name : string) : res yv := lookup name (properties a).

  (** ** hist.axis.bin("x", numbins=10, ...) *)
  Inductive kind : Type := IsGroupby | IsGroupbin | IsBin | IsIntbin | IsSplit | IsCut | IsProfile.
  (** [isinstance(axis, cls)]: no class of axis derives from another one. *)
  Definition is_kind (k : kind) (a : axis) : bool :=
    match k, a with
    | IsGroupby, AGroupby _ | IsGroupbin, AGroupbin _ _ _ _ _ | IsBin, ABin _ _ _ _ _ _ _ _
    | IsIntbin, AIntbin _ _ _ _ _ | IsSplit, ASplit _ _ _ _ _ _ | IsCut, ACut _ | IsProfile, AProfile _ => true
    | _, _ => false
    end.

  (** [all(hasattr(axis, n) and getattr(axis, n) == x for n, x in kwargs.items())] (proj.py 55): hasattr
      turns only an AttributeError into False. *)
  Fixpoint kwargs_match (a : axis) (kwargs : list (string * yv)) : res bool :=
    match kwargs with
    | [] => Ok true
    | (n, x) :: rest =>
      match attr a n with
      | Ok v => if y_eqb v x then kwargs_match a rest else Ok false
      | Err AttributeError => Ok false
      | Err e => Err e
      end
    end.

  Variable srt : list expr -> list expr.
  Variable defs : string -> option expr.

  Fixpoint find_in (k : kind) (e : expr) (kwargs : list (string * yv)) (axes : list (axis * expr)) : res (axis * expr) :=
    match axes with
    | [] => Err IndexError
    | (a, e') :: rest =>
      if is_kind k a && expr_same e' e then
        do b <- kwargs_match a kwargs; if b then Ok (a, e') else find_in k e kwargs rest
      else find_in k e kwargs rest
    end.
  (** AxisTuple._findbyclass and its seven callers (proj.py 52-85); each axis comes with its [_parsed].
      The keyword [expr] is taken by the positional argument, and [self] by the receiver. *)
  Definition find_axis (k : kind) (s : src) (kwargs : list (string * yv)) (axes : list (axis * expr)) : res (axis * expr) :=
    if existsb (fun p => String.eqb (fst p) "expr" || String.eqb (fst p) "self") kwargs then Err TypeError
    else do e <- parse_top srt defs s; find_in k e kwargs axes.
End Attr.
