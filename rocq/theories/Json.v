(** Conversion to and from JSON and pickle state: tojson, fromjson, _pack, _unpack of the axes
    (axis.py 198-218 and each class), tojson, fromjson, __getstate__, __setstate__ of Hist
    (hist.py 690-731), and the part of Hist.__init__ that sorts the axes (hist.py 137-196). *)
From Coq Require Import String.
From Verif Require Import Base Num Axis Calc Content Fill HistAlg.
Local Open Scope string_scope.
Local Open Scope list_scope.

(** What tojson returns: Python values that the json module can write.  Integers and floats are
    different types (axis.py 167-192 checks them); dict keys are strings or group keys. *)
Inductive json : Type :=
| JNull
| JBool (b : bool)
| JInt (z : Z)
| JNum (x : Num)
| JStr (s : string)
| JList (l : list json)
| JObj (l : list (gkey * json)).

(** obj[name] *)
Definition jget (name : string) (j : json) : res json :=
  match j with
  | JObj l => match assoc (GStr name) l with Some v => Ok v | None => Err KeyError end
  | _ => Err TypeError
  end.
(** obj.get(name, None) *)
Definition jfind (name : string) (j : json) : json :=
  match j with
  | JObj l => match assoc (GStr name) l with Some v => v | None => JNull end
  | _ => JNull
  end.
(** Axis._int, _nonnegint, _real, _bool (axis.py 166-192): an integer is also a real. *)
Definition j_int (j : json) : res Z := match j with JInt z => Ok z | _ => Err TypeError end.
Definition j_nat (j : json) : res nat :=
  match j with JInt z => if (z <? 0)%Z then Err TypeError else Ok (Z.to_nat z) | _ => Err TypeError end.
Definition j_real (j : json) : res Num :=
  match j with JInt z => Ok (nz z) | JNum x => Ok x | _ => Err TypeError end.
Definition j_bool (j : json) : res bool := match j with JBool b => Ok b | _ => Err TypeError end.
Definition j_str (j : json) : res string := match j with JStr s => Ok s | _ => Err TypeError end.
Definition j_reals (j : json) : res (list Num) :=
  match j with
  | JList l => mapM j_real l
  | JInt z => Ok [nz z]
  | JNum x => Ok [x]
  | _ => Err TypeError
  end.

Definition obj (l : list (string * json)) : json := JObj (map (fun kv => (GStr (fst kv), snd kv)) l).

(** tojson (axis.py 263, 367, 579, 817, 1043, 1311, 1438); _nullaxis has none. *)
Definition axis_tojson (a : axis) : res json :=
  match a with
  | AGroupby e => Ok (obj [("axis", JStr "groupby"); ("expr", JStr e)])
  | AGroupbin e w o nf cl =>
      Ok (obj [("axis", JStr "groupbin"); ("expr", JStr e); ("binwidth", JNum w); ("origin", JNum o);
               ("nanflow", JBool nf); ("closedlow", JBool cl)])
  | ABin e n low high u o nf cl =>
      Ok (obj [("axis", JStr "bin"); ("expr", JStr e); ("numbins", JInt (Z.of_nat n)); ("low", JNum low);
               ("high", JNum high); ("underflow", JBool u); ("overflow", JBool o); ("nanflow", JBool nf);
               ("closedlow", JBool cl)])
  | AIntbin e mn mx u o =>
      Ok (obj [("axis", JStr "intbin"); ("expr", JStr e); ("min", JInt mn); ("max", JInt mx);
               ("underflow", JBool u); ("overflow", JBool o)])
  | ASplit e edges u o nf cl =>
      Ok (obj [("axis", JStr "split"); ("expr", JStr e); ("edges", JList (map JNum edges));
               ("underflow", JBool u); ("overflow", JBool o); ("nanflow", JBool nf); ("closedlow", JBool cl)])
  | ACut e => Ok (obj [("axis", JStr "cut"); ("expr", JStr e)])
  | AProfile e => Ok (obj [("axis", JStr "profile"); ("expr", JStr e)])
  | ANull => Err AttributeError
  end.

(** Axis.fromjson (axis.py 201-218) and the fromjson of each class (267, 371, 583, 821, 1047, 1315,
    1442).  An expression that is not a string is not modelled. *)
Definition axis_fromjson (j : json) : res axis :=
  do kind <- jget "axis" j;
  do kind <- j_str kind;
  do e <- jget "expr" j; do e <- j_str e;
  let field := fun n => jget n j in
  if String.eqb kind "groupby" then Ok (AGroupby e)
  else if String.eqb kind "groupbin" then
    do w <- field "binwidth"; do o <- field "origin"; do nf <- field "nanflow"; do cl <- field "closedlow";
    do w <- j_real w; do o <- j_real o; do nf <- j_bool nf; do cl <- j_bool cl;
    mk_groupbin e w o nf cl
  else if String.eqb kind "bin" then
    do n <- field "numbins"; do low <- field "low"; do high <- field "high"; do u <- field "underflow";
    do o <- field "overflow"; do nf <- field "nanflow"; do cl <- field "closedlow";
    do n <- j_nat n; do low <- j_real low; do high <- j_real high; do u <- j_bool u; do o <- j_bool o;
    do nf <- j_bool nf; do cl <- j_bool cl;
    mk_bin e n low high u o nf cl
  else if String.eqb kind "intbin" then
    do mn <- field "min"; do mx <- field "max"; do u <- field "underflow"; do o <- field "overflow";
    do mn <- j_int mn; do mx <- j_int mx; do u <- j_bool u; do o <- j_bool o;
    mk_intbin e mn mx u o
  else if String.eqb kind "split" then
    do es <- field "edges"; do u <- field "underflow"; do o <- field "overflow"; do nf <- field "nanflow";
    do cl <- field "closedlow";
    do es <- j_reals es; do u <- j_bool u; do o <- j_bool o; do nf <- j_bool nf; do cl <- j_bool cl;
    mk_split e es u o nf cl
  else if String.eqb kind "cut" then Ok (ACut e)
  else if String.eqb kind "profile" then Ok (AProfile e)
  else Err ValueError.

(** _pack and Axis._unpack (axis.py 197-199, 257, 364, 576, 814, 1040, 1308, 1435): the class and the
    arguments of its constructor; _nullaxis has no _pack. *)
Inductive packed : Type :=
| PGroupby (e : string)
| PGroupbin (e : string) (w o : Num) (nf cl : bool)
| PBin (e : string) (n : nat) (low high : Num) (u o nf cl : bool)
| PIntbin (e : string) (mn mx : Z) (u o : bool)
| PSplit (e : string) (edges : list Num) (u o nf cl : bool)
| PCut (e : string)
| PProfile (e : string).
Definition axis_pack (a : axis) : res packed :=
  match a with
  | AGroupby e => Ok (PGroupby e)
  | AGroupbin e w o nf cl => Ok (PGroupbin e w o nf cl)
  | ABin e n low high u o nf cl => Ok (PBin e n low high u o nf cl)
  | AIntbin e mn mx u o => Ok (PIntbin e mn mx u o)
  | ASplit e es u o nf cl => Ok (PSplit e es u o nf cl)
  | ACut e => Ok (PCut e)
  | AProfile e => Ok (PProfile e)
  | ANull => Err AttributeError
  end.
Definition axis_unpack (p : packed) : res axis :=
  match p with
  | PGroupby e => Ok (AGroupby e)
  | PGroupbin e w o nf cl => mk_groupbin e w o nf cl
  | PBin e n low high u o nf cl => mk_bin e n low high u o nf cl
  | PIntbin e mn mx u o => mk_intbin e mn mx u o
  | PSplit e es u o nf cl => mk_split e es u o nf cl
  | PCut e => Ok (ACut e)
  | PProfile e => Ok (AProfile e)
  end.

(** ndarray.tolist of an array of shape [shape], and numpy.array of the nested lists. *)
Fixpoint nest (shape : list nat) (d : list Num) : json :=
  match shape with
  | [] => JNum (hd NaN d)
  | t :: ts => let k := fold_right Nat.mul 1 ts in
               JList (map (fun i => nest ts (firstn k (skipn (i * k) d))) (seq 0 t))
  end.
Fixpoint flatten (j : json) : list Num :=
  match j with
  | JNum x => [x]
  | JInt z => [nz z]
  | JList l => flat_map flatten l
  | _ => []
  end.
(** the local functions [recurse] of tojson (hist.py 699-703) and fromjson (712-718) *)
Definition json_items (f : content -> res json) : list (gkey * content) -> res (list (gkey * json)) :=
  fix go l := match l with
              | [] => Ok []
              | (n, x) :: t => do y <- f x; do t' <- go t; Ok ((n, y) :: t')
              end.
Fixpoint content_tojson (shape : list nat) (c : content) : res json :=
  match c with
  | CNone => Err AttributeError
  | CArr d => Ok (nest shape d)
  | CDict l => rmap JObj (json_items (content_tojson shape) l)
  end.
Fixpoint content_fromjson (j : json) : content :=
  match j with
  | JNull => CNone
  | JObj l => CDict (map (fun kv => (fst kv, content_fromjson (snd kv))) l)
  | _ => CArr (flatten j)
  end.

Definition wsrc_tojson (w : wsrc) : json := match w with XStr s => JStr s | XNum x => JNum x end.
Definition wsrc_fromjson (j : json) : option wsrc :=
  match j with JStr s => Some (XStr s) | JNum x => Some (XNum x) | JInt z => Some (XNum (nz z)) | _ => None end.

Section Hist.
  (** The exceptions that parsing the axes, and the weight and filter, may raise (expr.py); parsing
      depends on the texts and the definitions only. *)
  Variable axis_check : list (string * wsrc) -> string -> option err.
  Variable weight_check : list (string * wsrc) -> option wsrc -> option wsrc -> option err.

  Fixpoint check_axes (defs : list (string * wsrc)) (axes : list axis) : option err :=
    match axes with
    | [] => None
    | ANull :: t => check_axes defs t
    | a :: t => match axis_check defs (axis_expr a) with Some e => Some e | None => check_axes defs t end
    end.
  (** Hist.__init__: group, fixed and profile axes in the given order (hist.py 151-196) *)
  Definition mk_hist (axes : list axis) (w f : option wsrc) (defs : list (string * wsrc))
             (att : list (string * string)) : res hobj :=
    match check_axes defs axes, weight_check defs w f with
    | Some e, _ => Err e
    | None, Some e => Err e
    | None, None =>
        Ok {| o_group := filter is_group axes; o_fixed := filter is_fixed axes; o_prof := filter is_profile axes;
              o_weight := w; o_filter := f; o_defs := defs; o_attach := att; o_content := CNone |}
    end.

  Definition strings (l : list (string * string)) : json := obj (map (fun kv => (fst kv, JStr (snd kv))) l).
  Definition opt {A} (o : option A) (name : string) (f : A -> json) : list (string * json) :=
    match o with None => [] | Some a => [(name, f a)] end.

  (** tojson (hist.py 690-707) *)
  Definition hist_tojson (h : hobj) : res json :=
    do axes <- mapM axis_tojson (o_axes h);
    do c <- match o_content h with
            | CNone => Ok []
            | c => do j <- content_tojson (l_tots (o_layout h) ++ [l_last (o_layout h)]) c; Ok [("content", j)]
            end;
    Ok (obj ([("type", JStr "Hist"); ("axis", JList axes)]
             ++ opt (o_weight h) "weight" wsrc_tojson
             ++ opt (o_filter h) "filter" wsrc_tojson
             ++ match o_defs h with
                | [] => []
                | d => [("defs", obj (map (fun kv => (fst kv, wsrc_tojson (snd kv))) d))]
                end
             ++ c
             ++ match o_attach h with [] => [] | a => [("attachment", strings a)] end)).

  Definition j_dict {A} (f : json -> option A) (j : json) : list (string * A) :=
    match j with
    | JObj l => flat_map (fun kv => match fst kv, f (snd kv) with
                                    | GStr s, Some a => [(s, a)]
                                    | _, _ => []
                                    end) l
    | _ => []
    end.
  Definition j_string (j : json) : option string := match j with JStr s => Some s | _ => None end.
  (** fromjson (hist.py 709-722) *)
  Definition hist_fromjson (j : json) : res hobj :=
    do t <- jget "type" j;
    do t <- j_str t;
    if negb (String.eqb t "Hist") then Err AssertionError else
    do axes <- jget "axis" j;
    do axes <- match axes with JList l => mapM axis_fromjson l | _ => Err TypeError end;
    do h <- mk_hist axes (wsrc_fromjson (jfind "weight" j)) (wsrc_fromjson (jfind "filter" j))
                    (j_dict wsrc_fromjson (jfind "defs" j)) (j_dict j_string (jfind "attachment" j));
    Ok (with_content h (content_fromjson (jfind "content" j))).

  (** __getstate__ and __setstate__ (hist.py 724-731) *)
  Record pickled : Type := {
    p_axes : list packed; p_weight : option wsrc; p_filter : option wsrc;
    p_defs : option (list (string * wsrc)); p_content : content; p_attach : option (list (string * string)) }.
  Definition hist_getstate (h : hobj) : res pickled :=
    do ps <- mapM axis_pack (o_axes h);
    Ok {| p_axes := ps; p_weight := o_weight h; p_filter := o_filter h;
          p_defs := match o_defs h with [] => None | d => Some d end; p_content := o_content h;
          p_attach := match o_attach h with [] => None | a => Some a end |}.
  Definition or_empty {A} (o : option (list A)) : list A := match o with None => [] | Some l => l end.
  Definition hist_setstate (s : pickled) : res hobj :=
    do axes <- mapM axis_unpack (p_axes s);
    do h <- mk_hist axes (p_weight s) (p_filter s) (or_empty (p_defs s)) (or_empty (p_attach s));
    Ok (with_content h (p_content s)).
End Hist.

(** json.loads(json.dumps(j)): JSON objects have only string keys, so json.dumps writes a number
    used as a key as a string ([repr_num] is how it writes it).  Everything else comes back. *)
Fixpoint through_text (repr_num : Num -> string) (j : json) : json :=
  match j with
  | JList l => JList (map (through_text repr_num) l)
  | JObj l => JObj (map (fun kv => (match fst kv with GNum x => GStr (repr_num x) | k => k end,
                                    through_text repr_num (snd kv))) l)
  | _ => j
  end.
