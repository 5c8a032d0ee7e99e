(** Histogram arithmetic on values: __add__, __iadd__, __mul__, __rmul__, __imul__, clear, cleared,
    copy, group, __eq__ and compatible of Hist (hist.py 70-98, 496-649, 733-751).
    Here a content is a value; who shares which array with whom is in Heap.v. *)
From Coq Require Import String.
From Verif Require Import Base Num Axis Calc Content Fill.

(** _copycontent (hist.py 70-77). *)
Fixpoint copycontent (c : content) : content :=
  match c with
  | CNone => CNone
  | CArr d => CArr d
  | CDict l => CDict (map (fun kv => (fst kv, copycontent (snd kv))) l)
  end.

(** [a + b] of two arrays that agree in all dimensions but the last, whose sizes are [k1] and [k2]
    (the axes were compared, hist.py 500-501, but not the weights, which decide the size of the last
    dimension): numpy broadcasts a last dimension of size 1. *)
Definition stretch (k : nat) (d : list Num) : list Num := flat_map (fun x => repeat x k) d.
Definition arr_zip (d e : list Num) : res (list Num) :=
  if Nat.eqb (length d) (length e) then Ok (map2 nadd d e) else Err ValueError.
Definition arr_add (k1 k2 : nat) (d e : list Num) : res (list Num) :=
  if Nat.eqb k1 k2 then arr_zip d e
  else if Nat.eqb k1 1 then arr_zip (stretch k2 d) e
  else if Nat.eqb k2 1 then arr_zip d (stretch k1 e)
  else Err ValueError.
(** [a += b]: only [b] can be broadcast. *)
Definition arr_iadd (k1 k2 : nat) (d e : list Num) : res (list Num) :=
  if Nat.eqb k1 k2 then arr_zip d e
  else if Nat.eqb k2 1 then arr_zip d (stretch k1 e)
  else Err ValueError.

(** the local function [add] of __add__ (hist.py 503-527) *)
Definition add_items (f : content -> content -> res content) (m : list (gkey * content)) :
  list (gkey * content) -> res (list (gkey * content)) :=
  fix go l := match l with
              | [] => Ok []
              | (n, x) :: t =>
                do y <- match assoc n m with Some x' => f x x' | None => Ok x end;
                do t' <- go t; Ok ((n, y) :: t')
              end.
Definition new_items (l m : list (gkey * content)) : list (gkey * content) :=
  filter (fun kv => negb (has_key (fst kv) l)) m.
Fixpoint content_add (k1 k2 : nat) (a b : content) {struct a} : res content :=
  match a, b with
  | CNone, CNone => Ok CNone
  | CNone, _ => Ok (copycontent b)
  | _, CNone => Ok (copycontent a)
  | CArr d, CArr e => rmap CArr (arr_add k1 k2 d e)
  | CDict l, CDict m => do l' <- add_items (content_add k1 k2) m l; Ok (CDict (l' ++ new_items l m))
  | _, _ => Err AssertionError
  end.

(** the local function [add] of __iadd__ (hist.py 541-551).  The result is the content as it is
    left, and the error if one was raised. *)
Definition iadd_items (f : content -> content -> content * option err) (m : list (gkey * content)) :
  list (gkey * content) -> list (gkey * content) * option err :=
  fix go l := match l with
              | [] => ([], None)
              | (n, x) :: t =>
                match assoc n m with
                | None => let '(t', e) := go t in ((n, x) :: t', e)
                | Some x' => match f x x' with
                             | (y, Some e) => ((n, y) :: t, Some e)
                             | (y, None) => let '(t', e) := go t in ((n, y) :: t', e)
                             end
                end
              end.
Definition array_iadd (k1 k2 : nat) (d : list Num) (b : content) : content * option err :=
  match b with
  | CArr e => match arr_iadd k1 k2 d e with
              | Ok s => (CArr s, None)
              | Err e => (CArr d, Some e)
              end
  | _ => (CArr d, Some TypeError)
  end.
Fixpoint dict_iadd (k1 k2 : nat) (a b : content) {struct a} : content * option err :=
  match a, b with
  | CDict l, CDict m =>
    match iadd_items (fun x x' => match x with
                                  | CArr d => array_iadd k1 k2 d x'
                                  | _ => dict_iadd k1 k2 x x'
                                  end) m l with
    | (l', Some e) => (CDict l', Some e)
    | (l', None) => (CDict (l' ++ map (fun kv => (fst kv, copycontent (snd kv))) (new_items l m)), None)
    end
  | _, _ => (a, Some AssertionError)
  end.
(** __iadd__ after the checks (hist.py 553-565) *)
Definition content_iadd (k1 k2 : nat) (a b : content) : content * option err :=
  match a, b with
  | _, CNone => (a, None)
  | CNone, _ => (copycontent b, None)
  | CArr d, _ => array_iadd k1 k2 d b
  | CDict _, _ => dict_iadd k1 k2 a b
  end.

(** the local function [recurse] of __mul__ (hist.py 571-575); None * value is a TypeError *)
Definition mul_items (f : content -> res content) : list (gkey * content) -> res (list (gkey * content)) :=
  fix go l := match l with
              | [] => Ok []
              | (n, x) :: t => do y <- f x; do t' <- go t; Ok ((n, y) :: t')
              end.
Fixpoint content_mul (v : Num) (c : content) : res content :=
  match c with
  | CNone => Err TypeError
  | CArr d => Ok (CArr (map (fun x => nmul x v) d))
  | CDict l => rmap CDict (mul_items (content_mul v) l)
  end.
(** ... and of __imul__ (hist.py 589-594) *)
Definition imul_items (f : content -> content * option err) :
  list (gkey * content) -> list (gkey * content) * option err :=
  fix go l := match l with
              | [] => ([], None)
              | (n, x) :: t => match f x with
                               | (y, Some e) => ((n, y) :: t, Some e)
                               | (y, None) => let '(t', e) := go t in ((n, y) :: t', e)
                               end
              end.
Fixpoint content_imul (v : Num) (c : content) : content * option err :=
  match c with
  | CNone => (CNone, Some TypeError)
  | CArr d => (CArr (map (fun x => nmul x v) d), None)
  | CDict l => let '(l', e) := imul_items (content_imul v) l in (CDict l', e)
  end.

(** ** Histograms as values *)
(** A weight or filter as given: a string or a number. *)
Inductive wsrc : Type := XStr (s : string) | XNum (x : Num).
Record hobj : Type := {
  o_group : list axis; o_fixed : list axis; o_prof : list axis;
  o_weight : option wsrc; o_filter : option wsrc;
  o_defs : list (string * wsrc); o_attach : list (string * string);
  o_content : content }.
Definition o_axes (h : hobj) : list axis := o_group h ++ o_fixed h ++ o_prof h.
Definition with_content (h : hobj) (c : content) : hobj := {|
  o_group := o_group h; o_fixed := o_fixed h; o_prof := o_prof h; o_weight := o_weight h;
  o_filter := o_filter h; o_defs := o_defs h; o_attach := o_attach h; o_content := c |}.
(** hist.py 168-243: weighted when there is a weight or a filter *)
Definition o_layout (h : hobj) : layout := {|
  l_tots := map totbins (o_fixed h); l_nprof := length (o_prof h);
  l_weighted := match o_weight h, o_filter h with None, None => false | _, _ => true end |}.

(** Python's == of tuples of axes *)
Fixpoint axes_eqb (l m : list axis) : bool :=
  match l, m with
  | [], [] => true
  | x :: xs, y :: ys => axis_eqb x y && axes_eqb xs ys
  | _, _ => false
  end.

(** __add__ (hist.py 496-532) and __iadd__ (534-565); [out.__dict__.update(self.__dict__)] keeps
    everything else of [self]. *)
Definition hist_add (h g : hobj) : res hobj :=
  if axes_eqb (o_axes h) (o_axes g)
  then do c <- content_add (l_last (o_layout h)) (l_last (o_layout g)) (o_content h) (o_content g);
       Ok (with_content h c)
  else Err TypeError.
Definition hist_iadd (h g : hobj) : hobj * option err :=
  if axes_eqb (o_axes h) (o_axes g)
  then let '(c, e) := content_iadd (l_last (o_layout h)) (l_last (o_layout g)) (o_content h) (o_content g) in
       (with_content h c, e)
  else (h, Some TypeError).
(** __mul__, __rmul__ (hist.py 567-583), __imul__ (585-597) *)
Definition hist_mul (h : hobj) (v : Num) : res hobj := rmap (with_content h) (content_mul v (o_content h)).
Definition hist_rmul (v : Num) (h : hobj) : res hobj := hist_mul h v.
Definition hist_imul (h : hobj) (v : Num) : hobj * option err :=
  let '(c, e) := content_imul v (o_content h) in (with_content h c, e).
(** copy, clear, cleared (hist.py 79-83, 92-98) *)
Definition hist_copy (h : hobj) : hobj := with_content h (copycontent (o_content h)).
Definition hist_clear (h : hobj) : hobj := with_content h CNone.
Definition hist_cleared (h : hobj) : hobj := with_content h CNone.

(** __eq__ (hist.py 733-744) on contents: equal key sets, numpy.array_equal on arrays (shapes are
    the histogram's: compared through the axes and the number of elements). *)
Definition eq_items (f : content -> content -> bool) (m : list (gkey * content)) : list (gkey * content) -> bool :=
  fix go l := match l with
              | [] => true
              | (n, x) :: t => match assoc n m with Some y => f x y | None => false end && go t
              end.
Fixpoint content_eqb (a b : content) {struct a} : bool :=
  match a, b with
  | CNone, CNone => true
  | CArr d, CArr e => nums_eqb d e
  | CDict l, CDict m =>
    forallb (fun kv => has_key (fst kv) m) l && forallb (fun kv => has_key (fst kv) l) m &&
    eq_items content_eqb m l
  | _, _ => false
  end.
(** compatible (hist.py 749-751): [zip] pairs the axes, [all] of their compatible(); None: the
    AttributeError of an axis class without [compatible]. *)
Fixpoint compatible_zip (l m : list axis) : option bool :=
  match l, m with
  | x :: xs, y :: ys => match compatible x y with
                        | None => None
                        | Some false => Some false
                        | Some true => compatible_zip xs ys
                        end
  | _, _ => Some true
  end.
Definition hist_compatible (h g : hobj) : option bool :=
  if Nat.eqb (length (o_group h)) (length (o_group g)) && Nat.eqb (length (o_fixed h)) (length (o_fixed g))
  then compatible_zip (o_group h ++ o_fixed h) (o_group g ++ o_fixed g)
  else Some false.

(** Hist.group (hist.py 599-649), for histograms given by name; [**hists] keeps their order and has
    no name twice.  The constructor of the result is not checked here.
    Simplification: [defs.update] of several definitions keeps the later one. *)
Definition wsrc_eqb (a b : wsrc) : bool :=
  match a, b with XStr s, XStr t => String.eqb s t | XNum x, XNum y => neqb x y | _, _ => false end.
Fixpoint group_weight (w : option wsrc) (hs : list hobj) : res (option wsrc) :=
  match hs with
  | [] => Ok w
  | x :: t => match w, o_weight x with
              | None, _ => group_weight (o_weight x) t
              | Some _, None => Err TypeError
              | Some v, Some u => group_weight (if wsrc_eqb v u then w else Some (XNum none1)) t
              end
  end.
Fixpoint sassoc_set {A} (k : string) (v : A) (l : list (string * A)) : list (string * A) :=
  match l with
  | [] => [(k, v)]
  | (k', v') :: t => if String.eqb k k' then (k', v) :: t else (k', v') :: sassoc_set k v t
  end.
Definition defs_update (a b : list (string * wsrc)) : list (string * wsrc) :=
  fold_left (fun d kv => sassoc_set (fst kv) (snd kv) d) b a.
Definition group_hists (by_ : string) (hists : list (string * hobj)) : res hobj :=
  match hists with
  | [] => Err ValueError
  | (_, h0) :: rest =>
    if negb (forallb (fun nx => axes_eqb (o_axes h0) (o_axes (snd nx))) rest) then Err TypeError
    else if existsb (axis_eqb (AGroupby by_)) (o_axes h0) then Err ValueError
    else do w <- group_weight None (map snd hists);
      let hist := snd (last hists ("", h0)%string) in
      Ok {| o_group := AGroupby by_ :: o_group hist; o_fixed := o_fixed hist; o_prof := o_prof hist;
            o_weight := w; o_filter := None;
            o_defs := fold_left (fun d nx => defs_update d (o_defs (snd nx))) hists [];
            o_attach := [];
            o_content := CDict (map (fun nx => (GStr (fst nx), copycontent (o_content (snd nx)))) hists) |}
  end.

(** Python's == of two dicts with string keys. *)
Fixpoint sassoc {A} (k : string) (l : list (string * A)) : option A :=
  match l with [] => None | (k', v) :: t => if String.eqb k k' then Some v else sassoc k t end.
Definition dict_eqb {A} (eqb : A -> A -> bool) (l m : list (string * A)) : bool :=
  Nat.eqb (length l) (length m) &&
  forallb (fun kv => match sassoc (fst kv) m with Some v => eqb (snd kv) v | None => false end) l.

Section Eq.
  (** [self._weightparsed == other._weightparsed and self._filterparsed == other._filterparsed]:
      a comparison of the expressions parsed from the given texts and definitions. *)
  Variable parsed_eqb : list (string * wsrc) * option wsrc * option wsrc ->
                        list (string * wsrc) * option wsrc * option wsrc -> bool.
  (** __eq__ (hist.py 744) *)
  Definition hist_eqb (h g : hobj) : bool :=
    axes_eqb (o_group h) (o_group g) && axes_eqb (o_fixed h) (o_fixed g) && axes_eqb (o_prof h) (o_prof g) &&
    parsed_eqb (o_defs h, o_weight h, o_filter h) (o_defs g, o_weight g, o_filter g) &&
    dict_eqb wsrc_eqb (o_defs h) (o_defs g) && content_eqb (o_content h) (o_content g) &&
    dict_eqb String.eqb (o_attach h) (o_attach g).
End Eq.
