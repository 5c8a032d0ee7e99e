(** What the laws of histogram arithmetic are about: the parts of a histogram a user can see. *)
From Coq Require Import String.
From Verif Require Import Base Num Axis Calc Content Fill FillSpec HistAlg.
Local Open Scope list_scope.

(** What the constructor and the fills guarantee: the axes are sorted into their three kinds and the
    content fits them (it is empty, or nested dicts, one level per group axis, of arrays of the right
    size). *)
Definition hobj_ok (h : hobj) : Prop :=
  Forall (fun a => is_group a = true) (o_group h) /\ Forall (fun a => is_fixed a = true) (o_fixed h) /\
  Forall (fun a => is_profile a = true) (o_prof h) /\ hist_ok (o_layout h) (length (o_group h)) (o_content h).
(** The histogram has a weight or a filter, hence a column of squared weights. *)
Definition weighted (h : hobj) : bool := l_weighted (o_layout h).
(** Equal axes, and both weighted or both not. *)
Definition addable (h g : hobj) : Prop := axes_eqb (o_axes h) (o_axes g) = true /\ weighted h = weighted g.

(** The number in the cell with group keys [ks] and slots [ss]; zero where there is no block. *)
Definition hcell (h : hobj) (ks : list gkey) (ss : list nat) (kd : column_kind) : Num :=
  cell (o_layout h) (o_content h) ks ss (column_of (o_layout h) kd).
(** There is a block under the keys. *)
Definition has_block (h : hobj) (ks : list gkey) : Prop := block (o_content h) ks <> None.

(** Two histograms hold the same, whatever the order in which their groups were first seen. *)
Definition same_hist (h g : hobj) : Prop :=
  o_axes h = o_axes g /\ same_content (o_content h) (o_content g).

(** What is found under a path of keys: nothing, an empty content, a dict, or an array. *)
Inductive node_kind : Type := NothingThere | EmptyContent | ADict | AnArray (d : list Num).
Fixpoint node (c : content) (ks : list gkey) : node_kind :=
  match ks, c with
  | [], CNone => EmptyContent
  | [], CArr d => AnArray d
  | [], CDict _ => ADict
  | k :: ks', CDict l => match assoc k l with Some c' => node c' ks' | None => NothingThere end
  | _ :: _, _ => NothingThere
  end.
Definition nan_free (c : content) : Prop := forall ks d, block c ks = Some d -> Forall (fun x => isnan x = false) d.

(** Axes whose numbers are not NaN: the only ones for which == can be reflexive. *)
Definition nan_free_axis (a : axis) : Prop :=
  match a with
  | AGroupbin _ w o _ _ => isnan w = false /\ isnan o = false
  | ABin _ _ l h _ _ _ _ => isnan l = false /\ isnan h = false
  | ASplit _ es _ _ _ _ => Forall (fun x => isnan x = false) es
  | _ => True
  end.

(** What compatible() looks at: the axis without its expression. *)
Definition unnamed (a : axis) : axis :=
  match a with
  | AGroupby _ => AGroupby ""%string
  | AGroupbin _ w o nf cl => AGroupbin ""%string w o nf cl
  | ABin _ n l h u o nf cl => ABin ""%string n l h u o nf cl
  | AIntbin _ mn mx u o => AIntbin ""%string mn mx u o
  | ASplit _ es u o nf cl => ASplit ""%string es u o nf cl
  | ACut _ => ACut ""%string
  | ANull => ANull
  | AProfile _ => AProfile ""%string
  end.
Definition comparable (a : axis) : Prop := match a with ANull | AProfile _ => False | _ => True end.

(** every key of every dict is a string *)
Fixpoint string_keys (c : content) : Prop :=
  match c with
  | CDict l => (fix go l := match l with
                            | [] => True
                            | (k, x) :: t => (exists s, k = GStr s) /\ string_keys x /\ go t
                            end) l
  | _ => True
  end.
