(** What the rows of a DataFrame must say. *)
From Coq Require Import String Sorted.
From Verif Require Import Base Num Axis AxisSpec Calc Content Fill FillSpec Tree Order Expr InstrSpec Elem HistFill HistSpec KeySpec HistAlg AlgSpec
  Nd Proj ProjSpec Select Table TableSpec Pandas.
Local Open Scope list_scope.

(** The numbers that a label describes; a pd.Interval has one closed end. *)
Definition label_holds (l : label) (v : Num) : Prop :=
  match l with
  | LIv lo hi lowclosed => in_interval lo hi lowclosed (negb lowclosed) v
  | LText z => v = Fin (qz z)
  | LNaN => v = NaN
  | LKey _ | LBool _ | LEmpty => False
  end.
(** The label shows the key of a bin: it is the same boolean, or it describes the same numbers, other
    than the infinities. *)
Definition shows (l : label) (k : key) : Prop :=
  match k with
  | KBool b => l = LBool b
  | _ => forall v, v <> PInf -> v <> NInf -> (label_holds l v <-> contains k v)
  end.
(** The label shows bin [s] of a fixed axis. *)
Definition shows_bin (a : axis) (s : nat) (l : label) : Prop :=
  match a with
  | ANull => l = LEmpty
  | _ => exists k, nth_error (keys a) s = Some k /\ shows l k
  end.
(** The label shows the group [k]: it is the key itself, or it describes the numbers of that group. *)
Definition shows_group (a : axis) (k : gkey) (l : label) : Prop :=
  match a with
  | AGroupby _ => l = LKey k
  | _ => forall x, isfin x = true \/ x = NaN -> (label_holds l x <-> in_group a (VNum x) k)
  end.

(** A row of the histogram: group keys and bin numbers. *)
Notation place := (list gkey * list nat)%type.
Definition describes (groups fixed : list axis) (p : place) (row : list label) : Prop :=
  exists gl fl, row = gl ++ fl /\
    Forall2 (fun ak l => shows_group (fst ak) (snd ak) l) (combine groups (fst p)) gl /\ length gl = length groups /\
    Forall2 (fun ak l => shows_bin (fst ak) (snd ak) l) (combine fixed (snd p)) fl /\ length fl = length fixed.

(** Order of rows: by group keys, then by bins, the last axis fastest. *)
Definition keys_before (ks ks' : list gkey) : Prop :=
  exists p k k' r r', ks = p ++ k :: r /\ ks' = p ++ k' :: r' /\ gkey_ltb k k' = true.
Definition slots_before (ss ss' : list nat) : Prop :=
  exists p s s' r r', ss = p ++ s :: r /\ ss' = p ++ s' :: r' /\ s < s'.
Definition before (p q : place) : Prop :=
  keys_before (fst p) (fst q) \/ (fst p = fst q /\ slots_before (snd p) (snd q)).

(** The part of the content under a path of group keys, and the keys that the dict there has. *)
Fixpoint sub (c : content) (p : list gkey) : option content :=
  match p with
  | [] => Some c
  | k :: p' => match c with
               | CDict l => match assoc k l with Some x => sub x p' | None => None end
               | _ => None
               end
  end.
Definition key_at (c : content) (p : list gkey) (k : gkey) : Prop := exists l, sub c p = Some (CDict l) /\ In k (map fst l).
(** Python can sort the keys of each dict: they are all numbers or all strings. *)
Definition comparable (c : content) : Prop := forall p k k', key_at c p k -> key_at c p k' -> is_str k = is_str k'.
(** Each group key is the group of some value. *)
Definition real_groups (groups : list axis) (c : content) : Prop :=
  forall p k a, key_at c p k -> nth_error groups (length p) = Some a -> exists v, value_fine a v /\ in_group a v k.
Definition axis_shown (a : axis) : Prop := axis_fine a \/ a = ANull.

(** The frame lists each place once, in order, with its labels and its numbers. *)
Definition lists_places (groups fixed : list axis) (has : list gkey -> Prop) (tots : list nat) (numbers : place -> list Num) (F : frame) : Prop :=
  exists places : list place,
    (forall ks ss, In (ks, ss) places <-> has ks /\ Forall2 lt ss tots) /\
    StronglySorted before places /\
    Forall2 (describes groups fixed) places (f_index F) /\
    f_data F = map numbers places /\
    (places <> [] -> f_names F = map (fun a => Some (axis_expr a)) (groups ++ fixed)).
