(** What the properties of an axis should say about its bins. *)
From Coq Require Import String Qabs.
From Verif Require Import Base Num Axis Calc Content Fill FillR FillRSpec Tree Order Expr AlgSpec Nd AxisAttr.
Local Open Scope list_scope.

(** The axis came out of its constructor. *)
Definition made (a : axis) : Prop :=
  match a with
  | AGroupbin e w o nf cl => mk_groupbin e w o nf cl = Ok a
  | ABin e n l h u o nf cl => mk_bin e n l h u o nf cl = Ok a
  | AIntbin e mn mx u o => mk_intbin e mn mx u o = Ok a
  | ASplit e es u o nf cl => exists given, mk_split e given u o nf cl = Ok a
  | _ => True
  end.
(** Its edges are finite numbers. *)
Definition finite_edges (a : axis) : Prop :=
  match a with
  | ABin _ _ l h _ _ _ _ => (exists q, l = Fin q) /\ (exists q, h = Fin q)
  | ASplit _ es _ _ _ _ => Forall (fun x => exists q, x = Fin q) es
  | _ => True
  end.
(** The keys of bins that are not underflow, overflow or nanflow. *)
Definition finite_key (k : key) : bool :=
  match k with KIv (Fin _) (Fin _) _ _ | KInt _ | KBool _ => true | _ => false end.
(** [l[s]] *)
Definition cut_out {A} (s : slc) (l : list A) : list A :=
  firstn (slice_hi s (length l) - slice_lo s (length l)) (skipn (slice_lo s (length l)) l).

(** The element [i] of a list is [x]; the last one is [x]. *)
Definition first_is {A} (x : A) (l : list A) : Prop := exists t, l = x :: t.
Definition last_is {A} (x : A) (l : list A) : Prop := exists t, l = t ++ [x].

(** The axis with another expression. *)
Definition with_expr (label : string) (a : axis) : axis :=
  match a with
  | AGroupby _ => AGroupby label
  | AGroupbin _ w o nf cl => AGroupbin label w o nf cl
  | ABin _ n l h u o nf cl => ABin label n l h u o nf cl
  | AIntbin _ mn mx u o => AIntbin label mn mx u o
  | ASplit _ es u o nf cl => ASplit label es u o nf cl
  | ACut _ => ACut label
  | ANull => ANull
  | AProfile _ => AProfile label
  end.

(** ** Types of arguments *)
Inductive an_int : yv -> Z -> Prop :=
| int_int z : an_int (YInt z) z
| int_bool b : an_int (YBool b) (if b then 1 else 0).
Inductive a_real : yv -> Num -> Prop :=
| real_int y z : an_int y z -> a_real y (nz z)
| real_float x : a_real (YFloat x) x.
Inductive a_bool : yv -> bool -> Prop := bool_bool b : a_bool (YBool b) b.
Inductive edges_of : yv -> list Num -> Prop :=
| edges_one y x : a_real y x -> edges_of y [x]
| edges_tuple l : l <> [] -> edges_of (YTuple (map Some l)) l
| edges_list l : l <> [] -> edges_of (YList (map Some l)) l.

(** ** Lookups *)
(** The axis has the property [n], and it equals [x]. *)
Definition has_property (bw : nat -> Num -> Num -> res Num) (a : axis) (p : string * yv) : Prop :=
  exists v, attr bw a (fst p) = Ok v /\ y_eqb v (snd p) = true.
(** The axis fits the question. *)
Definition fits (bw : nat -> Num -> Num -> res Num) (k : kind) (e : expr) (kwargs : list (string * yv)) (p : axis * expr) : Prop :=
  is_kind k (fst p) = true /\ snd p = e /\ forall q, In q kwargs -> has_property bw (fst p) q.
(** Reading the properties that are asked for raises nothing but AttributeError. *)
Definition readable (bw : nat -> Num -> Num -> res Num) (kwargs : list (string * yv)) (a : axis) : Prop :=
  forall q, In q kwargs -> (exists v, attr bw a (fst q) = Ok v) \/ attr bw a (fst q) = Err AttributeError.

(** The arguments that the constructor was called with, as keywords. *)
Definition constructor_arguments (a : axis) : list (string * yv) :=
  match a with
  | AGroupbin _ w o nf cl => [("binwidth", YFloat w); ("origin", YFloat o); ("nanflow", YBool nf); ("closedlow", YBool cl)]
  | ABin _ n l h u o nf cl =>
      [("numbins", YInt (Z.of_nat n)); ("low", YFloat l); ("high", YFloat h); ("underflow", YBool u); ("overflow", YBool o); ("nanflow", YBool nf); ("closedlow", YBool cl)]
  | AIntbin _ mn mx u o => [("min", YInt mn); ("max", YInt mx); ("underflow", YBool u); ("overflow", YBool o)]
  | ASplit _ es u o nf cl => [("edges", YTuple (map Some es)); ("underflow", YBool u); ("overflow", YBool o); ("nanflow", YBool nf); ("closedlow", YBool cl)]
  | _ => []
  end%string.

(** ** Neighbours among the numbers with 53 bits *)
Definition just_below (a b : Qc) : Prop :=
  float53 b /\ (this b < this a)%Q /\ forall r, float53 r -> (this r < this a)%Q -> (this r <= this b)%Q.
