(** Specification of a Spark fill: on which rows it must do what a Numpy fill does. *)
From Coq Require Import String.
From Verif Require Import Base Num Axis Calc Content Fill FillSpec Tree Elem HistFill HistSpec.
Local Open Scope list_scope.

(** ** Axes and values *)
(** The axis was made by its constructor, from finite numbers. *)
Definition made (a : axis) : Prop :=
  match a with
  | ABin e n low high u o nf cl => exists l h, low = Fin l /\ high = Fin h /\ 0 < n /\ mk_bin e n low high u o nf cl = Ok a
  | AIntbin e mn mx u o => mk_intbin e mn mx u o = Ok a
  | ASplit e _ u o nf cl => exists raw, (forall x, In x raw -> x <> NaN) /\ mk_split e raw u o nf cl = Ok a
  | AGroupbin e w origin nf cl => exists w' o', w = Fin w' /\ origin = Fin o' /\ mk_groupbin e w origin nf cl = Ok a
  | _ => True
  end.

(** The value is below, above all bins of the axis. *)
Definition below (a : axis) (x : Num) : bool :=
  match a with
  | ABin _ _ low _ _ _ _ cl => if cl then nltb x low else nleb x low
  | AIntbin _ mn _ _ _ => nltb x (nz mn)
  | ASplit _ edges _ _ _ cl => if cl then nltb x (hd NaN edges) else nleb x (hd NaN edges)
  | _ => false
  end.
Definition above (a : axis) (x : Num) : bool :=
  match a with
  | ABin _ _ _ high _ _ _ cl => if cl then nleb high x else nltb high x
  | AIntbin _ _ mx _ _ => nltb (nz mx) x
  | ASplit _ edges _ _ _ cl => if cl then nleb (last edges NaN) x else nltb (last edges NaN) x
  | _ => false
  end.
Definition has_under (a : axis) : bool := match a with ABin _ _ _ _ u _ _ _ | ASplit _ _ u _ _ _ | AIntbin _ _ _ u _ => u | _ => false end.
Definition has_over (a : axis) : bool := match a with ABin _ _ _ _ _ o _ _ | ASplit _ _ _ o _ _ | AIntbin _ _ _ _ o => o | _ => false end.
Definition has_nan (a : axis) : bool := match a with ABin _ _ _ _ _ _ nf _ | ASplit _ _ _ _ nf _ => nf | _ => false end.

(** No value below the bins unless there is an underflow bin; and no value above the bins, and no NaN, if
    there is a NaN bin but no overflow bin. *)
Definition flows_fit (a : axis) (x : Num) : Prop :=
  (below a x = true -> has_under a = true) /\
  (above a x = true \/ x = NaN -> has_nan a = true -> has_over a = true).

(** Not more than 2^30 bins away from the first one. *)
Definition near (n : nat) (low high x : Num) : Prop :=
  match x, low, high with
  | Fin q, Fin l, Fin h => (- inject_Z (2 ^ 30) * (this h - this l) <= (this q - this l) * inject_Z (Z.of_nat n) <= inject_Z (2 ^ 30) * (this h - this l))%Q
  | NInf, _, _ | NaN, _, _ => True
  | _, _, _ => False
  end.
(** Not more than 2^62 groups away from the origin. *)
Definition near_origin (w origin x : Num) : Prop :=
  match x, w, origin with
  | Fin q, Fin w, Fin o => (- inject_Z (2 ^ 62) * this w <= this q - this o <= inject_Z (2 ^ 62) * this w)%Q
  | _, _, _ => False
  end.

(** The values that Spark puts in the same bin or group as Numpy. *)
Definition fits (a : axis) (v : val) : Prop :=
  match a, v with
  | AGroupby _, _ => True
  | AGroupbin _ w origin _ _, VNum x => near_origin w origin x
  | ABin _ n low high _ _ _ _, VNum x => flows_fit a x /\ near n low high x
  | AIntbin _ mn mx _ _, VNum x => flows_fit a x /\ above a x = false /\ exists k, x = nz k /\ (- 2 ^ 30 <= k - mn <= 2 ^ 30)%Z
  | ASplit _ _ _ _ _ _, VNum x => flows_fit a x
  | ACut _, VBool _ => True
  | _, _ => False
  end.

(** ** Expressions that have the same value in Spark and in Numpy on one row: no set literals, no division
    by zero, no comparison of NaN, no number as a truth value, no other function. *)
Section Same.
  Variable user : string -> list arg -> res val.
  Variable field : string -> res val.
  Notation truth t := (exists b, value user field t = Ok (VBool b)).
  Local Open Scope string_scope.
  Inductive same_in_spark : tree -> Prop :=
  | same_const s : scal_val s <> None -> same_in_spark (TConst (KS s))
  | same_bcast s : scal_val s <> None -> same_in_spark (TBcast (KS s))
  | same_name s : same_in_spark (TName s)
  | same_pred s b : same_in_spark (TPred s b)
  | same_arith f a b : In f ["numpy.add"; "numpy.subtract"; "numpy.multiply"] ->
      same_in_spark a -> same_in_spark b -> same_in_spark (TCall f [a; b])
  | same_divide a b : number user field b <> Ok nzero ->
      same_in_spark a -> same_in_spark b -> same_in_spark (TCall "numpy.true_divide" [a; b])
  | same_compare f a b : In f ["numpy.equal"; "numpy.not_equal"; "numpy.less"; "numpy.less_equal"] ->
      number user field a <> Ok NaN -> number user field b <> Ok NaN ->
      same_in_spark a -> same_in_spark b -> same_in_spark (TCall f [a; b])
  | same_logic f a b : In f ["numpy.logical_or"; "numpy.logical_and"] -> truth a -> truth b ->
      same_in_spark a -> same_in_spark b -> same_in_spark (TCall f [a; b])
  | same_not a : truth a -> same_in_spark a -> same_in_spark (TCall "numpy.logical_not" [a])
  | same_where c a b : truth c -> same_in_spark c -> same_in_spark a -> same_in_spark b ->
      same_in_spark (TCall "where" [c; a; b]).
End Same.

(** ** The data frame: [frame] has one entry for each row, giving the value of each field *)
Record spark_ready cast rnd user (h : hist) (weight : bool) (frame : list (string -> res val)) (rows : list row) (c : content) : Prop := {
  (* what the rows amount to (see HistSpec.v) *)
  sp_rows : mapM (row_of cast rnd user h) frame = Ok rows;
  sp_exprs : forall field t, In field frame -> In t (hist_exprs h) -> same_in_spark user field t;
  sp_axes : forall p, In p (h_group h ++ h_fixed h) -> made (fst p);
  sp_values : forall field p v, In field frame -> In p (h_group h ++ h_fixed h) -> value user field (snd p) = Ok v -> fits (fst p) v;
  (* a filter comes with a weight, and the weights are numbers *)
  sp_weight : weight = match h_weight h with Some _ => true | None => false end;
  sp_wnan : forall r, In r rows -> r_w r <> NaN;
  (* the groups of all rows have been filled before *)
  sp_groups : forall r, In r rows -> h_group h = [] \/ exists ks d, r_keys r = map Some ks /\ block c ks = Some d;
  sp_content : hist_ok (hist_layout h) (length (h_group h)) c
}.
