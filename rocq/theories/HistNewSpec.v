(** What a histogram as it is written means: the specification for the constructor and the fill
    together.  Expressions are evaluated as they are written ([seval], ExprSpec.v). *)
From Coq Require Import String.
From Verif Require Import Num Base Tree Axis Content Fill FillSpec Elem HistFill HistSpec Expr ExprSpec ExprGood ExprNames HistNew HistFillMain3.

(** A histogram as written: its axes with their expressions, weight and filter. *)
Record written : Type := {
  w_axes : list (axis * src);
  w_weight : option wsrc;
  w_filter : option src }.

Definition axes_of (keep : axis -> bool) (w : written) : list (axis * src) :=
  filter (fun p => keep (fst p)) (w_axes w).

Section Row.
  Variable cast : Num -> Z.
  Variable rnd : Qc -> Num.
  Variable user : string -> list arg -> res val.
  Variable field : string -> res val.

  (** The value of a written expression in the row. *)
  Definition src_value (s : src) : res val := do a <- seval user field s; arg_val a.
  Definition src_number (s : src) : res Num := do v <- src_value s; val_num v.
  Definition src_truth (s : src) : res bool := do v <- src_value s; val_truth v.

  (** The weight of the row: 1 if none is given; 0 if the filter rejects it. *)
  Definition given_weight (w : written) : res Num :=
    match w_weight w with
    | None => Ok none1
    | Some (WNumber v) => Ok v
    | Some (WExpr s) => src_number s
    end.
  Definition written_weight (w : written) : res Num :=
    do x <- given_weight w;
    match w_filter w with
    | None => Ok x
    | Some f => do b <- src_truth f; Ok (if b then x else nzero)
    end.

  Definition written_row (w : written) : res row :=
    do ks <- mapM (fun p => do v <- src_value (snd p); key_of rnd (fst p) v) (axes_of is_group w);
    do ss <- mapM (fun p => do v <- src_value (snd p); slot_of cast rnd (fst p) v) (axes_of is_fixed w);
    do ps <- mapM (fun p => do x <- src_number (snd p); Ok (x, nmul x x)) (axes_of is_profile w);
    do x <- written_weight w;
    Ok {| r_keys := ks; r_slots := ss; r_prof := ps; r_w := x; r_w2 := nmul x x |}.

  (** The expression is in the class of C21 and C22, in this row. *)
  Definition faithful (s : src) : Prop :=
    ExprGood.plain s /\ typed s = true /\ tame user field s /\
    forall n sign, In (n, sign) (names_at None s) ->
      sign = true /\ forall x, field n = Ok x -> exists b, x = VBool b.
End Row.

Definition written_rows cast rnd user w A len : res (list row) :=
  mapM (fun i => written_row cast rnd user (field_at A i) w) (seq 0 len).

(** All expressions of the histogram.  With a filter, the weight is a factor of the product that
    the class of C21 is about, so it must be finite. *)
Definition written_exprs (w : written) : list src :=
  (map snd (w_axes w)
   ++ match w_weight w with Some (WExpr s) => [s] | _ => [] end
   ++ match w_filter w with Some f => [f] | None => [] end)%list.
Definition faithful_weight user field (w : written) : Prop :=
  match w_weight w, w_filter w with
  | Some x, Some _ =>
      (exists q, given_weight user field w = Ok (Fin q)) /\
      separate (mark "where" :: numn (wsrc_src x)) (denn (wsrc_src x))
  | _, _ => True
  end.
Definition faithful_row user field (w : written) : Prop :=
  (forall s, In s (written_exprs w) -> faithful user field s) /\ faithful_weight user field w.

(** How the rows are weighted. *)
Definition written_mode (w : written) : wmode :=
  match w_weight w, w_filter w with
  | None, None => Unweighted
  | Some (WNumber v), None => ConstWeight v
  | _, _ => ExprWeight
  end.
Definition written_layout (w : written) : layout := {|
  l_tots := map (fun p => totbins (fst p)) (axes_of is_fixed w);
  l_nprof := List.length (axes_of is_profile w);
  l_weighted := match w_weight w, w_filter w with None, None => false | _, _ => true end |}.

(** The fields and functions that are written. *)
Definition written_texts (w : written) : list src :=
  (map snd (w_axes w)
   ++ match w_weight w with Some x => [wsrc_src x] | None => [] end
   ++ match w_filter w with Some f => [f] | None => [] end)%list.
Definition written_reads (w : written) : list string := flat_map reads (written_texts w).
Definition written_calls (w : written) : list string := flat_map calls (written_texts w).

(** The histogram and the data fit: no binning function is called by name, the fields that are
    written are given and have [len] rows, every row has its values and is in the class of C21 and
    C22, cuts are boolean, group keys are not NaN, and the content is of this histogram. *)
Definition written_ready cast rnd user (w : written) (A : arrays) (len : nat) (rows : list row) (c : content) : Prop :=
  (forall p, In p (w_axes w) -> fst p <> ANull) /\
  (forall f, In f (written_calls w) -> lib_find f axis_library = None) /\
  (forall s, In s (written_reads w) -> available A s /\ right_length A len s) /\
  (forall i, i < len -> faithful_row user (field_at A i) w) /\
  written_rows cast rnd user w A len = Ok rows /\
  (forall p, In p (axes_of is_fixed w) -> axis_valid (fst p)) /\
  (forall i p e x, i < len -> In p (axes_of is_fixed w) -> fst p = ACut e ->
     src_value user (field_at A i) (snd p) <> Ok (VNum x)) /\
  (forall r k, In r rows -> In (Some k) (r_keys r) -> key_ok k) /\
  layout_ok (written_layout w) /\ hist_ok (written_layout w) (List.length (axes_of is_group w)) c /\
  no_masked_profile (written_layout w) rows.

(** What is asked of the normal forms: every call in them depends on the data and no axis is
    constant, and some field is an array unless there is one row. *)
Definition driven (h : hist) (A : arrays) (len : nat) : Prop :=
  (forall t, In t (hist_exprs h) -> InstrSpec.data_driven t) /\ no_bcast h /\
  ((exists s, hist_mentions h s /\ is_array A s) \/ len = 1).
