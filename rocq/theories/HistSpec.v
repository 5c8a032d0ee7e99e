(** Specification of a whole fill: what each row of the arguments amounts to. *)
From Coq Require Import String.
From Verif Require Import Num Base Tree InstrSpec Axis Calc Content Fill FillSpec Elem HistFill.

(** The value of field [s] in row [i] of the fill arguments: scalars are the same in every row,
    pi, e, inf and nan need not be given. *)
Definition field_at (A : arrays) (i : nat) (s : string) : res val :=
  match A s with
  | Some (ISc v) => Ok v
  | Some (IAr l) => match nth_error l i with Some v => Ok v | None => Err ValueError end
  | None => match lib_find s maybeconstants with Some v => Ok v | None => Err ValueError end
  end.

(** The field is given or is a named constant, and if it is an array it has [len] rows. *)
Definition available (A : arrays) (s : string) : Prop :=
  A s <> None \/ lib_find s maybeconstants <> None.
Definition is_array (A : arrays) (s : string) : Prop := exists l, A s = Some (IAr l).
Definition right_length (A : arrays) (len : nat) (s : string) : Prop :=
  forall l, A s = Some (IAr l) -> List.length l = len.

(** The expressions of a histogram: axes, profiles and weight. *)
Definition hist_exprs (h : hist) : list tree :=
  map snd (h_group h) ++ map snd (h_fixed h) ++ h_prof h
  ++ match h_weight h with Some (WxTree t) => [t] | _ => [] end.
Definition hist_mentions (h : hist) (s : string) : Prop :=
  exists t, In t (hist_exprs h) /\ mentions s t.

(** [len] is the number of rows: the length of the array fields, 1 if all fields are scalars. *)
Definition args_ok (h : hist) (A : arrays) (len : nat) : Prop :=
  (forall s, hist_mentions h s -> available A s /\ right_length A len s) /\
  ((exists s, hist_mentions h s /\ is_array A s) \/ len = 1).

(** The expressions call no binning function and broadcast only scalars. *)
Inductive plain : tree -> Prop :=
| plain_const c : plain (TConst c)
| plain_name s : plain (TName s)
| plain_pred s b : plain (TPred s b)
| plain_bcast s : scal_val s <> None -> plain (TBcast (KS s))
| plain_call f args : lib_find f axis_library = None -> (forall a, In a args -> plain a) ->
    plain (TCall f args).

Definition hist_wf (h : hist) : Prop :=
  (forall p, In p (h_group h) -> is_group (fst p) = true) /\
  (forall p, In p (h_fixed h) -> is_fixed (fst p) = true /\ fst p <> ANull) /\
  (forall t, In t (hist_exprs h) -> plain t /\ data_driven t).

(** No broadcast constant among the axes (then [fields] does not raise). *)
Definition no_bcast (h : hist) : Prop :=
  forall t c, In t (hist_exprs h) -> ~ subtree (TBcast c) t.

Section Rows.
  Variable cast : Num -> Z.
  Variable rnd : Qc -> Num.
  Variable user : string -> list arg -> res val.
  Variable h : hist.
  Variable field : string -> res val.

  (** Evaluate one expression on the row. *)
  Definition value (t : tree) : res val := do a <- reval user field t; arg_val a.
  Definition number (t : tree) : res Num := do v <- value t; val_num v.

  Definition row_of : res row :=
    do ks <- mapM (fun p => do v <- value (snd p); key_of rnd (fst p) v) (h_group h);
    do ss <- mapM (fun p => do v <- value (snd p); slot_of cast rnd (fst p) v) (h_fixed h);
    do ps <- mapM (fun t => do x <- number t; Ok (x, nmul x x)) (h_prof h);
    do w <- match h_weight h with
            | None => Ok none1
            | Some (WxConst v) => Ok v
            | Some (WxTree t) => number t
            end;
    Ok {| r_keys := ks; r_slots := ss; r_prof := ps; r_w := w; r_w2 := nmul w w |}.
End Rows.

Definition rows_of cast rnd user h A len : res (list row) :=
  mapM (fun i => row_of cast rnd user h (field_at A i)) (seq 0 len).

Definition hist_mode (h : hist) : wmode :=
  match h_weight h with
  | None => Unweighted
  | Some (WxConst v) => ConstWeight v
  | Some (WxTree _) => ExprWeight
  end.
