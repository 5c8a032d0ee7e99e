(** What a selection must keep. *)
From Coq Require Import String.
From Verif Require Import Base Num Axis AxisSpec Calc Content Fill FillSpec Tree Order Expr HistAlg AlgSpec Nd Select.
Local Open Scope list_scope.

(** [x c e] for numbers. *)
Definition satisfies (c : scmp) (e x : Num) : bool :=
  match c with
  | SEq => neqb x e | SNe => negb (neqb x e)
  | SLt => nltb x e | SLe => nleb x e | SGt => nltb e x | SGe => nleb e x
  | _ => false
  end.

(** The elements of a list that a slice takes. *)
Definition in_slice (s : slc) (n i : nat) : Prop := slice_lo s n <= i < slice_hi s n.
Definition slice_list {A} (s : slc) (l : list A) : list A :=
  firstn (slice_len s (length l)) (skipn (slice_lo s (length l)) l).

(** The slice takes exactly the bins all of whose values are wanted, no bin has both wanted and
    unwanted values, and the new keys are the keys of the bins taken. *)
Definition keeps_inside (wanted : Num -> Prop) (ks : list key) (s : slc) (ks' : list key) : Prop :=
  ks' = slice_list s ks /\
  forall i k x, nth_error ks i = Some k -> contains k x -> (in_slice s (length ks) i <-> wanted x).

(** Numeric axes with fixed bins that a constructor accepts; the limits are finite, edges of a split
    are not NaN. *)
Definition numeric_axis (a : axis) : Prop :=
  match a with
  | ABin e n l h u o nf cl => 0 < n /\ mk_bin e n l h u o nf cl = Ok a /\ isfin l = true /\ isfin h = true
  | AIntbin e mn mx u o => mk_intbin e mn mx u o = Ok a
  | ASplit e _ u o nf cl => exists raw, (forall x, In x raw -> x <> NaN) /\ mk_split e raw u o nf cl = Ok a
  | _ => False
  end.
(** The edges of an axis at which it can be cut. *)
Definition is_edge (a : axis) (e : Num) : Prop :=
  match a with
  | ABin _ n l h _ _ _ _ => exists j, j <= n /\ e = i2x n l h j
  | AIntbin _ mn mx _ _ => exists z, (mn <= z <= mx)%Z /\ e = nz z
  | ASplit _ es _ _ _ _ => In e es
  | _ => False
  end.
(** The comparisons that line up with the bins of an axis. *)
Definition aligned (a : axis) (c : scmp) : Prop :=
  match a, c with
  | ABin _ _ _ _ _ _ _ cl, (SLt | SGe) | ASplit _ _ _ _ _ cl, (SLt | SGe) => cl = true
  | ABin _ _ _ _ _ _ _ cl, (SLe | SGt) | ASplit _ _ _ _ _ cl, (SLe | SGt) => cl = false
  | AIntbin _ _ _ _ _, (SLt | SLe | SGt | SGe) => True
  | _, _ => False
  end.
(** The tolerance is at most half a bin of an intbin axis. *)
Definition small_for (a : axis) (tol : Num) : Prop :=
  match a with AIntbin _ _ _ _ _ => nleb tol (Fin (qfrac 1 2)) = true | _ => True end.
(** The threshold [x] stands for [e]: an edge nearer than the tolerance, or [x] itself if infinite. *)
Definition stands_for (a : axis) (tol x e : Num) : Prop :=
  (is_edge a e /\ nltb (absdiff x e) tol = true) \/ (x = e /\ (e = PInf \/ e = NInf)).
(** Some bin is inside the selection; for an intbin one that is not a flow bin. *)
Definition leaves_bins (a : axis) (c : scmp) (e : Num) : Prop :=
  match a with
  | AIntbin _ mn mx _ _ => exists z, (mn <= z <= mx)%Z /\ satisfies c e (nz z) = true
  | _ => exists k x, In k (keys a) /\ contains k x /\ satisfies c e x = true
  end.

(** ** Slots *)
(** Change, remove or insert one element of a list. *)
Fixpoint at_axis {A} (q : nat) (f : A -> A) (l : list A) : list A :=
  match l, q with
  | [], _ => []
  | x :: t, 0 => f x :: t
  | x :: t, S q' => x :: at_axis q' f t
  end.
Fixpoint remove_at {A} (q : nat) (l : list A) : list A :=
  match l, q with
  | [], _ => []
  | _ :: t, 0 => t
  | x :: t, S q' => x :: remove_at q' t
  end.
Fixpoint insert_at {A} (q : nat) (y : A) (l : list A) : list A :=
  match q, l with
  | 0, _ => y :: l
  | S q', x :: t => x :: insert_at q' y t
  | S _, [] => []
  end.

(** A row of the data as two histograms see it that differ in fixed axis [q] only, of which the keys are
    [ks] and [ks'] and the value in that row is [x]. *)
Definition same_row_but (q : nat) (ks ks' : list key) (x : Num) (r r' : row) : Prop :=
  r_keys r' = r_keys r /\ r_prof r' = r_prof r /\ r_w r' = r_w r /\ r_w2 r' = r_w2 r /\
  (exists slot slot', nth_error (r_slots r) q = Some slot /\ r_slots r' = at_axis q (fun _ => slot') (r_slots r) /\
    slot_matches_key ks slot x /\ slot_matches_key ks' slot' x).

(** ** Expressions *)
(** [e] compares [x] with a constant: [x < k], [k < x], ...; > and >= are parsed as < and <=. *)
Inductive compares (constant : expr -> option cst) : expr -> expr -> scmp -> cst -> Prop :=
| cmp_eq x k v : constant x = None -> constant k = Some v -> compares constant (ERel CEq x k) x SEq v
| cmp_ne x k v : constant x = None -> constant k = Some v -> compares constant (ERel CNe x k) x SNe v
| cmp_lt x k v : constant x = None -> constant k = Some v -> compares constant (ERel CLt x k) x SLt v
| cmp_le x k v : constant x = None -> constant k = Some v -> compares constant (ERel CLe x k) x SLe v
| cmp_gt x k v : constant x = None -> constant k = Some v -> compares constant (ERel CLt k x) x SGt v
| cmp_ge x k v : constant x = None -> constant k = Some v -> compares constant (ERel CLe k x) x SGe v
| cmp_eq' x k v : constant x = None -> constant k = Some v -> compares constant (ERel CEq k x) x SEq v
| cmp_ne' x k v : constant x = None -> constant k = Some v -> compares constant (ERel CNe k x) x SNe v
| cmp_in x k v : constant x = None -> constant k = Some v -> compares constant (ERel CIn x k) x SIn v
| cmp_notin x k v : constant x = None -> constant k = Some v -> compares constant (ERel CNotIn x k) x SNotIn v.
(** The quantity [x] of the comparison [e] belongs to the axis at position [p] among the group and
    fixed axes and to no other. *)
Definition only_axis (parse : string -> expr) (h : hobj) (e x : expr) (p : nat) (a : axis) : Prop :=
  nth_error (o_group h ++ o_fixed h) p = Some a /\ parse (axis_expr a) = x /\
  (forall i b, nth_error (o_group h ++ o_fixed h) i = Some b -> i <> p -> parse (axis_expr b) <> x) /\
  (forall b, In b (o_fixed h) -> parse (axis_expr b) <> e) /\ (forall l, x <> EOr l).
(** Everything but fixed axis [q] is the same, and that axis is now [a'] (or is gone). *)
Definition axis_changed (q : nat) (a' : axis) (h g : hobj) : Prop :=
  o_group g = o_group h /\ o_fixed g = at_axis q (fun _ => a') (o_fixed h) /\ o_prof g = o_prof h /\ o_weight g = o_weight h /\
  o_filter g = o_filter h /\ o_defs g = o_defs h /\ o_attach g = o_attach h.
Definition axis_removed (q : nat) (h g : hobj) : Prop :=
  o_group g = o_group h /\ o_fixed g = remove_at q (o_fixed h) /\ o_prof g = o_prof h /\ o_weight g = o_weight h /\
  o_filter g = o_filter h /\ o_defs g = o_defs h /\ o_attach g = o_attach h.
(** Everything but the content is the same, and the content is that of the groups whose key on group
    axis [p] is wanted. *)
Definition groups_selected (p : nat) (wanted : gkey -> Prop) (h g : hobj) : Prop :=
  o_group g = o_group h /\ o_fixed g = o_fixed h /\ o_prof g = o_prof h /\ o_weight g = o_weight h /\
  o_filter g = o_filter h /\ o_defs g = o_defs h /\ o_attach g = o_attach h /\
  forall ks k, length ks = length (o_group h) -> nth_error ks p = Some k ->
    (wanted k -> block (o_content g) ks = block (o_content h) ks) /\ (~ wanted k -> block (o_content g) ks = None).
(** A group key satisfies a comparison with a constant. *)
Definition same_value (k : gkey) (s : scal) : Prop :=
  match k, s with
  | GNum x, SNum y => neqb x y = true
  | GNum x, SBool b => neqb x (if b then nz 1 else nz 0) = true
  | GStr a, SStr b => a = b
  | _, _ => False
  end.
Definition key_satisfies (c : scmp) (v : cst) (k : gkey) : Prop :=
  match c with
  | SEq => exists s, v = KS s /\ same_value k s
  | SNe => ~ exists s, v = KS s /\ same_value k s
  | SIn => (exists l s, v = KSet l /\ In s l /\ same_value k s) \/ (exists a s n, k = GStr a /\ v = KS (SStr s) /\ String.index 0 a s = Some n)
  | SNotIn => (exists l, v = KSet l /\ ~ exists s, In s l /\ same_value k s) \/ (exists a s, k = GStr a /\ v = KS (SStr s) /\ String.index 0 a s = None)
  | _ => (exists x y, k = GNum x /\ as_real v = Some y /\ satisfies c y x = true) \/
         (exists a b, k = GStr a /\ v = KS (SStr b) /\
            match c with SLt => String.ltb a b | SLe => String.leb a b | SGt => String.ltb b a | SGe => String.leb b a | _ => false end = true)
  end.
