(** What rebinning must do. *)
From Coq Require Import String.
From Verif Require Import Base Num Axis AxisSpec Calc Content Fill FillSpec Expr HistAlg AlgSpec Nd Select SelSpec Rebin.
Local Open Scope list_scope.

(** [parts] lists for each new bin the old bins it is made of: it is their union (as far as the values
    that can occur are concerned). *)
Definition unions_of (possible : Num -> Prop) (ks ks' : list key) (parts : nat -> list nat) : Prop :=
  forall i k', nth_error ks' i = Some k' ->
    NoDup (parts i) /\ (forall j, In j (parts i) -> j < length ks) /\
    forall x, possible x -> (contains k' x <-> exists j k, In j (parts i) /\ nth_error ks j = Some k /\ contains k x).
(** The values that an axis can be filled with: integers only for intbin. *)
Definition possible (a : axis) (x : Num) : Prop :=
  match a with AIntbin _ _ _ _ _ => exists z, x = nz z | _ => True end.
(** The edges at which an axis can be rebinned; those of intbin are between the integers. *)
Definition rebin_edge (a : axis) (e : Num) : Prop :=
  match a with
  | ABin _ n l h _ _ _ _ => exists j, j <= n /\ e = i2x n l h j
  | AIntbin _ mn mx _ _ => exists z, (mn <= z <= mx + 1)%Z /\ e = nsub (nz z) half
  | ASplit _ es _ _ _ _ => In e es
  | _ => False
  end.
(** [a'] has the same quantity and the same flow bins as [a], and the edges [edges]. *)
Definition has_edges (a a' : axis) (edges : list Num) : Prop :=
  exists es' u o nf cl, a' = ASplit (axis_expr a) es' u o nf cl /\ (forall e, In e es' <-> In e edges) /\ length es' = length edges /\
    (match a with
     | ABin _ _ _ _ u0 o0 nf0 cl0 | ASplit _ _ u0 o0 nf0 cl0 => u = u0 /\ o = o0 /\ nf = nf0 /\ cl = cl0
     | AIntbin _ _ _ u0 o0 => u = u0 /\ o = o0 /\ nf = false
     | _ => False
     end).
(** The axis argument names fixed axis [q], which is [a]: it is that axis, or its expression, and no
    earlier axis answers to it. *)
Definition names_axis (parse : string -> expr) (h : hobj) (arg : axis_arg) (q : nat) (a : axis) : Prop :=
  nth_error (o_fixed h) q = Some a /\
  match arg with
  | ByAxis b => b = a /\ forall i, i < q -> nth_error (o_fixed h) i <> Some a
  | ByExpr e => parse (axis_expr a) = e /\ forall i b, i < q -> nth_error (o_fixed h) i = Some b -> has_rebin b = true -> parse (axis_expr b) <> e
  end.
(** Each cell of [g] is the sum of the cells of [h] in the same place on the other axes and in one of the
    [parts] on axis [q]. *)
Definition cells_merged (q : nat) (parts : nat -> list nat) (h g : hobj) : Prop :=
  (forall ks, has_block g ks <-> has_block h ks) /\
  forall ks ss kd i, in_shape (o_layout g) ss -> nth_error ss q = Some i -> has_column (o_layout h) kd ->
    hcell g ks ss kd = nsum (map (fun j => hcell h ks (at_axis q (fun _ => j) ss) kd) (parts i)).
Definition has_underflow (a : axis) : bool :=
  match a with ABin _ _ _ _ u _ _ _ | AIntbin _ _ _ u _ | ASplit _ _ u _ _ _ => u | _ => false end.
Definition has_overflow (a : axis) : bool :=
  match a with ABin _ _ _ _ _ o _ _ | AIntbin _ _ _ _ o | ASplit _ _ _ o _ _ => o | _ => false end.
