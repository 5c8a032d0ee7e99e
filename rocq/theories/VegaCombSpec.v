(** What a combination of plots must show. *)
From Coq Require Import String.
From Verif Require Import Base Num Axis Calc Content Fill FillSpec Tree Order Expr HistAlg Nd Proj Select Table Pandas Vega VegaEnc VegaComb.
Local Open Scope string_scope.
Local Open Scope list_scope.

(** The value of a field of a datum, if it has the field *)
Fixpoint value_of (f : string) (o : object) : option fval :=
  match o with
  | [] => None
  | (g, x) :: t => if String.eqb f g then Some x else value_of f t
  end.
(** A datum that the filters of a mark let through *)
Definition passes (u : unit_view) (o : object) : bool :=
  forallb (fun s => match value_of "id" o with Some (FId t) => String.eqb s t | _ => false end) (u_ids u).
(** What the channels of a mark say for each datum that its filters let through *)
Definition reads (u : unit_view) (data : list object) : list (list (role * option fval)) :=
  map (fun o => map (fun rf => (fst rf, value_of (snd rf) o)) (u_fields u)) (filter (passes u) data).
Definition says_something (r : list (role * option fval)) : bool := existsb (fun x => match snd x with Some _ => true | None => false end) r.

(** The marks of a plot, in order *)
Fixpoint marks (v : view_tree) : list unit_view :=
  match v with
  | VUnit u => [u]
  | VLayer l | VHconcat l | VVconcat l => flat_map marks l
  end.
(** The plots of a combination, in order, and whether they are in an overlay *)
Fixpoint plots_in (c : comb) : list (plot * bool) :=
  match c with
  | Single x => [(x, false)]
  | Overlay l => map (fun xb => (fst xb, true)) (flat_map plots_in l)
  | Beside l | Below l | Grid _ l => flat_map plots_in l
  end.
Definition error_bars (x : plot) : bool := match x with Plot1 _ p => c_error (p1_last p) | Plot2 _ _ => false end.

(** Combinations made with overlay(...), beside(...), below(...) and grid(...) *)
Inductive built : comb -> Prop :=
| built_single x : built (Single x)
| built_overlay args c : (forall y, In y (flatten args) -> built y) -> overlay_ args = Ok c -> built c
| built_beside args c : (forall y, In y (flatten args) -> built y) -> beside_ args = Ok c -> built c
| built_below args c : (forall y, In y (flatten args) -> built y) -> below_ args = Ok c -> built c
| built_grid n args c : (forall y, In y (flatten args) -> built y) -> grid_ n args = Ok c -> built c.

(** The mark [u] of a combination with the [data] shows what the mark [u0] of a plot with the data [data0] does. *)
Definition shows (data data0 : list object) (u u0 : unit_view) : Prop :=
  u_domain u = u_domain u0 /\ u_ordering u = u_ordering u0 /\ reads u data = reads u0 data0.
(** The same, other than data for which none of its channels says anything *)
Definition shows_at_least (data data0 : list object) (u u0 : unit_view) : Prop :=
  u_domain u = u_domain u0 /\ u_ordering u = u_ordering u0 /\ filter says_something (reads u data) = reads u0 data0.
