(** What histogram arithmetic with the machine's numbers is compared with. *)
From Coq Require Import String Permutation Qabs.
From Verif Require Import Base Num NumFacts Axis Calc Content Fill FillSpec FillR FillRSpec HistAlg AlgSpec Nd Proj AlgR.
Local Open Scope list_scope.

(** The number is one of the machine's: rounding does not change it. *)
Definition machine (x : Num) : Prop := rnum x = x.
(** Everything in the histogram is such a number. *)
Definition machine_hist (h : hobj) : Prop := forall ks d, block (o_content h) ks = Some d -> Forall machine d.

(** Any number of histograms added in any bracketing: [(h1 + h2) + (h3 + (h4 + h5))]. *)
Inductive merge : Type := One (h : hobj) | Both (a b : merge).
Fixpoint parts (t : merge) : list hobj :=
  match t with One h => [h] | Both a b => parts a ++ parts b end.
Fixpoint merged (t : merge) : res hobj :=
  match t with
  | One h => Ok h
  | Both a b => do x <- merged a; do y <- merged b; hist_addR fadd x y
  end.
(** Histograms that can be added. *)
Definition alike (h : hobj) (g : hobj) : Prop := hobj_ok g /\ machine_hist g /\ addable h g.

(** Contents of the same structure whose numbers are related. *)
Inductive related (R : Num -> Num -> Prop) : pv -> pv -> Prop :=
| rel_none : related R PNone PNone
| rel_arr sh d e : Forall2 R d e -> related R (PArr sh d) (PArr sh e)
| rel_dict l m : Forall2 (fun a b => fst a = fst b /\ related R (snd a) (snd b)) l m -> related R (PDict l) (PDict m).
(** [a] is the exact number, [b] differs from it by at most [B]. *)
Definition within (B : Q) (a b : Num) : Prop := exists x y, a = Fin x /\ b = Fin y /\ (Qabs (this y - this x) <= B)%Q.
