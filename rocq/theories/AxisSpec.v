(** Specification of what a key means, independent of the code. *)
From Verif Require Import Base Num Axis.

(** [v] belongs to the interval from [lo] to [hi]; an end point belongs to it iff that end is closed. *)
Definition in_interval (lo hi : Num) (closedlo closedhi : bool) (v : Num) : Prop :=
  (nltb lo v = true \/ (closedlo = true /\ v = lo /\ v <> NaN)) /\
  (nltb v hi = true \/ (closedhi = true /\ v = hi /\ v <> NaN)).

Definition contains (k : key) (v : Num) : Prop :=
  match k with
  | KIv lo hi cl ch => in_interval lo hi cl ch v
  | KNaN => v = NaN
  | KInt z => v = Fin (qz z)
  | KBool _ => False
  end.

(** "The value goes to the slot whose key contains it; it is dropped iff no key contains it." *)
Definition slot_matches_key (ks : list key) (slot : option Z) (v : Num) : Prop :=
  match slot with
  | Some i => exists j k, i = Z.of_nat j /\ nth_error ks j = Some k /\ contains k v
  | None => forall k, In k ks -> ~ contains k v
  end.

(** Keys are pairwise disjoint. *)
Definition disjoint_keys (ks : list key) : Prop :=
  forall i j ki kj v, nth_error ks i = Some ki -> nth_error ks j = Some kj ->
    contains ki v -> contains kj v -> i = j.

(** Keys cover a set of values. *)
Definition covers (ks : list key) (P : Num -> Prop) : Prop :=
  forall v, P v -> exists k, In k ks /\ contains k v.

(** Keys are listed in increasing order: everything in an earlier key is below everything in a
    later one; the NaN key, if any, comes last. *)
Definition increasing_keys (ks : list key) : Prop :=
  forall i j ki kj v w, i < j -> nth_error ks i = Some ki -> nth_error ks j = Some kj ->
    contains ki v -> contains kj w -> v <> NaN /\ (nltb v w = true \/ w = NaN).
