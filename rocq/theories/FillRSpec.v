(** Specification of a fill with the arithmetic of the machine. *)
From Coq Require Import String Qabs.
From Verif Require Import Base Num NumFacts Axis Calc Content Fill FillSpec FillR.

(** One fill (hist.py 375-377). *)
Definition fill_rowsR (add mul : Num -> Num -> Num) (L : layout) (ng : nat) (m : wmode) (rows : list row) (c : content)
  : content * option err :=
  postfillR add mul L (length rows) (dest_of L ng m rows) (prefill L ng c).
(** Several fills, one after the other. *)
Fixpoint fill_allR (add mul : Num -> Num -> Num) (L : layout) (ng : nat) (m : wmode) (chunks : list (list row)) (c : content)
  : content * option err :=
  match chunks with
  | [] => (c, None)
  | rows :: rest =>
    match fill_rowsR add mul L ng m rows c with
    | (c', None) => fill_allR add mul L ng m rest c'
    | (c', Some e) => (c', Some e)
    end
  end.

(** The weight of a row as the machine computes it: a constant is multiplied by one. *)
Definition row_weightR (mul : Num -> Num -> Num) (m : wmode) (r : row) : Num :=
  match m with
  | Unweighted => none1
  | ConstWeight v => mul none1 v
  | ExprWeight => if isnan (r_w r) then nzero else r_w r
  end.
Definition row_weight2R (mul : Num -> Num -> Num) (m : wmode) (r : row) : Num :=
  match m with
  | Unweighted => none1
  | ConstWeight v => mul none1 (mul v v)
  | ExprWeight => if isnan (r_w r) then nzero else r_w2 r
  end.
Definition row_addsR (mul : Num -> Num -> Num) (m : wmode) (k : column_kind) (r : row) : Num :=
  match k with
  | SumWX p => mul (fst (nth p (r_prof r) (nzero, nzero))) (row_weightR mul m r)
  | SumWX2 p => mul (snd (nth p (r_prof r) (nzero, nzero))) (row_weightR mul m r)
  | SumW => row_weightR mul m r
  | SumW2 => row_weight2R mul m r
  end.

(** [x] after adding the elements of [l] to it, one after the other. *)
Definition running (add : Num -> Num -> Num) (x : Num) (l : list Num) : Num := fold_left add l x.

(** A histogram without axes, profiles and weights, which counts a whole fill in one addition. *)
Definition counts_at_once (L : layout) (ng : nat) (m : wmode) : Prop :=
  l_tots L = [] /\ ng = 0 /\ l_nprof L = 0 /\ m = Unweighted.

(** ** Numbers with 53 significant bits *)
Definition float53 (q : Qc) : Prop := exists m e, (Z.abs m <= 2 ^ 53)%Z /\ q = (qz m * p2 e)%Qc.
(** [r] is such a number, and none is closer to [q]. *)
Definition closest (q r : Qc) : Prop :=
  float53 r /\ forall r', float53 r' -> (Qabs (this r - this q) <= Qabs (this r' - this q))%Q.

(** (1 + 2^-53)^n *)
Fixpoint growth (n : nat) : Q := match n with 0 => 1 | S n => (1 + (1 # 2 ^ 53)) * growth n end.
(** Sums of rational numbers, of their absolute values and of integers. *)
Definition qsum (l : list Qc) : Q := fold_right (fun q s => (this q + s)%Q) 0%Q l.
Definition qabssum (l : list Qc) : Q := fold_right (fun q s => (Qabs (this q) + s)%Q) 0%Q l.
Definition zsum (l : list Z) : Z := fold_right Z.add 0%Z l.
Definition zabssum (l : list Z) : Z := fold_right (fun z s => (Z.abs z + s)%Z) 0%Z l.

(** A constant weight is a number of the machine. *)
Definition mode_float (m : wmode) : Prop :=
  match m with ConstWeight v => rnum v = v | _ => True end.
