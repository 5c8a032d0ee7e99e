(** The fill with the arithmetic of the machine.

    The same code as Fill.v (Hist._postfill and its local functions fillblock and filldict,
    /repo/histbook/hist.py 386-494), for any addition and multiplication of numbers: [add x y] is
    what numpy makes of the elements x and y in [numpy.add.at(content[:, c], indexes, values)] and
    in [content[:, c] += length*weight], and [mul] what it makes of [sumwx * weight].  Everything
    that does not compute with the numbers (the flat index, the selections, the keys) is Fill.v's.
    Fill.v is the instance with exact operations (FillRProofs.postfillR_exact). *)
From Coq Require Import String.
From Verif Require Import Base Num Axis Calc Content Fill.

Section Arith.
Variables add mul : Num -> Num -> Num.

(** numpy.add.at: one addition per index, in the order of the indexes (hist.py 437-450). *)
Definition add_pairsR (k c : nat) (data : list Num) (ps : list (nat * Num)) : list Num :=
  fold_left (fun d p => upd (fun x => add x (snd p)) (fst p * k + c) d) ps data.
Definition add_atR (k c : nat) (data : list Num) (idx : list Z) (vals : list Num) : res (list Num) :=
  match norm_indexes (length data / k) idx with
  | None => Err IndexError
  | Some is => match broadcast (length is) vals with
               | None => Err ValueError
               | Some vs => Ok (add_pairsR k c data (combine is vs))
               end
  end.

(** [content.reshape((-1, k))[:, c] += v] (hist.py 442). *)
Definition add_columnR (k c : nat) (data : list Num) (v : Num) : list Num :=
  fold_left (fun d i => upd (fun x => add x v) (i * k + c) d) (seq 0 (length data / k)) data.

(** [sumx * weight] (hist.py 434-435). *)
Definition mul_weightR (xs : list Num) (ws : option (list Num * list Num)) : res (list Num) :=
  match ws with
  | None => Ok (map (fun x => mul x none1) xs)
  | Some (w, _) =>
    if Nat.eqb (length xs) (length w) then Ok (map2 mul xs w)
    else match xs, w with
         | _, [y] => Ok (map (fun x => mul x y) xs)
         | [x], _ => Ok (map (fun y => mul x y) w)
         | _, _ => Err ValueError
         end
  end.

(** The loop over profiles of fillblock (hist.py 424-437). *)
Fixpoint fill_profilesR (k p : nat) (data : list Num) (idx : option col)
         (ws : option (list Num * list Num)) (profs : list (list Num * list Num))
  : list Num * res (option col * option (list Num * list Num)) :=
  match profs with
  | [] => (data, Ok (idx, ws))
  | (sx, sx2) :: rest =>
    let i := match idx with None => zeros_col sx | Some i => i end in
    match (match ws with
           | None => Ok None
           | Some (w, w2) => do w' <- mask_select i w; do w2' <- mask_select i w2; Ok (Some (w', w2'))
           end) with
    | Err e => (data, Err e)
    | Ok ws' =>
      match (do v <- mul_weightR sx ws'; add_atR k (2 * p) data (compressed i) v) with
      | Err e => (data, Err e)
      | Ok d1 =>
        match (do v <- mul_weightR sx2 ws'; add_atR k (2 * p + 1) d1 (compressed i) v) with
        | Err e => (d1, Err e)
        | Ok d2 => fill_profilesR k (S p) d2 (Some i) ws' rest
        end
      end
    end
  end.

(** fillblock (hist.py 423-450). *)
Definition fillblockR (L : layout) (len : nat) (data : list Num) (idx : option col)
           (ws : option (list Num * list Num)) (profs : list (list Num * list Num))
  : list Num * option err :=
  let k := l_last L in
  match fill_profilesR k 0 data idx ws profs with
  | (d, Err e) => (d, Some e)
  | (d, Ok (idx', None)) =>
    match idx' with
    | None => (add_columnR k (l_sumw L) d (mul (nnat len) none1), None)
    | Some i => match add_atR k (l_sumw L) d (compressed i) [none1] with
                | Err e => (d, Some e)
                | Ok d' => (d', None)
                end
    end
  | (d, Ok (idx', Some (w, w2))) =>
    let i := match idx' with None => zeros_col w | Some i => i end in
    match (do w' <- mask_select i w; do w2' <- mask_select i w2; Ok (w', w2')) with
    | Err e => (d, Some e)
    | Ok (w', w2') =>
      match add_atR k (l_sumw L) d (compressed i) w' with
      | Err e => (d, Some e)
      | Ok d1 => match add_atR k (l_sumw2 L) d1 (compressed i) w2' with
                 | Err e => (d1, Some e)
                 | Ok d2 => (d2, None)
                 end
      end
    end
  end.

(** filldict (hist.py 452-491). *)
Fixpoint filldictR (L : layout) (len : nat) (groups : list (list gkey * list Z)) (c : content)
         (idx : option col) (profs : list (list Num * list Num)) (ws : option (list Num * list Num))
         (all : option (list bool)) : content * option err :=
  match groups with
  | [] =>
    match c with
    | CArr data => let '(d, e) := fillblockR L len data idx ws profs in (CArr d, e)
    | _ => (c, Some AttributeError)
    end
  | (uniques, inverse) :: rest =>
    match c with
    | CDict items =>
      let fresh := match rest with [] => CArr (zeros (l_size L)) | _ => CDict [] end in
      let sub := fun i old =>
        let inv := match all with None => inverse | Some a => select a inverse end in
        let sel := map (fun z => (z =? Z.of_nat i)%Z) inv in
        let idx' := match idx with
                    | None => zeros_col (filter (fun b : bool => b) sel)
                    | Some c => select sel c
                    end in
        let profs' := map (fun p => (select sel (fst p), select sel (snd p))) profs in
        let ws' := match ws with None => None | Some (w, w2) => Some (select sel w, select sel w2) end in
        let all' := match all with
                    | None => sel
                    | Some a => map2 (fun b z => b && (z =? Z.of_nat i)%Z) a inverse
                    end in
        filldictR L len rest old (Some idx') profs' ws' (Some all') in
      let '(items', e) := dict_loop sub fresh 0 uniques items in
      (CDict items', e)
    | _ => (c, Some TypeError)
    end
  end.

(** The weights (hist.py 407-421): a constant is multiplied by ones. *)
Definition weightsR (len : nat) (w : weighting) : option (list Num * list Num) :=
  match w with
  | WNone => None
  | WConst v => Some (repeat (mul none1 v) len, repeat (mul none1 (mul v v)) len)
  | WCol w w2 => Some (zero_nan (w, w2))
  end.

(** _postfill (hist.py 386-494). *)
Definition postfillR (L : layout) (len : nat) (d : dest) (c : content) : content * option err :=
  match flat_indexes (combine (l_tots L) (d_fixed d)) with
  | Err e => (c, Some e)
  | Ok idx => filldictR L len (d_group d) c idx (d_prof d) (weightsR len (d_weight d)) None
  end.
End Arith.

(** ** The arithmetic of float64: the exact result, rounded to the nearest number with 53
    significant bits, ties to even.
    Simplification: the exponent has no bounds, so nothing overflows or becomes subnormal. *)
Definition p2 (e : Z) : Qc :=
  match e with
  | Z0 => qc1
  | Zpos p => qz (2 ^ Zpos p)
  | Zneg p => qfrac 1 (2 ^ p)
  end.
(** The [e] with 2^e <= |q| < 2^(e+1). *)
Definition exponent (q : Qc) : Z :=
  let e := (Z.log2 (Z.abs (Qnum (this q))) - Z.log2 (Zpos (Qden (this q))))%Z in
  if qleb (p2 e) (if qltb q qc0 then - q else q)%Qc then e else (e - 1)%Z.
(** Nearest integer, ties to even. *)
Definition nearest (q : Qc) : Z :=
  let f := qfloor q in
  let d := (q - qz f)%Qc in
  if qltb d (qfrac 1 2) then f
  else if qltb (qfrac 1 2) d then (f + 1)%Z
  else if Z.even f then f else (f + 1)%Z.
Definition round53 (q : Qc) : Qc :=
  let ulp := p2 (exponent q - 52) in (qz (nearest (q / ulp)) * ulp)%Qc.
Definition rnum (x : Num) : Num := match x with Fin q => Fin (round53 q) | _ => x end.
Definition fadd (x y : Num) : Num := rnum (nadd x y).
Definition fmul (x y : Num) : Num := rnum (nmul x y).
