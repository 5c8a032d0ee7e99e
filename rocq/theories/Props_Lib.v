(** C72: functions in expressions. *)
From Coq Require Import String Permutation.
From Verif Require Import Num NumFacts Base Tree Elem Instr InstrSpec Axis Calc Content Fill FillSpec Expr ExprSpec ExprGood ExprFacts ExprMain ExprPlain
  HistFill HistSpec HistNew HistNewSpec Lib LibSpec LibProofs Props_Expr Props_Hist Props_HistNew.
Local Open Scope string_scope.

Ltac ways H := repeat (destruct H as [<-|H]); [..|destruct H].
Ltac giving t := intros; match goal with H : In _ _ |- _ => cbn in H; ways H end; eexists; (split; [reflexivity|apply t]).

(** ** What is computed *)
Theorem C72_floor : forall tr n q, In n (in_all "floor") -> gives tr n [Fin q] (is_floor q).
Proof. giving floor_ok. Qed.
Theorem C72_ceil : forall tr n q, In n (in_all "ceil") -> gives tr n [Fin q] (is_ceil q).
Proof. giving ceil_ok. Qed.
Theorem C72_trunc : forall tr n q, In n (in_all "trunc") -> gives tr n [Fin q] (is_trunc q).
Proof. giving trunc_ok. Qed.
Theorem C72_rint : forall tr n q, In n [Bare "rint"; Dotted "numpy" "rint"] -> gives tr n [Fin q] (is_nearest q).
Proof. giving rint_ok. Qed.

Lemma abs_ok q : is_abs q (if qltb q qc0 then - q else q)%Qc.
Proof. unfold is_abs. destruct (qltb q qc0) eqn:E; qcs; split; auto; lra. Qed.
Theorem C72_abs : forall tr n q, In n [Bare "abs"; Bare "fabs"; Dotted "numpy" "absolute"] -> gives tr n [Fin q] (is_abs q).
Proof. giving abs_ok. Qed.

Theorem C72_sign : forall tr n q, In n [Bare "sign"; Dotted "numpy" "sign"] -> gives tr n [Fin q] (is_sign q).
Proof.
  intros tr n q H. exists (if qltb q qc0 then qz (-1) else if qltb qc0 q then qz 1 else qc0). split.
  - cbn in H. ways H; (unfold call; cbn -[qltb qz]; destruct (qltb q qc0); [reflexivity|]; destruct (qltb qc0 q); reflexivity).
  - unfold is_sign. destruct (qltb q qc0) eqn:E1; [left; split; auto; qcs; auto|]. destruct (qltb qc0 q) eqn:E2; right; [right|left]; (split; [|auto]); qcs; auto.
    apply Qc_ext. qcs. lra.
Qed.

(** The larger and the smaller of two numbers. *)
Definition is_larger (x y r : Qc) : Prop := (x <= r /\ y <= r /\ (r = x \/ r = y))%Qc.
Definition is_smaller (x y r : Qc) : Prop := (r <= x /\ r <= y /\ (r = x \/ r = y))%Qc.
Theorem C72_max : forall tr n x y, In n [Bare "max"; Bare "fmax"; Dotted "numpy" "maximum"] -> gives tr n [Fin x; Fin y] (is_larger x y).
Proof.
  intros tr n x y H. exists (if qltb x y then y else x). split.
  - cbn in H. ways H; (unfold call; cbn -[qltb]; unfold nmax; cbn -[qltb]; destruct (qltb x y); reflexivity).
  - unfold is_larger. destruct (qltb x y) eqn:E; qcs; repeat split; auto; lra.
Qed.
Theorem C72_min : forall tr n x y, In n [Bare "min"; Bare "fmin"; Dotted "numpy" "minimum"] -> gives tr n [Fin x; Fin y] (is_smaller x y).
Proof.
  intros tr n x y H. exists (if qltb y x then y else x). split.
  - cbn in H. ways H; (unfold call; cbn -[qltb]; unfold nmin; cbn -[qltb]; destruct (qltb y x); reflexivity).
  - unfold is_smaller. destruct (qltb y x) eqn:E; qcs; repeat split; auto; lra.
Qed.

Theorem C72_copysign : forall tr n x y, In n (in_all "copysign") ->
  gives tr n [Fin x; Fin y] (fun r => (r = x \/ r = - x)%Qc /\ ((y < 0)%Qc -> (r <= 0)%Qc) /\ ((0 <= y)%Qc -> (0 <= r)%Qc)).
Proof.
  intros tr n x y H. exists (if qltb y qc0 then - (if qltb x qc0 then - x else x) else if qltb x qc0 then - x else x)%Qc. split.
  - cbn in H. ways H; (unfold call; cbn -[qltb]; unfold ncopysign; cbn -[qltb]; destruct (qltb y qc0); reflexivity).
  - destruct (qltb y qc0) eqn:E, (qltb x qc0) eqn:F; (split; [|split]); try (intro; qcs; lra); try ((left; apply Qc_ext; qcs; lra) || (right; apply Qc_ext; qcs; lra)).
Qed.

(** Python's remainder: [mod], numpy.remainder and the operator %. *)
Theorem C72_mod : forall tr n x y, y <> qc0 -> In n [Bare "mod"; Dotted "numpy" "remainder"] ->
  gives tr n [Fin x; Fin y] (is_mod x y).
Proof.
  intros tr n x y N H. exists (x - y * qz (qfloor (x / y)))%Qc. split; [|apply mod_ok; auto].
  assert (E : qeqb y qc0 = false) by (apply qeqb_false; auto).
  cbn in H. ways H; unfold call; cbn -[qeqb qfloor]; rewrite E; reflexivity.
Qed.
Theorem C72_percent : forall tr x y, y <> qc0 ->
  exists r, operate (numlib tr) OMod (AV (VNum (Fin x))) (AV (VNum (Fin y))) = Ok (VNum (Fin r)) /\ is_mod x y r.
Proof.
  intros tr x y N. exists (x - y * qz (qfloor (x / y)))%Qc. split; [|apply mod_ok; auto].
  assert (E : qeqb y qc0 = false) by (apply qeqb_false; auto).
  cbn -[qeqb qfloor]; rewrite E; reflexivity.
Qed.

(** Powers with a whole exponent. *)
Theorem C72_pow : forall tr n x k, In n [Bare "pow"; Dotted "math" "pow"; Dotted "numpy" "power"] ->
  gives tr n [Fin x; nnat k] (fun r => r = multiplied x k) /\
  (x <> qc0 -> gives tr n [Fin x; nz (- Z.of_nat (S k))] (fun r => r * multiplied x (S k) = 1)%Qc).
Proof.
  intros tr n x k H.
  assert (C : forall y, call tr n [Fin x; y] = Ok (VNum (npower tr (Fin x) y))) by (intro y; cbn in H; ways H; reflexivity).
  unfold gives. split; [|intro N]; rewrite C.
  - unfold nnat. rewrite power_whole. destruct (Z.leb_spec 0 (Z.of_nat k)); [|lia]. rewrite Nat2Z.id, product_pow_fin. eauto.
  - rewrite power_whole. destruct (Z.leb_spec 0 (- Z.of_nat (S k))); [lia|]. rewrite Z.opp_involutive, Nat2Z.id, product_pow_fin.
    assert (M : multiplied x (S k) <> qc0).
    { generalize (S k). intro m. induction m as [|m IH]; cbn; [discriminate|]. intro E. apply Qcmult_integral in E as [E|E]; auto. }
    unfold ndiv, none1. assert (E : qeqb (multiplied x (S k)) qc0 = false) by (apply qeqb_false; auto). rewrite E.
    exists (qc1 / multiplied x (S k))%Qc. split; auto. unfold Qcdiv. rewrite <- Qcmult_assoc, (Qcmult_comm (/ _)), Qcmult_inv_r; auto.
Qed.

(** The step function: its value at zero is the second argument, one half by default. *)
Theorem C72_heaviside : forall tr n q m, In n [Bare "heaviside"; Dotted "numpy" "heaviside"] ->
  call tr n [Fin q] = call tr n [Fin q; Fin (qfrac 1 2)] /\
  gives tr n [Fin q; Fin m] (fun r => ((q < 0)%Qc -> r = qz 0) /\ (q = qc0 -> r = m) /\ ((0 < q)%Qc -> r = qz 1)).
Proof.
  intros tr n q m H. split; [cbn in H; ways H; reflexivity|].
  exists (if qltb q qc0 then qc0 else if qeqb q qc0 then m else qc1). split.
  - cbn in H. ways H; (unfold call; cbn -[qltb qeqb]; destruct (qltb q qc0); [reflexivity|]; destruct (qeqb q qc0); reflexivity).
  - destruct (qltb q qc0) eqn:E1; [|destruct (qeqb q qc0) eqn:E2].
    + split; [auto|]. split; intros H1; [subst; apply qltb_iff in E1|]; qcs; lra.
    + apply qeqb_iff in E2. subst q. split; [|split]; auto; intros H1; exfalso; revert H1; unfold Qclt; apply Qlt_irrefl.
    + split; [|split]; auto; [|intros ->; rewrite qeqb_refl in E2; discriminate]. intros H1. qcs. lra.
Qed.

(** Special values: rounding and [abs] keep them, the largest and the smallest are NaN next to a
    NaN, and the tests tell them apart. *)
Theorem C72_special : forall tr x,
  (forall n, In n (in_all "floor" ++ in_all "ceil" ++ in_all "trunc" ++ [Bare "rint"; Dotted "numpy" "rint"]) -> isfin x = false ->
     call tr n [x] = Ok (VNum x)) /\
  (forall n, In n [Bare "abs"; Bare "fabs"; Dotted "numpy" "absolute"] ->
     call tr n [NaN] = Ok (VNum NaN) /\ call tr n [PInf] = Ok (VNum PInf) /\ call tr n [NInf] = Ok (VNum PInf)) /\
  (forall n, In n [Bare "max"; Bare "fmax"; Dotted "numpy" "maximum"; Bare "min"; Bare "fmin"; Dotted "numpy" "minimum"] ->
     call tr n [NaN; x] = Ok (VNum NaN) /\ call tr n [x; NaN] = Ok (VNum NaN)) /\
  (forall n, In n (in_all "isnan") -> call tr n [x] = Ok (VBool (match x with NaN => true | _ => false end))) /\
  (forall n, In n (in_all "isinf") -> call tr n [x] = Ok (VBool (match x with PInf | NInf => true | _ => false end))) /\
  (forall n, In n [Bare "isfinite"; Dotted "numpy" "isfinite"] -> call tr n [x] = Ok (VBool (match x with Fin _ => true | _ => false end))) /\
  (forall n, In n [Bare "mod"; Dotted "numpy" "remainder"; Bare "fmod"; Dotted "numpy" "fmod"; Dotted "math" "fmod"] ->
     call tr n [x; nz 0] = Ok (VNum NaN)).
Proof.
  intros tr x. repeat match goal with |- _ /\ _ => split end.
  - intros n H F. cbn in H. ways H; destruct x; try discriminate; reflexivity.
  - intros n H. cbn in H. ways H; repeat split.
  - intros n H. cbn in H. ways H; destruct x; split; reflexivity.
  - intros n H. cbn in H. ways H; destruct x; reflexivity.
  - intros n H. cbn in H. ways H; destruct x; reflexivity.
  - intros n H. cbn in H. ways H; destruct x; reflexivity.
  - intros n H. cbn in H. ways H; destruct x; reflexivity.
Qed.

(** ** Which functions can be used *)

(** The number of arguments of a function: [where] takes three, these take two, the others one. *)
Definition binary_names : list string :=
  ["arctan2"; "copysign"; "fmod"; "hypot"; "logaddexp2"; "logaddexp"; "max"; "fmax"; "min"; "fmin"; "pow"; "mod"].
Definition arity (f : string) : nat :=
  if String.eqb f "where" then 3 else if existsb (String.eqb f) binary_names then 2 else 1.

(** Every function that is accepted, [round] apart, gives a value on any numbers. *)
Theorem C72_accepted_functions_compute : forall tr n f xs,
  recognise n = Ok f -> f <> "round" -> List.length xs = arity f -> exists v, call tr n xs = Ok v.
Proof.
  intros tr n f xs R N L. unfold call. rewrite R. cbn [bind].
  assert (I : In f bare_names).
  { destruct n as [g|m g]; cbn [recognise] in R.
    - destruct (existsb (String.eqb g) bare_names) eqn:E; [|discriminate]. injection R as <-.
      apply existsb_exists in E as (k & K & E). apply String.eqb_eq in E as ->. auto.
    - assert (X : forall l, assoc g l = Some f -> In f (map snd l)).
      { induction l as [|[k v] l IH]; cbn [assoc map snd]; [discriminate|]. destruct (String.eqb g k); intro H; [injection H as ->; left; auto|right; auto]. }
      destruct (String.eqb m "math"); [destruct (assoc g math_names) eqn:E; [|discriminate]; injection R as <-;
        unfold bare_names; apply in_or_app; right; apply in_or_app; left; apply X; auto|].
      destruct (String.eqb m "numpy"); [destruct (assoc g numpy_names) eqn:E; [|discriminate]; injection R as <-;
        unfold bare_names; apply in_or_app; right; apply in_or_app; right; apply X; auto|discriminate]. }
  clear R. unfold bare_names in I. cbn in I.
  repeat match type of I with _ \/ _ => destruct I as [<-|I]; [cbn in L;
    repeat match type of L with
           | List.length ?l = S _ => destruct l as [|? l]; [discriminate L|]; cbn in L; apply eq_add_S in L
           | List.length ?l = 0 => destruct l; [|discriminate L]; clear L
           end; try (eexists; reflexivity); congruence|] end.
  destruct I.
Qed.

(** A function that is not in the table is refused when the expression is parsed. *)
Theorem C72_unknown_function_refused : forall f, ~ In f bare_names -> recognise (Bare f) = Err ExpressionError.
Proof.
  intros f H. cbn [recognise]. destruct (existsb (String.eqb f) bare_names) eqn:E; auto. exfalso. apply H.
  apply existsb_exists in E as (k & K & E). apply String.eqb_eq in E as ->. auto.
Qed.

(** The library meets the hypotheses of the theorems about expressions (C21, C22, C62, C67, ...). *)
Theorem C72_library_is_admissible : forall tr, broadcasts (numlib tr) /\ powers (numlib tr).
Proof. intro tr. split; [apply numlib_broadcasts|apply numlib_powers]. Qed.
(** For instance: an arithmetic expression is worth what is written. *)
Theorem C72_arithmetic_value : forall tr field s x e,
  arithmetic s = true -> ExprGood.plain s -> tame (numlib tr) field s ->
  (exists a, seval (numlib tr) field s = Ok a /\ arg_num a = Ok x) ->
  parsed s = Ok e ->
  exists t a, lowered e = Ok t /\ reval (numlib tr) field t = Ok a /\ arg_num a = Ok x.
Proof. intros tr field s x e. apply C21_arithmetic_value; [apply numlib_broadcasts|apply numlib_powers]. Qed.

(** ** What fails *)

(** fmod is not C's: it is right exactly when the operands have the same sign, or one divides the
    other. *)
Definition fmod_names : list fname := [Bare "fmod"; Dotted "math" "fmod"; Dotted "numpy" "fmod"].
Theorem C72_fmod_partial : forall tr n x y, In n fmod_names ->
  ((0 <= x /\ 0 < y) \/ (x <= 0 /\ y < 0))%Qc -> gives tr n [Fin x; Fin y] (is_fmod x y).
Proof.
  intros tr n x y H S. assert (N : y <> qc0) by (intros ->; destruct S as [[_ S]|[_ S]]; revert S; apply Qlt_irrefl).
  exists (x - y * qz (qfloor (x / y)))%Qc. split; [|apply mod_fmod; auto; apply mod_ok; auto].
  assert (E : qeqb y qc0 = false) by (apply qeqb_false; auto).
  cbn in H. ways H; unfold call; cbn -[qeqb qfloor]; rewrite E; reflexivity.
Qed.
Theorem C72_fmod_refuted : forall tr n x y, In n fmod_names ->
  ((x < 0 /\ 0 < y) \/ (0 < x /\ y < 0))%Qc -> ~ leaves x y 0 -> gives tr n [Fin x; Fin y] (fun r => ~ is_fmod x y r).
Proof.
  intros tr n x y H S L. assert (N : y <> qc0) by (intros ->; destruct S as [[_ S]|[_ S]]; revert S; apply Qlt_irrefl).
  exists (x - y * qz (qfloor (x / y)))%Qc. split; [|apply mod_not_fmod; auto; apply mod_ok; auto].
  assert (E : qeqb y qc0 = false) by (apply qeqb_false; auto).
  cbn in H. ways H; unfold call; cbn -[qeqb qfloor]; rewrite E; reflexivity.
Qed.

(** [round(x)], [x // y] and [x ^ y] are accepted, but nothing computes them: every fill of a
    histogram with such an expression raises as soon as there is a row, and changes nothing. *)
Definition missing_functions : list string := ["numpy.floor_divide"; "xor"; "round"].
Theorem C72_missing_functions_refuted : forall cast rnd tr order h srcs A len c f l t,
  is_order order -> Permutation srcs (sources (hist_goals h)) -> hist_wf h -> no_bcast h ->
  args_ok h A len -> 0 < len ->
  In f missing_functions -> In t (hist_exprs h) -> subtree (TCall f l) t ->
  changed_nothing cast rnd (numlib tr) order h srcs A c.
Proof.
  intros cast rnd tr order h srcs A len c f l t Ho Hp Hwf Hnb Ha Hl Hf Ht Hs.
  destruct (rows_raise cast rnd (numlib tr) h A len f l t) as (e & E); auto.
  { intro m. cbn in Hf. ways Hf; eexists; reflexivity. }
  eapply C16_evaluation_error_changes_nothing; eauto.
Qed.
Theorem C72_missing_functions_accepted_refuted : forall tr x y,
  (exists e t l, parsed (XBin OFloorDiv (XName x) (XName y)) = Ok e /\ lowered e = Ok t /\ subtree (TCall "numpy.floor_divide" l) t) /\
  (exists e t l, parsed (XBin OXor (XName x) (XName y)) = Ok e /\ lowered e = Ok t /\ subtree (TCall "xor" l) t) /\
  (exists f e t l, recognise (Bare "round") = Ok f /\ recognise (Dotted "numpy" "round") = Ok f /\
     parsed (XCall f [XName x]) = Ok e /\ lowered e = Ok t /\ subtree (TCall "round" l) t) /\
  forall xs, exists e, call tr (Bare "round") xs = Err e.
Proof.
  intros tr x y. split; [|split; [|split]].
  - do 3 eexists. split; [reflexivity|]. split; [reflexivity|]. constructor.
  - do 3 eexists. split; [reflexivity|]. split; [reflexivity|]. constructor.
  - do 4 eexists. split; [reflexivity|]. split; [reflexivity|]. split; [reflexivity|]. split; [reflexivity|]. constructor.
  - intros xs. eexists. reflexivity.
Qed.

(** A function of math or numpy that is not in the table raises AttributeError, not the
    ExpressionError that says what is wrong. *)
Theorem C72_unknown_attribute_refuted : forall m f,
  (m = "math" -> ~ In f (map fst math_names)) -> (m = "numpy" -> ~ In f (map fst numpy_names)) ->
  recognise (Dotted m f) = Err AttributeError.
Proof.
  intros m f A B. assert (X : forall l : list (string * string), ~ In f (map fst l) -> assoc f l = None).
  { induction l as [|[k v] l IH]; cbn [assoc map fst]; auto. intro H. destruct (String.eqb f k) eqn:E; [|apply IH; intro; apply H; right; auto].
    apply String.eqb_eq in E as ->. exfalso. apply H. left. auto. }
  cbn [recognise]. destruct (String.eqb m "math") eqn:E1; [apply String.eqb_eq in E1; rewrite X; auto|].
  destruct (String.eqb m "numpy") eqn:E2; [apply String.eqb_eq in E2; rewrite X; auto|auto].
Qed.

Print Assumptions C72_floor.
Print Assumptions C72_ceil.
Print Assumptions C72_trunc.
Print Assumptions C72_rint.
Print Assumptions C72_abs.
Print Assumptions C72_sign.
Print Assumptions C72_max.
Print Assumptions C72_min.
Print Assumptions C72_copysign.
Print Assumptions C72_mod.
Print Assumptions C72_percent.
Print Assumptions C72_pow.
Print Assumptions C72_heaviside.
Print Assumptions C72_special.
Print Assumptions C72_accepted_functions_compute.
Print Assumptions C72_unknown_function_refused.
Print Assumptions C72_library_is_admissible.
Print Assumptions C72_arithmetic_value.
Print Assumptions C72_fmod_partial.
Print Assumptions C72_fmod_refuted.
Print Assumptions C72_missing_functions_refuted.
Print Assumptions C72_missing_functions_accepted_refuted.
Print Assumptions C72_unknown_attribute_refuted.

(** ** Cases *)
Definition tr0 (f : string) (l : list Num) : Num := NaN.
Example C72_case :
  call tr0 (Dotted "math" "floor") [Fin (qfrac (-5) 2)] = Ok (VNum (nz (-3))) /\
  call tr0 (Bare "rint") [Fin (qfrac 5 2)] = Ok (VNum (nz 2)) /\ call tr0 (Bare "rint") [Fin (qfrac 7 2)] = Ok (VNum (nz 4)) /\
  call tr0 (Bare "trunc") [Fin (qfrac (-5) 2)] = Ok (VNum (nz (-2))) /\
  call tr0 (Dotted "numpy" "maximum") [nz 2; NInf] = Ok (VNum (nz 2)) /\
  call tr0 (Bare "mod") [nz (-1); nz 3] = Ok (VNum (nz 2)) /\ call tr0 (Bare "mod") [nz 1; nz (-3)] = Ok (VNum (nz (-2))) /\
  call tr0 (Bare "pow") [nz (-2); nz 3] = Ok (VNum (nz (-8))) /\
  call tr0 (Bare "heaviside") [nz 0] = Ok (VNum (Fin (qfrac 1 2))) /\
  call tr0 (Bare "isinf") [NInf] = Ok (VBool true) /\ call tr0 (Bare "sqrt") [] = Err TypeError /\
  call tr0 (Bare "foo") [nz 1] = Err ExpressionError /\ call tr0 (Dotted "math" "foo") [nz 1] = Err AttributeError.
Proof. vm_compute. repeat split. Qed.
(** fmod(-1, 3) is 2, where C, Python and Numpy say -1. *)
Example C72_fmod_case : In (Dotted "math" "fmod") fmod_names /\ (qz (-1) < 0 /\ 0 < qz 3)%Qc /\ ~ leaves (qz (-1)) (qz 3) 0 /\
  call tr0 (Dotted "math" "fmod") [nz (-1); nz 3] = Ok (VNum (nz 2)) /\ is_fmod (qz (-1)) (qz 3) (qz (-1)).
Proof.
  split; [right; left; reflexivity|]. split; [split; reflexivity|]. split; [|split; [reflexivity|]].
  - intros (q & (z & ->) & E). rewrite Qcplus_0_r, <- qz_mul in E. apply qz_inj in E. lia.
  - split; [exists (qz 0); split; [exists 0%Z; reflexivity|apply Qc_ext; reflexivity]|]. split.
    + intros a b (A & [-> | ->]) (B & [-> | ->]); try (exfalso; exact (A eq_refl)); try (exfalso; exact (B eq_refl)). reflexivity.
    + right. split; discriminate.
Qed.
(** Hist(groupby("g"), bin("x // y + w", 4, 0, 8)): constructed, but no fill succeeds. *)
Definition w72 : written := {|
  w_axes := [(AGroupby "g", XName "g");
             (ABin "x // y + w" 4 (nz 0) (nz 8) true true true true, XBin OAdd (XBin OFloorDiv (XName "x") (XName "y")) (XName "w"))];
  w_weight := None; w_filter := None |}.
Definition t72 : tree := TCall "numpy.add" [TCall "numpy.floor_divide" [TName "x"; TName "y"]; TName "w"].
Definition h72 : hist := {|
  h_group := [(AGroupby "g", TName "g")]; h_fixed := [(ABin "x // y + w" 4 (nz 0) (nz 8) true true true true, t72)];
  h_prof := []; h_weight := None |}.
Example C72_missing_case :
  new_hist py_sorted tree_sorted nodefs (w_axes w72) (w_weight w72) (w_filter w72) = Ok h72 /\
  forall c, changed_nothing cast_x86 Fin (numlib tr0) (fun _ l => l) h72 (sources (hist_goals h72)) exA c.
Proof.
  split; [vm_compute; reflexivity|]. intro c.
  apply C72_missing_functions_refuted with (len := 3) (f := "numpy.floor_divide") (l := [TName "x"; TName "y"]) (t := t72); auto.
  - intros t l. apply Permutation_refl.
  - split; [intros p H; in_cases H; reflexivity|]. split; [intros p H; in_cases H; split; [reflexivity|discriminate]|].
    intros t H. in_cases H; split; unfold t72; plain_tac.
  - intros t k H S. in_cases H; unfold t72 in *; sub_tac.
  - split.
    + assert (M : forall s (P : string -> Prop), P "g" -> P "x" -> P "y" -> P "w" -> hist_mentions h72 s -> P s).
      { intros s P Hg Hx Hy Hw (t & Ht & M). in_cases Ht; unfold t72 in *;
          repeat match goal with H : mentions _ (TCall _ _) |- _ => inversion H; clear H; subst
                            | H : mentions _ (TName _) |- _ => inversion H; clear H; subst
                            | H : In _ _ |- _ => progress in_cases H end; auto. }
      intros s. apply (M s (fun s => available exA s /\ right_length exA 3 s)); (split; [left; discriminate|intros l E; inversion E; reflexivity]).
    + left. exists "g". split; [exists (TName "g"); split; [left; reflexivity|constructor]|eexists; reflexivity].
  - left. reflexivity.
  - right. left. reflexivity.
  - apply sub_call with (a := TCall "numpy.floor_divide" [TName "x"; TName "y"]); [left; reflexivity|constructor].
Qed.
