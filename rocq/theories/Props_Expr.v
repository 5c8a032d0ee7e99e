(** Properties of expressions: C20 (lowering), C21 (arithmetic), C22 (logic), C23 (spellings),
    C24 (negated predicates). *)
From Coq Require Import String Permutation.
From Verif Require Import Num NumFacts Base Tree Elem Order Expr ExprSpec ExprGood ExprFacts ExprLower ExprAlg ExprLogic ExprMain ExprPlain ExprShape ExprPoly ExprComm ExprDefs.
Local Open Scope list_scope.
Open Scope string_scope.

Definition nodefs : string -> option expr := fun _ => None.
Notation parsed := (parse py_sorted nodefs true).
Notation lowered := (totree tree_sorted).

(** A library that knows nothing beyond the built-in functions and small powers. *)
Definition lit (z : Z) : src := XLit (SNum (nz z)).

(** * C20: lowering to function calls keeps the value *)
Theorem C20_lowering_preserves_value : forall user field e a,
  broadcasts user ->
  lowerable e ->
  (forall s v, In s (preds e) -> field s = Ok v -> exists b, v = VBool b) ->
  denote user field e = Ok a ->
  exists t a', lowered e = Ok t /\ reval user field t = Ok a' /\ same_arg a a'.
Proof.
  intros user field e a Hb HL HP H.
  exact (lower_main user Hb field tree_sorted tree_sorted_perm e a HL HP H).
Qed.

(** (x*x*y + 2*z)/w - 3 < 4*y and good: products with a repeated factor, a quotient of a sum, a
    predicate. *)
Definition c20_src : src :=
  XAnd [XCmp (XBin OSub (XBin ODiv (XBin OAdd (XBin OMul (XBin OMul (XName "x") (XName "x")) (XName "y"))
                                         (XBin OMul (lit 2) (XName "z"))) (XName "w")) (lit 3))
             [(OLt, XBin OMul (lit 4) (XName "y"))];
        XName "good"].
Definition c20_row (s : string) : res val :=
  if String.eqb s "good" then Ok (VBool true)
  else if String.eqb s "w" then Ok (VNum (nz 7)) else Ok (VNum (nz 5)).
Definition nolib : string -> list arg -> res val := fun _ _ => Err NameError.
Example c20_nonvacuous : exists e t,
  parsed c20_src = Ok e /\ lowerable e
  /\ (forall s v, In s (preds e) -> c20_row s = Ok v -> exists b, v = VBool b)
  /\ denote nolib c20_row e = Ok (AV (VBool true))
  /\ lowered e = Ok t /\ reval nolib c20_row t = Ok (AV (VBool true)).
Proof.
  eexists. eexists. split; [vm_compute; reflexivity|]. split; [vm_compute; intuition discriminate|].
  split; [|split; [vm_compute; reflexivity|split; vm_compute; reflexivity]].
  intros s v Hs Hv. simpl in Hs. destruct Hs as [<-|[]]. injection Hv as <-. eauto.
Qed.
Example nolib_broadcasts : broadcasts nolib.
Proof. intros f l m _. reflexivity. Qed.

(** A negated predicate is lowered to the predicate itself. *)
Theorem C20_negated_predicate_refuted : forall user field s t b,
  lowered (EPred s false) = Ok t -> field s = Ok (VBool b) ->
  reval user field t = Ok (AV (VBool b)) /\ denote user field (EPred s false) = Ok (AV (VBool (negb b))).
Proof. intros user field s t b H F. injection H as <-. cbn. rewrite F. auto. Qed.

(** * C21 and C22: an expression, once normalized and lowered, has the value it had as written *)

(** [plain] and [typed] look at the written expression only: in products at most one factor has a
    constant term and no field or function is both above and below the line; the operands of logic
    are logical.  [tame] is about the row: arithmetic is on finite numbers, divisors are not zero,
    compared values are not NaN. *)
Theorem C22_expression_value : forall user field s v e,
  broadcasts user -> powers user ->
  plain s -> typed s = true -> tame user field s ->
  (forall n sign, In (n, sign) (names_at None s) ->
     sign = true /\ forall x, field n = Ok x -> exists b, x = VBool b) ->
  seval user field s = Ok v ->
  parsed s = Ok e ->
  exists t v', lowered e = Ok t /\ reval user field t = Ok v' /\ same_arg v v'.
Proof.
  intros user field s v e Hb Hp PL TY TA HN S P.
  pose proof (plain_good py_sorted py_sorted_perm user field s PL TA) as G.
  destruct (parse_keeps user Hb Hp field py_sorted py_sorted_perm s G true v e S P) as ((a & D & A) & _).
  set (R := fun n sign => sign = true /\ forall x, field n = Ok x -> exists b, x = VBool b).
  assert (DE : deep R e).
  { refine (proj1 (parse_shape py_sorted py_sorted_perm R s TY) _ true e P).
    apply Forall_forall. intros [n b] Hn. exact (HN n b Hn). }
  destruct (lower_main user Hb field tree_sorted tree_sorted_perm e a) as (t & a' & T1 & T2 & T3); auto.
  - apply (deep_lowerable R); auto. intros n b [-> _]. auto.
  - intros n x Hn. destruct (deep_preds R e DE n Hn) as (b & _ & B). apply B.
  - exists t, a'. split; auto. split; auto. eapply same_arg_trans; eauto.
Qed.

(** Truth values: and, or, not, comparisons. *)
Theorem C22_truth_preserved : forall user field s b e,
  broadcasts user -> powers user ->
  plain s -> typed s = true -> tame user field s ->
  (forall n sign, In (n, sign) (names_at None s) ->
     sign = true /\ forall x, field n = Ok x -> exists b, x = VBool b) ->
  seval user field s = Ok (AV (VBool b)) ->
  parsed s = Ok e ->
  exists t a, lowered e = Ok t /\ reval user field t = Ok a /\ arg_val a = Ok (VBool b).
Proof.
  intros user field s b e Hb Hp PL TY TA HN S P.
  destruct (C22_expression_value user field s _ e Hb Hp PL TY TA HN S P) as (t & a & T1 & T2 & T3).
  exists t, a. split; auto. split; auto. rewrite <- (same_arg_val _ _ T3). auto.
Qed.

(** Arithmetic: only fields, literals, operators and functions of such. *)
Fixpoint arithmetic (s : src) : bool :=
  match s with
  | XLit _ | XName _ => true
  | XNeg a | XPos a => arithmetic a
  | XBin _ a b => arithmetic a && arithmetic b
  | XCall f l => forallb arithmetic l
  | _ => false
  end.
Lemma arithmetic_typed s : arithmetic s = true -> typed s = true /\ names_at None s = [].
Proof.
  induction s as [c|l IH|s|l r IHl IHr|a IH|l IH|l IH|a IH|a IH|o a b IHa IHb|f l IH] using src_ind'; intros H; try discriminate H; auto.
  - simpl in *. apply andb_true_iff in H as [H1 H2]. destruct (IHa H1) as [-> ->], (IHb H2) as [-> ->]. auto.
  - simpl in *. rewrite forallb_forall in H. rewrite Forall_forall in IH. split.
    + apply forallb_forall. intros x Hx. apply IH; auto.
    + induction l as [|x l IHl]; auto. simpl. destruct (IH x (or_introl eq_refl) (H x (or_introl eq_refl))) as [_ ->].
      apply IHl; intros y Hy; [apply IH|apply H]; right; auto.
Qed.
Theorem C21_arithmetic_value : forall user field s x e,
  broadcasts user -> powers user ->
  arithmetic s = true -> plain s -> tame user field s ->
  (exists a, seval user field s = Ok a /\ arg_num a = Ok x) ->
  parsed s = Ok e ->
  exists t a, lowered e = Ok t /\ reval user field t = Ok a /\ arg_num a = Ok x.
Proof.
  intros user field s x e Hb Hp AR PL TA (v & S & X) P. destruct (arithmetic_typed s AR) as [TY HN].
  destruct (C22_expression_value user field s v e Hb Hp PL TY TA) as (t & a & T1 & T2 & T3); auto.
  { rewrite HN. intros ? ? []. }
  exists t, a. split; auto. split; auto. rewrite <- (same_arg_num _ _ T3). auto.
Qed.

(** The same without a criterion on the written expression: [good] asks of every product that its
    factors, as parsed, have not both a constant term and that common factors cancel correctly. *)
Theorem C21_normal_form_value : forall user field s v e,
  broadcasts user -> powers user ->
  good user field py_sorted s ->
  seval user field s = Ok v ->
  parsed s = Ok e ->
  exists v', denote user field e = Ok v' /\ same_arg v v'.
Proof.
  intros user field s v e Hb Hp G S P.
  destruct (parse_keeps user Hb Hp field py_sorted py_sorted_perm s G true v e S P) as (A & _). exact A.
Qed.

(** The library of the examples: small powers, and a square root of 4. *)
Definition powlib (f : string) (l : list arg) : res val :=
  if String.eqb f "pow" then
    match l with
    | [a; b] =>
        do x <- arg_num a; do y <- arg_num b;
        match y with
        | Fin q => match small_exponent q with
                   | Some (true, n) => Ok (VNum (npow x n))
                   | Some (false, n) => Ok (VNum (ndiv none1 (npow x n)))
                   | None => Err ValueError
                   end
        | _ => Err ValueError
        end
    | _ => Err TypeError
    end
  else if String.eqb f "sqrt" then
    match l with
    | [a] => do x <- arg_num a; if neqb x (nz 4) then Ok (VNum (nz 2)) else Err ValueError
    | _ => Err TypeError
    end
  else Err NameError.
Example powlib_broadcasts : broadcasts powlib.
Proof.
  intros f l m H. unfold powlib. destruct (String.eqb f "pow").
  - destruct H as [|a a' l m A H]; auto. destruct H as [|b b' l m B H]; auto. destruct H; auto.
    rewrite (same_arg_num _ _ A), (same_arg_num _ _ B). auto.
  - destruct (String.eqb f "sqrt"); auto. destruct H as [|a a' l m A H]; auto. destruct H; auto. rewrite (same_arg_num _ _ A). auto.
Qed.
Example powlib_powers : powers powlib.
Proof.
  intros a b q x pos n Hn Ha Hb Hq. unfold powlib. cbn [String.eqb Ascii.eqb Bool.eqb]. rewrite Ha, Hb. cbn [bind]. subst q.
  destruct pos; (destruct n as [|[|[|[|[|]]]]]; [lia| | | | |lia]); reflexivity.
Qed.

(** (x**2*y - 3*x*sqrt(z))/(2*w**3) - 1 + y/4, at x = 3, y = 2, z = 4, w = 2. *)
Definition c21_src : src :=
  XBin OAdd
    (XBin OSub
       (XBin ODiv
          (XBin OSub (XBin OMul (XBin OPow (XName "x") (lit 2)) (XName "y"))
                     (XBin OMul (XBin OMul (lit 3) (XName "x")) (XCall "sqrt" [XName "z"])))
          (XBin OMul (lit 2) (XBin OPow (XName "w") (lit 3))))
       (lit 1))
    (XBin ODiv (XName "y") (lit 4)).
Definition c21_row (s : string) : res val :=
  if String.eqb s "x" then Ok (VNum (nz 3)) else if String.eqb s "z" then Ok (VNum (nz 4)) else Ok (VNum (nz 2)).
Ltac finite_tac := eexists; eexists; split; [vm_compute; reflexivity|vm_compute; reflexivity].
Example c21_nonvacuous :
  arithmetic c21_src = true /\ plain c21_src /\ tame powlib c21_row c21_src
  /\ (exists a, seval powlib c21_row c21_src = Ok a /\ arg_num a = Ok (Fin (qfrac (-1) 2)))
  /\ exists e, parsed c21_src = Ok e.
Proof.
  split; [reflexivity|]. split.
  { vm_compute. repeat split; try (right; reflexivity); try (left; reflexivity); try discriminate; intros m H1 H2;
      repeat match goal with H : _ \/ _ |- _ => destruct H end; congruence || tauto. }
  split.
  { simpl. repeat split; try finite_tac. eexists. split; [eexists; split; vm_compute; reflexivity|].
    intros E. apply (f_equal this) in E. vm_compute in E. discriminate. 
    all: eexists; (split; [eexists; split; vm_compute; reflexivity|]); intros E; apply (f_equal this) in E; vm_compute in E; discriminate. }
  split.
  { eexists. split; [vm_compute; reflexivity|]. vm_compute. reflexivity. }
  eexists. vm_compute. reflexivity.
Qed.

(** not (x < 2 or not (ok and x*y >= 3 > y)) and y not in {7, 8} *)
Definition c22_src : src :=
  XAnd [XNot (XOr [XCmp (XName "x") [(OLt, lit 2)];
                   XNot (XAnd [XName "ok"; XCmp (XBin OMul (XName "x") (XName "y")) [(OGe, lit 3); (OGt, XName "y")]])]);
        XCmp (XName "y") [(ONotIn, XSet [lit 7; lit 8])]].
Definition c22_row (s : string) : res val :=
  if String.eqb s "ok" then Ok (VBool true) else if String.eqb s "x" then Ok (VNum (nz 3)) else Ok (VNum (nz 2)).
Ltac no_nan_tac := intros w Hw; vm_compute in Hw; injection Hw as <-; vm_compute; discriminate.
Example c22_nonvacuous :
  plain c22_src /\ typed c22_src = true /\ tame powlib c22_row c22_src
  /\ (forall n sign, In (n, sign) (names_at None c22_src) ->
        sign = true /\ forall x, c22_row n = Ok x -> exists b, x = VBool b)
  /\ seval powlib c22_row c22_src = Ok (AV (VBool true))
  /\ exists e, parsed c22_src = Ok e.
Proof.
  split.
  { vm_compute. repeat split; try (right; reflexivity). intros m H1 H2; tauto. }
  split; [reflexivity|]. split.
  { simpl. repeat split; try no_nan_tac; try finite_tac. }
  split.
  { intros n sign H. vm_compute in H. destruct H as [E|[]]. injection E as <- <-. split; auto. intros x E. injection E as <-. eauto. }
  split; [vm_compute; reflexivity|]. eexists. vm_compute. reflexivity.
Qed.

(** ** Where normalization does change the value *)

(** 2*(x+1) is taken for 2*x: a product of two sums loses the product of their constants. *)
Theorem C21_constant_lost_refuted : exists s, arithmetic s = true /\
  forall user field q, field "x" = Ok (VNum (Fin q)) ->
    seval user field s = Ok (AV (VNum (Fin (qz 2 * (q + qz 1))%Qc)))
    /\ exists e t, parsed s = Ok e /\ lowered e = Ok t
         /\ reval user field t = Ok (AV (VNum (Fin (q * qz 2)%Qc))).
Proof.
  exists (XBin OMul (lit 2) (XBin OAdd (XName "x") (lit 1))). split; [reflexivity|]. intros user field q F. split.
  - simpl. rewrite F. reflexivity.
  - exists (ETD (T (qz 2) [EName "x"] [])), (TCall "numpy.multiply" [TName "x"; t_num (qz 2)]). split; [|split].
    + vm_compute. do 3 f_equal.
    + reflexivity.
    + simpl. rewrite F. reflexivity.
Qed.

(** x*y*z/(x*y) is taken for y: common factors are deleted by their position in the product before
    any deletion. *)
Theorem C21_cancel_refuted : exists s, arithmetic s = true /\
  forall user field a b c, field "x" = Ok (VNum (Fin a)) -> field "y" = Ok (VNum (Fin b)) -> field "z" = Ok (VNum (Fin c)) ->
    seval user field s = Ok (AV (VNum (ndiv (Fin (a * b * c)%Qc) (Fin (a * b)%Qc))))
    /\ exists e t, parsed s = Ok e /\ lowered e = Ok t /\ reval user field t = Ok (AV (VNum (Fin b))).
Proof.
  exists (XBin ODiv (XBin OMul (XBin OMul (XName "x") (XName "y")) (XName "z")) (XBin OMul (XName "x") (XName "y"))).
  split; [reflexivity|]. intros user field a b c A B C. split.
  - simpl. rewrite A, B, C. reflexivity.
  - exists (EName "y"), (TName "y"). split; [vm_compute; reflexivity|]. split; [reflexivity|]. simpl. rewrite B. reflexivity.
Qed.

(** x*y/(x*y) is not accepted, nor is 2**3. *)
Theorem C21_rejected_refuted : 
  parsed (XBin ODiv (XBin OMul (XName "x") (XName "y")) (XBin OMul (XName "x") (XName "y"))) = Err IndexError
  /\ parsed (XBin OPow (lit 2) (lit 3)) = Err KeyError.
Proof. split; vm_compute; reflexivity. Qed.

(** not (x < y) is taken for y <= x, which is false when x is NaN. *)
Theorem C22_nan_refuted : exists s, 
  forall user field y, field "x" = Ok (VNum NaN) -> field "y" = Ok (VNum y) ->
    seval user field s = Ok (AV (VBool true))
    /\ exists e t, parsed s = Ok e /\ lowered e = Ok t /\ reval user field t = Ok (AV (VBool false)).
Proof.
  exists (XNot (XCmp (XName "x") [(OLt, XName "y")])). intros user field y X Y. split.
  - simpl. rewrite X, Y. destruct y; reflexivity.
  - exists (ERel CLe (EName "y") (EName "x")), (TCall "numpy.less_equal" [TName "y"; TName "x"]).
    split; [vm_compute; reflexivity|]. split; [reflexivity|]. simpl. rewrite X, Y. destruct y; reflexivity.
Qed.

(** * C24: a negated predicate is computed as the predicate itself: false of the code *)
Theorem C24_negated_predicate_refuted : forall user field p b, field p = Ok (VBool b) ->
  seval user field (XNot (XName p)) = Ok (AV (VBool (negb b)))
  /\ exists e t, parsed (XNot (XName p)) = Ok e /\ lowered e = Ok t /\ reval user field t = Ok (AV (VBool b)).
Proof.
  intros user field p b F. split; [simpl; rewrite F; reflexivity|].
  exists (EPred p false), (TPred p false). split; [reflexivity|]. split; [reflexivity|]. simpl. rewrite F. reflexivity.
Qed.
(** Negating twice gives the predicate back. *)
Theorem C24_double_negation : forall p, parsed (XNot (XNot (XName p))) = Ok (EPred p true).
Proof. intros p. reflexivity. Qed.

(** * C23: equivalent spellings are one expression *)

(** Polynomials in the fields, of any size: two spellings give the same expression exactly when
    they have the same value for every choice of numbers for the fields. *)
Theorem C23_polynomials : forall s1 s2,
  polynomial s1 = true -> plain s1 ->
  polynomial s2 = true -> plain s2 ->
  (forall f, peval f s1 = peval f s2) ->
  exists e, parsed s1 = Ok e /\ parsed s2 = Ok e.
Proof.
  intros s1 s2 O1 L1 O2 L2 H. destruct (parse_poly py_sorted py_sorted_perm py_sorted_canon s1 O1 true) as (p & _ & P).
  exists (pm_simplify p). split; auto. rewrite <- P. symmetry.
  apply (poly_normal_form py_sorted py_sorted_perm py_sorted_canon powlib powlib_broadcasts powlib_powers s1 s2 true O1 L1 O2 L2). auto.
Qed.
(** And spellings that differ somewhere are told apart. *)
Theorem C23_distinct_polynomials : forall s1 s2 f,
  polynomial s1 = true -> plain s1 ->
  polynomial s2 = true -> plain s2 ->
  peval f s1 <> peval f s2 ->
  parsed s1 <> parsed s2.
Proof.
  intros s1 s2 f O1 L1 O2 L2 H E. apply H. clear H. revert f.
  apply (poly_normal_form py_sorted py_sorted_perm py_sorted_canon powlib powlib_broadcasts powlib_powers s1 s2 true O1 L1 O2 L2). auto.
Qed.
(** [peval] is the value on a row of finite numbers. *)
Theorem C23_peval_is_the_value : forall user f s, polynomial s = true ->
  exists a, seval user (row_of f) s = Ok a /\ arg_num a = Ok (Fin (peval f s)).
Proof. intros user f s H. exact (poly_value user f s H). Qed.

(** The laws of the property, for polynomials without a constant term. *)
Definition bare (s : src) : Prop := polynomial s = true /\ plain s /\ offset s = false /\ literal s = false.
Lemma polynomial_denn s : polynomial s = true -> denn s = [].
Proof.
  induction s as [c|l IH|s|l r IHl IHr|a IH|l IH|l IH|a IH|a IH|o a b IHa IHb|f l IH] using src_ind'; intros H; try discriminate H; auto.
  simpl in H. destruct o; try discriminate H; apply andb_true_iff in H as [H1 H2]; simpl; rewrite IHa, IHb; auto.
Qed.
Lemma bare_name s : bare (XName s).
Proof. repeat split. Qed.
Lemma bare_add a b : bare a -> bare b -> bare (XBin OAdd a b).
Proof. intros (A & B & C & D) (E & F & G & H). unfold bare. simpl. rewrite A, C, D, E, G, H. auto. Qed.
Lemma bare_mul a b : bare a -> bare b -> bare (XBin OMul a b).
Proof.
  intros (A & B & C & D) (E & F & G & H). unfold bare. simpl. rewrite A, C, D, E, G, H. split; auto. split; auto.
  split; auto. split; auto. split; [right; auto|]. rewrite !polynomial_denn by auto. intros x _ [].
Qed.
Theorem C23_laws : forall x y z, bare x -> bare y -> bare z ->
  (exists e, parsed (XBin OAdd (XBin OAdd x y) z) = Ok e /\ parsed (XBin OAdd x (XBin OAdd y z)) = Ok e)
  /\ (exists e, parsed (XBin OMul (XBin OMul x y) z) = Ok e /\ parsed (XBin OMul x (XBin OMul y z)) = Ok e)
  /\ (exists e, parsed (XBin OMul x (XBin OAdd y z)) = Ok e /\ parsed (XBin OAdd (XBin OMul x y) (XBin OMul x z)) = Ok e).
Proof.
  intros x y z X Y Z.
  assert (G : forall a b, bare a -> bare b -> (forall f, peval f a = peval f b) -> exists e, parsed a = Ok e /\ parsed b = Ok e).
  { intros a b (A1 & A2 & _) (B1 & B2 & _). apply C23_polynomials; auto. }
  split; [|split]; (apply G; [auto using bare_add, bare_mul..|]; intros f; simpl; ring).
Qed.
(** Sums and products of anything at all: the order of the two operands does not matter. *)
Theorem C23_commutative : forall o a b e, o = OAdd \/ o = OMul ->
  parsed (XBin o a b) = Ok e -> parsed (XBin o b a) = Ok e.
Proof. intros o a b e. apply parse_comm. exact py_sorted_canon. Qed.
Theorem C23_logic_commutative : forall a b e,
  (parsed (XAnd [a; b]) = Ok e -> parsed (XAnd [b; a]) = Ok e)
  /\ (parsed (XOr [a; b]) = Ok e -> parsed (XOr [b; a]) = Ok e).
Proof. intros a b e. split; [apply parse_and_comm|apply parse_or_comm]; exact py_sorted_canon. Qed.
(** x < y and y > x, x == y and y == x, and so on. *)
Theorem C23_mirrored_comparison : forall o a b e, o <> OIn -> o <> ONotIn ->
  parsed (XCmp a [(o, b)]) = Ok e -> parsed (XCmp b [(mirror o, a)]) = Ok e.
Proof. intros o a b e. apply parse_cmp_comm. exact py_sorted_canon. Qed.

(** (x+2)*y*x - 3*z and y*x*x - (z*3 - x*y*2); the second is not (x+1)*y*x - 3*z. *)
Definition c23_src (c : Z) : src :=
  XBin OSub (XBin OMul (XBin OMul (XBin OAdd (XName "x") (lit c)) (XName "y")) (XName "x")) (XBin OMul (lit 3) (XName "z")).
Definition c23_other : src :=
  XBin OSub (XBin OMul (XBin OMul (XName "y") (XName "x")) (XName "x"))
            (XBin OSub (XBin OMul (XName "z") (lit 3)) (XBin OMul (XBin OMul (XName "x") (XName "y")) (lit 2))).
Example c23_nonvacuous :
  polynomial (c23_src 2) = true /\ plain (c23_src 2) /\ polynomial c23_other = true /\ plain c23_other
  /\ (forall f, peval f (c23_src 2) = peval f c23_other)
  /\ polynomial (c23_src 1) = true /\ plain (c23_src 1)
  /\ peval (fun _ => qz 1) (c23_src 1) <> peval (fun _ => qz 1) c23_other
  /\ bare (XBin OMul (XName "x") (XBin OAdd (XName "y") (XName "z"))).
Proof.
  assert (PL : forall c, plain (c23_src c)).
  { intros c. simpl. rewrite !andb_false_r. repeat split; auto; intros x _ []. }
  repeat match goal with |- _ /\ _ => split end; auto; try reflexivity.
  - simpl. repeat split; auto; intros x _ [].
  - intros f. simpl. change (qz 2) with (qz 1 + qz 1)%Qc. ring.
  - intros E. apply (f_equal this) in E. vm_compute in E. discriminate.
  - apply bare_mul; [apply bare_name|apply bare_add; apply bare_name].
Qed.

(** Beyond polynomials, the grouping of a sum can matter: ((x+1)**2 + y)/(x+1), -y/(x+1) and z. *)
Theorem C23_grouping_refuted : exists a b c e e',
  parsed (XBin OAdd a (XBin OAdd b c)) = Ok e /\ parsed (XBin OAdd (XBin OAdd a b) c) = Ok e' /\ e <> e'.
Proof.
  pose (x1 := XBin OAdd (XName "x") (lit 1)).
  exists (XBin ODiv (XBin OAdd (XBin OPow x1 (lit 2)) (XName "y")) x1), (XBin ODiv (XNeg (XName "y")) x1), (XName "z").
  eexists. eexists. split; [vm_compute; reflexivity|]. split; [vm_compute; reflexivity|]. discriminate.
Qed.
(** And the product of two sums with constant terms is not the product multiplied out. *)
Theorem C23_multiplied_out_refuted : exists e e',
  parsed (XBin OMul (lit 2) (XBin OAdd (XName "x") (lit 1))) = Ok e
  /\ parsed (XBin OAdd (XBin OMul (lit 2) (XName "x")) (XBin OMul (lit 2) (lit 1))) = Ok e' /\ e <> e'.
Proof. eexists. eexists. split; [vm_compute; reflexivity|]. split; [vm_compute; reflexivity|]. discriminate. Qed.

Print Assumptions C23_polynomials.
Print Assumptions C23_distinct_polynomials.
Print Assumptions C23_peval_is_the_value.
Print Assumptions C23_laws.
Print Assumptions C23_commutative.
Print Assumptions C23_logic_commutative.
Print Assumptions C23_mirrored_comparison.
Print Assumptions C23_grouping_refuted.
Print Assumptions C23_multiplied_out_refuted.
(** * C55: definitions are substitutions *)
(** [D] are the definitions as written, [defs] as parsed; if the expression with the definitions
    written out is accepted, the one that uses their names is, and is the same. *)
Theorem C55_definitions_substitute : forall D defs s e,
  (forall n, match D n with
             | Some d => exists e', parsed d = Ok e' /\ defs n = Some e'
             | None => defs n = None
             end) ->
  parsed (substitute D s) = Ok e ->
  parse py_sorted defs true s = Ok e.
Proof. intros D defs s e H. apply (parse_substitute py_sorted D defs H s true e). Qed.
(** r = x*x + y*y, and r used twice in r - 2*y*r > 4. *)
Definition c55_def (n : string) : option src :=
  if String.eqb n "r" then Some (XBin OAdd (XBin OMul (XName "x") (XName "x")) (XBin OMul (XName "y") (XName "y"))) else None.
Definition c55_src : src :=
  XCmp (XBin OSub (XName "r") (XBin OMul (XBin OMul (lit 2) (XName "y")) (XName "r"))) [(OGt, lit 4)].
Example c55_nonvacuous : exists defs e,
  (forall n, match c55_def n with
             | Some d => exists e', parsed d = Ok e' /\ defs n = Some e'
             | None => defs n = None
             end)
  /\ parsed (substitute c55_def c55_src) = Ok e.
Proof.
  exists (fun n => match c55_def n with Some d => match parsed d with Ok e => Some e | Err _ => None end | None => None end).
  eexists. split.
  - intros n. unfold c55_def. destruct (String.eqb n "r"); auto. eexists. split; reflexivity.
  - vm_compute. reflexivity.
Qed.
Print Assumptions C55_definitions_substitute.

Print Assumptions C22_expression_value.
Print Assumptions C22_truth_preserved.
Print Assumptions C21_arithmetic_value.
Print Assumptions C21_normal_form_value.
Print Assumptions C21_constant_lost_refuted.
Print Assumptions C21_cancel_refuted.
Print Assumptions C21_rejected_refuted.
Print Assumptions C22_nan_refuted.
Print Assumptions C24_negated_predicate_refuted.
Print Assumptions C20_lowering_preserves_value.
Print Assumptions C20_negated_predicate_refuted.
