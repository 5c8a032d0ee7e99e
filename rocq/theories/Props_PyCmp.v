(** C76: how expressions and axes compare, sort and hash.

    Axes are found by their expression, instructions are shared between equal expressions, and the
    parts of sums, products and logical expressions are put in order, so that two spellings of one
    formula become the same object.  All of that relies on [==] being an equivalence, on [<] being
    a total order that agrees with [==], and on equal objects having equal hashes. *)
From Coq Require Import String Permutation Sorted.
From Verif Require Import Num NumFacts Base Tree Order Expr ExprFacts Axis PyCmp PyCmpSpec PyCmpProofs.

(** [==] between expressions is an equivalence: whatever the constants, as long as none is NaN. *)
Theorem C76_equality :
  (forall a, no_nan a -> node_eqb a a = true) /\
  (forall a b, node_eqb a b = node_eqb b a) /\
  (forall a b c, node_eqb a b = true -> node_eqb b c = true -> node_eqb a c = true).
Proof. split; [exact node_refl|]. split; [exact node_sym|exact node_trans]. Qed.

(** Between two expressions without sets, whose literal numbers have one Python type, exactly one
    of [a < b], [a == b] and [b < a] is true, and [<] raises nothing when they differ. *)
Theorem C76_order_total : forall T a b, uniform T a -> uniform T b ->
  (node_eqb a b = true /\ node_ltb a b <> Ok true /\ node_ltb b a <> Ok true) \/
  (node_eqb a b = false /\ node_ltb a b = Ok true /\ node_ltb b a = Ok false) \/
  (node_eqb a b = false /\ node_ltb a b = Ok false /\ node_ltb b a = Ok true).
Proof.
  intros T a b A B. pose proof (node_tells T a A b B) as H. pose proof (node_tells T b B a A) as K.
  rewrite (rcmp_opp (nrose a) (nrose b)) in K.
  destruct (rcmp (nrose a) (nrose b)); cbn in H, K; tauto.
Qed.
Theorem C76_order_transitive : forall T a b c, uniform T a -> uniform T b -> uniform T c ->
  node_ltb a b = Ok true -> node_ltb b c = Ok true -> node_ltb a c = Ok true.
Proof.
  intros T a b c A B C. rewrite !(nrose_lt T) by auto. apply rcmp_trans.
Qed.
(** Equal expressions are in the same place of the order. *)
Theorem C76_order_respects_equality : forall T a a' b b', uniform T a -> uniform T a' -> uniform T b -> uniform T b' ->
  node_eqb a a' = true -> node_eqb b b' = true -> node_ltb a b = Ok true -> node_ltb a' b' = Ok true.
Proof.
  intros T a a' b b' A A' B B' E F. apply (nrose_eq T) in E; auto. apply (nrose_eq T) in F; auto.
  rewrite !(nrose_lt T) by auto. congruence.
Qed.

(** So whatever sorting algorithm is used, the same expressions in any order are put in the same
    order; and there is such an order. *)
Theorem C76_sorted_canonical : forall T l m sl sm, Forall (uniform T) l -> Forall (uniform T) m ->
  same_items l m -> sorts_to l sl -> sorts_to m sm -> tuple_eqb node_eqb sl sm = true.
Proof.
  intros T l m sl sm L M I S S'. pose proof (sorted_canonical T l m sl sm L M I S S') as F.
  clear - F. induction F; cbn; auto. rewrite H, IHF. auto.
Qed.
Theorem C76_sorted_exists : forall T l, Forall (uniform T) l -> exists s, sorts_to l s.
Proof. intros T l H. exists (isort nrose l). eapply isort_sorts; eauto. Qed.

(** The order by which the model of expressions (Expr.v) sorts is the one written in the code:
    [==], [<] and [sorted] on the Python objects that two expressions stand for. *)
Theorem C76_model_order : forall T a b n k, stands a n -> stands b k -> uniform T n -> uniform T k ->
  node_eqb n k = expr_same a b /\
  (node_ltb n k = Ok true <-> rcmp (rose_of a) (rose_of b) = Lt) /\
  (node_eqb n k = true <-> a = b).
Proof.
  intros T a b n k A B N K.
  assert (E : node_eqb n k = true <-> a = b).
  { rewrite (nrose_eq T) by auto. rewrite <- rcmp_eq, <- (order_agrees T n N a b k A B K), rcmp_eq.
    split; [apply rose_of_inj|congruence]. }
  split; [|split; auto].
  - unfold expr_same. destruct (rcmp (rose_of a) (rose_of b)) eqn:C.
    + apply rcmp_eq in C. apply E. apply rose_of_inj. auto.
    + destruct (node_eqb n k); auto. rewrite (proj1 E eq_refl) in C. rewrite (proj2 (rcmp_eq _ _)) in C by auto. discriminate.
    + destruct (node_eqb n k); auto. rewrite (proj1 E eq_refl) in C. rewrite (proj2 (rcmp_eq _ _)) in C by auto. discriminate.
  - rewrite (nrose_lt T) by auto. rewrite (order_agrees T n N a b k A B K). reflexivity.
Qed.
Theorem C76_model_sorted : forall T l ns s, Forall2 stands l ns -> Forall (uniform T) ns -> sorts_to ns s ->
  Forall2 stands (py_sorted l) s.
Proof. exact sorted_agrees. Qed.
Theorem C76_model_sorted_calls : forall T l ns s, Forall2 stands_tree l ns -> Forall (uniform T) ns -> sorts_to ns s ->
  Forall2 stands_tree (tree_sorted l) s.
Proof. exact tree_sorted_agrees. Qed.

(** Equal expressions have equal hashes, or neither can be hashed: 1, 1.0 and True, and sets in
    any order, included. *)
Theorem C76_equal_hash : forall a b, no_nan a -> no_nan b -> node_eqb a b = true -> node_key a = node_key b.
Proof. intros a b A B. apply node_key_eq; auto. Qed.
(** Equal axes have equal hashes. *)
Theorem C76_axis_hash : forall a b, axis_eqb a b = true -> axis_key a = axis_key b.
Proof. exact axis_key_eq. Qed.

(** ** What does not hold *)

(** An expression with a set literal that holds two values which cannot be ordered, such as
    [{1, "a"}], cannot be hashed, so it cannot be part of any selection. *)
Theorem C76_mixed_set_refuted : forall l x y c e err, Forall scalar l -> In x l -> In y l ->
  pv_eqb x y = false -> pv_ltb x y = Err err -> is_ok (node_key e) = true ->
  node_key (NRel c e (NConst (VSet l))) = Err TypeError.
Proof.
  intros l x y c e err S X Y D E K.
  assert (D' : flat_eqb x y = false).
  { rewrite Forall_forall in S. destruct (S x X) as [N _]. destruct x; auto. exfalso. eapply N. reflexivity. }
  cbn [node_key pv_key]. rewrite (mixed_set l x y err S X Y D' E). destruct (node_key e); try discriminate. reflexivity.
Qed.

Definition f_of (v : pv) : node := NCall false "f" [NConst v].
Definition half3 : Num := Fin (qfrac 3 2).
(** Numbers are first ordered by the names of their types, so [f(1)*f(1.5)] and [f(1.0)*f(1.5)],
    which are equal factor by factor, are put in different orders and are different expressions. *)
Theorem C76_int_float_refuted :
  exists l m sl sm, same_items l m /\ sorts_to l sl /\ sorts_to m sm /\
    (forall sl', sorts_to l sl' -> sl' = sl) /\ (forall sm', sorts_to m sm' -> sm' = sm) /\
    node_eqb (NRing true (VInt 1) sl []) (NRing true (VInt 1) sm []) = false.
Proof.
  exists [f_of (VInt 1); f_of (VFloat half3)], [f_of (VFloat (Fin qc1)); f_of (VFloat half3)].
  exists [f_of (VFloat half3); f_of (VInt 1)], [f_of (VFloat (Fin qc1)); f_of (VFloat half3)].
  assert (U : forall x y s, node_ltb x y = Ok true -> sorts_to [x; y] s \/ sorts_to [y; x] s -> s = [x; y]).
  { intros x y s L H. assert (P : Permutation [x; y] s) by (destruct H as [[H _]|[H _]]; auto; rewrite perm_swap; auto).
    assert (S : StronglySorted (fun x y => node_ltb y x <> Ok true) s) by (destruct H as [[_ H]|[_ H]]; auto).
    apply Permutation_length_2_inv in P. destruct P as [->| ->]; auto. exfalso.
    inversion S as [|? ? ? F]; subst. inversion F; subst. auto. }
  repeat split.
  - eexists. split; [apply Permutation_refl|]. repeat constructor; vm_compute; reflexivity.
  - apply perm_swap.
  - repeat constructor. vm_compute. discriminate.
  - apply Permutation_refl.
  - repeat constructor. vm_compute. discriminate.
  - intros s H. apply U; [vm_compute; reflexivity|]. right. exact H.
  - intros s H. apply U; [vm_compute; reflexivity|]. left. exact H.
Qed.

(** [<] between sets is inclusion, so two sets of which neither contains the other are in no
    order: [x in {1} or x in {2}] may be kept in either order, and the two are not equal. *)
Definition x_in (z : Z) : node := NLogic false [NRel "in" (NName "x") (NConst (VSet [VInt z]))].
Theorem C76_sets_refuted : forall y z, y <> z ->
  sorts_to [x_in y; x_in z] [x_in y; x_in z] /\ sorts_to [x_in y; x_in z] [x_in z; x_in y] /\
  node_eqb (NLogic true [x_in y; x_in z]) (NLogic true [x_in z; x_in y]) = false.
Proof.
  intros y z D.
  assert (Q : forall a b, a <> b -> neqb (Fin (qz a)) (Fin (qz b)) = false).
  { intros a b N. cbn. apply qeqb_false. intros H. apply N. rewrite <- (qfloor_qz a), H. apply qfloor_qz. }
  assert (L : forall a b, a <> b -> node_ltb (x_in a) (x_in b) <> Ok true).
  { intros a b N. unfold x_in. cbn -[neqb qz]. unfold flat_eqb, subset. cbn -[neqb qz].
    unfold flat_eqb. cbn -[neqb qz]. rewrite !Q by auto. cbn -[neqb qz]. discriminate. }
  split; [|split].
  - split; auto. repeat constructor. apply L. auto.
  - split; [apply perm_swap|]. repeat constructor. apply L. auto.
  - unfold x_in. cbn -[neqb qz]. unfold flat_eqb, subset. cbn -[neqb qz].
    unfold flat_eqb. cbn -[neqb qz]. rewrite !Q by auto. reflexivity.
Qed.

(** ** Cases *)

(** A sum of two products with float literals, and what it stands for. *)
Definition fx : node := NCall false "f" [NConst (VFloat half3)].
Definition sum_node : node :=
  NRing false (VInt 2) [NRing true (VFloat (Fin qc1)) [fx; NName "x"] []] [NRing true (VInt 3) [NName "y"] [fx]].
Definition sum_expr : expr :=
  EPM (qz 2) [T (qz 1) [ECall false "f" [EConst (KS (SNum half3))]; EName "x"] []]
    [T (qz 3) [EName "y"] [ECall false "f" [EConst (KS (SNum half3))]]].
Example C76_case_uniform : uniform "float" sum_node /\ uniform "float" fx /\ node_ltb fx sum_node = Ok true.
Proof.
  assert (F : uniform "float" fx).
  { constructor. constructor; [|constructor]. constructor. right. right. exists half3. auto. }
  split; [|split; [exact F|vm_compute; reflexivity]].
  unfold sum_node. repeat first [exact F|constructor]; eexists; reflexivity.
Qed.
Example C76_case_stands : stands sum_expr sum_node.
Proof.
  assert (F : stands (ECall false "f" [EConst (KS (SNum half3))]) fx) by (repeat constructor).
  unfold sum_expr, sum_node. constructor; [reflexivity| |]; cbn [map]; repeat first [exact F|reflexivity|constructor].
Qed.
Example C76_case_sort : sorts_to [NName "x"; fx; NName "a"] [fx; NName "a"; NName "x"].
Proof.
  split.
  - rewrite perm_swap. constructor. apply perm_swap.
  - repeat constructor; vm_compute; discriminate.
Qed.
Example C76_case_hash :
  node_eqb (NRel "in" (NName "x") (NConst (VSet [VInt 2; VInt 1]))) (NRel "in" (NName "x") (NConst (VSet [VBool true; VFloat (Fin (qz 2))]))) = true /\
  node_key (NRel "in" (NName "x") (NConst (VSet [VInt 2; VInt 1]))) =
  node_key (NRel "in" (NName "x") (NConst (VSet [VBool true; VFloat (Fin (qz 2))]))) /\
  is_ok (node_key (NRel "in" (NName "x") (NConst (VSet [VInt 2; VInt 1])))) = true.
Proof. repeat split; vm_compute; reflexivity. Qed.
Example C76_case_no_nan : no_nan (NRel "in" (NName "x") (NConst (VSet [VInt 2; VInt 1]))).
Proof.
  constructor; constructor. right. eexists. split; [reflexivity|]. split.
  - repeat constructor; try discriminate; intros x H; injection H as <-; reflexivity.
  - repeat constructor.
Qed.
Example C76_case_mixed : node_key (NRel "in" (NName "x") (NConst (VSet [VInt 1; VStr "a"]))) = Err TypeError.
Proof.
  apply (C76_mixed_set_refuted _ (VInt 1) (VStr "a") _ _ TypeError); try reflexivity; try (cbn; auto).
  constructor; [|constructor; [|constructor]]; (split; [discriminate|]); intros x H; try discriminate. injection H as <-. reflexivity.
Qed.

Print Assumptions C76_equality.
Print Assumptions C76_order_total.
Print Assumptions C76_order_transitive.
Print Assumptions C76_order_respects_equality.
Print Assumptions C76_sorted_canonical.
Print Assumptions C76_sorted_exists.
Print Assumptions C76_model_order.
Print Assumptions C76_model_sorted.
Print Assumptions C76_model_sorted_calls.
Print Assumptions C76_equal_hash.
Print Assumptions C76_axis_hash.
Print Assumptions C76_mixed_set_refuted.
Print Assumptions C76_int_float_refuted.
Print Assumptions C76_sets_refuted.
