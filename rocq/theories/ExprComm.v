(** Sums and products do not depend on the order of their operands: proofs for C23. *)
From Coq Require Import String Permutation.
From Verif Require Import Num NumFacts Base Tree Elem Order Expr ExprSpec ExprGood ExprFacts ExprLower ExprAlg.
Open Scope string_scope.
Local Open Scope list_scope.

Section Comm.
  Variable srt : list expr -> list expr.
  Hypothesis srt_perm : forall l, Permutation l (srt l).
  Hypothesis srt_canon : forall l m, Permutation l m -> srt l = srt m.

  Definition key (t : term) : list expr * list expr := (tp t, tn t).
  Definition keq (k k' : list expr * list expr) : bool := list_same_e (fst k) (fst k') && list_same_e (snd k) (snd k').
  Lemma keq_iff k k' : keq k k' = true <-> k = k'.
  Proof. unfold keq. rewrite andb_true_iff, !list_same_e_eq. destruct k, k'; simpl. intuition congruence. Qed.
  Lemma keq_refl k : keq k k = true.
  Proof. apply keq_iff. auto. Qed.
  Fixpoint lk (k : list expr * list expr) (l : list term) : option Qc :=
    match l with
    | [] => None
    | t :: l => if keq k (key t) then Some (tc t) else lk k l
    end.
  Definition dflt (o : option Qc) : Qc := match o with Some q => q | None => qc0 end.
  Lemma lk_none k l : lk k l = None <-> ~ In k (map key l).
  Proof.
    induction l as [|t l IH]; simpl; [tauto|]. destruct (keq k (key t)) eqn:E.
    - apply keq_iff in E. subst k. split; [discriminate|]. intros H. exfalso. auto.
    - rewrite IH. assert (key t <> k) by (intros <-; rewrite keq_refl in E; discriminate). tauto.
  Qed.
  Lemma lk_in l : NoDup (map key l) -> forall t, In t l <-> lk (key t) l = Some (tc t).
  Proof.
    induction l as [|u l IH]; simpl; intros N t; [split; [tauto|discriminate]|]. inversion N as [|? ? N1 N2]; subst.
    destruct (keq (key t) (key u)) eqn:E.
    - apply keq_iff in E. split.
      + intros [->|H]; auto. exfalso. apply N1. rewrite <- E. apply in_map. auto.
      + intros H. injection H as H. left. destruct t, u; unfold key in E; simpl in *. congruence.
    - rewrite <- IH by auto. split; auto. intros [->|H]; auto. rewrite keq_refl in E. discriminate.
  Qed.
  Lemma lk_perm l m : NoDup (map key l) -> NoDup (map key m) -> (forall k, lk k l = lk k m) -> Permutation l m.
  Proof.
    intros H1 H2 H. apply NoDup_Permutation; try (eapply NoDup_map_inv; eassumption).
    intros t. rewrite (lk_in l H1), (lk_in m H2), H. tauto.
  Qed.
  Lemma similar_key x y : similar x y = keq (key x) (key y).
  Proof. reflexivity. Qed.
  Lemma lk_merge k x l : lk k (merge x l) = if keq k (key x) then Some (tc x + dflt (lk k l))%Qc else lk k l.
  Proof.
    induction l as [|y l IH]; simpl.
    - destruct (keq k (key x)); auto. rewrite qc0_eq. f_equal. ring.
    - rewrite similar_key. destruct (keq (key x) (key y)) eqn:E; simpl.
      + change (key (T (tc x + tc y) (tp y) (tn y))) with (key y). apply keq_iff in E. rewrite E.
        destruct (keq k (key y)); auto.
      + rewrite IH. destruct (keq k (key x)) eqn:E1, (keq k (key y)) eqn:E2; auto.
        apply keq_iff in E1, E2. rewrite <- E1, E2, keq_refl in E. discriminate.
  Qed.
  Lemma merge_nodup_key x l : NoDup (map key l) -> NoDup (map key (merge x l)).
  Proof.
    induction l as [|y l IH]; simpl; intros N; [constructor; auto|]. inversion N as [|? ? N1 N2]; subst.
    rewrite similar_key. destruct (keq (key x) (key y)) eqn:E; simpl; [constructor; auto|]. constructor; auto.
    apply lk_none. rewrite lk_merge. destruct (keq (key y) (key x)) eqn:E'.
    - apply keq_iff in E'. rewrite E', keq_refl in E. discriminate.
    - apply lk_none. auto.
  Qed.

  (** Two intermediate results with the same constant and the same terms in some order. *)
  Definition like (a b : Qc * list term) : Prop :=
    fst a = fst b /\ NoDup (map key (snd a)) /\ NoDup (map key (snd b)) /\ forall k, lk k (snd a) = lk k (snd b).
  Definition step (sgn : Qc -> Qc) (x : term) (st : Qc * list term) : Qc * list term :=
    if qeqb (tc x) qc0 then st
    else if is_nil (tp x) && is_nil (tn x) then ((fst st + sgn (tc x))%Qc, snd st)
    else (fst st, merge (T (sgn (tc x)) (tp x) (tn x)) (snd st)).
  Lemma like_trans a b c : like a b -> like b c -> like a c.
  Proof. intros (H1 & H2 & H3 & H4) (K1 & K2 & K3 & K4). repeat split; auto; intros; congruence. Qed.
  Lemma like_refl_r a b : like a b -> like b b.
  Proof. intros (H1 & H2 & H3 & H4). repeat split; auto. Qed.
  Lemma step_like sgn x a b : like a b -> like (step sgn x a) (step sgn x b).
  Proof.
    intros (H1 & H2 & H3 & H4). unfold step. destruct (qeqb (tc x) qc0); [repeat split; auto|].
    destruct (is_nil (tp x) && is_nil (tn x)); repeat split; cbn [fst snd]; auto using merge_nodup_key; [congruence|].
    intros k. rewrite !lk_merge, H4. auto.
  Qed.
  Lemma step_comm sgn x y a : NoDup (map key (snd a)) -> like (step sgn x (step sgn y a)) (step sgn y (step sgn x a)).
  Proof.
    intros N. unfold step. destruct (qeqb (tc x) qc0), (qeqb (tc y) qc0); try (repeat split; auto; fail).
    - destruct (is_nil (tp y) && is_nil (tn y)); repeat split; cbn [fst snd]; auto using merge_nodup_key.
    - destruct (is_nil (tp x) && is_nil (tn x)); repeat split; cbn [fst snd]; auto using merge_nodup_key.
    - destruct (is_nil (tp x) && is_nil (tn x)), (is_nil (tp y) && is_nil (tn y)); repeat split; cbn [fst snd]; auto using merge_nodup_key; [ring|].
      intros k. rewrite !lk_merge. change (key (T (sgn (tc x)) (tp x) (tn x))) with (key x). change (key (T (sgn (tc y)) (tp y) (tn y))) with (key y).
      cbn [tc]. destruct (keq k (key x)), (keq k (key y)); auto. cbn [dflt]. f_equal. ring.
  Qed.
  Lemma gather_step sgn x l st : gather sgn (x :: l) st = do x' <- cancel x; gather sgn l (step sgn x' st).
  Proof. reflexivity. Qed.
  Lemma gather_like sgn l : forall a b r, like a b -> gather sgn l a = Ok r -> exists r', gather sgn l b = Ok r' /\ like r r'.
  Proof.
    induction l as [|x l IH]; intros a b r L H.
    - injection H as <-. exists b. auto.
    - rewrite gather_step in *. destruct (cancel x) as [x'|]; [|discriminate]. cbn [bind] in *. eapply IH; [|exact H]. apply step_like; auto.
  Qed.
  Lemma gather_perm sgn l m : Permutation l m -> forall a b r, like a b -> gather sgn l a = Ok r -> exists r', gather sgn m b = Ok r' /\ like r r'.
  Proof.
    induction 1 as [|x l m P IH|x y l|l m n P1 IH1 P2 IH2]; intros a b r L H.
    - injection H as <-. exists b. auto.
    - rewrite gather_step in *. destruct (cancel x) as [x'|]; [|discriminate]. cbn [bind] in *. eapply IH; [|exact H]. apply step_like; auto.
    - rewrite gather_step in H. destruct (cancel y) as [y'|] eqn:EY; [|discriminate]. cbn [bind] in H. rewrite gather_step in H.
      destruct (cancel x) as [x'|] eqn:EX; [|discriminate]. cbn [bind] in H. rewrite gather_step, EX. cbn [bind]. rewrite gather_step, EY. cbn [bind].
      eapply gather_like; [|exact H]. eapply like_trans; [apply step_comm; apply L|]. do 2 apply step_like. auto.
    - destruct (IH1 a b r L H) as (r1 & H1 & L1). destruct (IH2 b b r1) as (r2 & H2 & L2); auto; [eapply like_refl_r; eauto|].
      exists r2. split; auto. eapply like_trans; eauto.
  Qed.
  Lemma filter_perm {A} (f : A -> bool) l m : Permutation l m -> Permutation (filter f l) (filter f m).
  Proof.
    induction 1; simpl; auto; repeat match goal with |- context [f ?a] => destruct (f a) end; auto; try constructor; auto.
    eapply perm_trans; eauto.
  Qed.
  Lemma collect_perm a b r : pc a = pc b -> Permutation (pp a) (pp b) -> Permutation (pn a) (pn b) ->
    collect srt a = Ok r -> collect srt b = Ok r.
  Proof.
    intros HC HP HN H. unfold collect in *. apply bind_ok_iff in H as (s1 & G1 & H). apply bind_ok_iff in H as (s2 & G2 & H). injection H as <-.
    assert (L0 : like (pc a, []) (pc b, [])) by (repeat split; cbn; auto; constructor).
    destruct (gather_perm _ _ _ HP _ _ _ L0 G1) as (t1 & -> & L1). cbn [bind].
    destruct (gather_perm _ _ _ HN _ _ _ L1 G2) as (t2 & -> & (L2 & L3 & L4 & L5)). cbn [bind].
    assert (P : Permutation (filter (fun t => negb (qeqb (tc t) qc0)) (snd t2)) (filter (fun t => negb (qeqb (tc t) qc0)) (snd s2))).
    { apply filter_perm. symmetry. apply lk_perm; auto. }
    f_equal. f_equal; auto; apply srt_t_canon; auto using filter_perm, Permutation_map.
  Qed.

  Lemma combine_comm p q : pm_combine srt p q = pm_combine srt q p.
  Proof.
    unfold pm_combine. rewrite Qcplus_comm. rewrite (srt_t_canon srt srt_canon (pp p ++ pp q) (pp q ++ pp p)) by apply Permutation_app_comm.
    rewrite (srt_t_canon srt srt_canon (pn p ++ pn q) (pn q ++ pn p)) by apply Permutation_app_comm. auto.
  Qed.
  Lemma td_combine_comm t u : td_combine srt t u = td_combine srt u t.
  Proof.
    unfold td_combine. rewrite Qcmult_comm, (srt_canon (tp t ++ tp u) (tp u ++ tp t)), (srt_canon (tn t ++ tn u) (tn u ++ tn t)); auto using Permutation_app_comm.
  Qed.
  Lemma products_comm l m : Permutation (products srt l m) (products srt m l).
  Proof.
    unfold products. induction l as [|x l IH]; simpl.
    - induction m; simpl; auto.
    - rewrite IH. clear IH. induction m as [|y m IH]; simpl; auto. rewrite <- IH. rewrite (td_combine_comm x y).
      apply perm_skip. rewrite !app_assoc. apply Permutation_app_tail, Permutation_app_comm.
  Qed.
  Lemma distribute_comm p q r : pm_distribute srt p q = Ok r -> pm_distribute srt q p = Ok r.
  Proof.
    assert (M : forall c l, map (fun x => td_combine srt x (td_const c)) l = map (fun y => td_combine srt (td_const c) y) l).
    { intros c l. apply map_ext. intros t. apply td_combine_comm. }
    apply collect_perm; cbn [pc pp pn]; auto.
    - rewrite !M. rewrite (products_comm (pp p)), (products_comm (pn p)), !app_assoc.
      apply Permutation_app_tail, Permutation_app_tail, Permutation_app_comm.
    - rewrite !M. rewrite (products_comm (pp p)), (products_comm (pn p)), !app_assoc, <- (app_assoc _ (products srt (pn q) _)), <- (app_assoc _ (products srt (pp q) _)).
      apply Permutation_app; apply Permutation_app_comm.
  Qed.

  Variable defs : string -> option expr.
  Lemma binary_comm o a b e : o = OAdd \/ o = OMul -> binary srt o a b = Ok e -> binary srt o b a = Ok e.
  Proof.
    intros HO H. destruct (is_econst a && is_econst b) eqn:C.
    - apply andb_true_iff in C as [C1 C2]. destruct a; try discriminate. destruct b; try discriminate.
      destruct HO as [->| ->]; simpl in *; apply bind_ok_iff in H as (x & X & H); apply bind_ok_iff in H as (y & Y & H);
        rewrite X, Y; simpl; rewrite <- H; first [rewrite (Qcplus_comm y x)|rewrite (Qcmult_comm y x)]; reflexivity.
    - assert (E : forall x y, is_econst x && is_econst y = false -> binary srt o x y =
            match o with OAdd => combine_simplify srt x y | OMul => distribute_simplify srt x y | _ => binary srt o x y end).
      { intros x y N. destruct HO as [->| ->]; destruct x, y; try reflexivity; discriminate N. }
      rewrite E in H by auto. rewrite E by (rewrite andb_comm; auto). destruct HO as [->| ->].
      + unfold combine_simplify in *. apply bind_ok_iff in H as (x & X & H). apply bind_ok_iff in H as (y & Y & H).
        rewrite X, Y. cbn [bind]. rewrite combine_comm. auto.
      + unfold distribute_simplify in *. apply bind_ok_iff in H as (x & X & H). apply bind_ok_iff in H as (y & Y & H). apply bind_ok_iff in H as (z & Z & H).
        rewrite X, Y. cbn [bind]. apply distribute_comm in Z. rewrite Z. auto.
  Qed.
  Theorem parse_comm o a b rel e : o = OAdd \/ o = OMul ->
    parse srt defs rel (XBin o a b) = Ok e -> parse srt defs rel (XBin o b a) = Ok e.
  Proof.
    intros HO H. simpl in *. apply bind_ok_iff in H as (x & X & H). apply bind_ok_iff in H as (y & Y & H). rewrite X, Y. cbn [bind].
    apply binary_comm; auto.
  Qed.

  (** ** and, or, comparisons *)
  Lemma dedup_canon l m : (forall x, In x l <-> In x m) -> srt (dedup l) = srt (dedup m).
  Proof. intros H. apply srt_canon, NoDup_Permutation; try apply dedup_NoDup. intros x. rewrite !dedup_In. auto. Qed.
  Lemma and_combine_comm a b : and_combine srt a b = and_combine srt b a.
  Proof.
    apply dedup_canon. assert (G : forall a b x, In x (flat_map (fun x => map (fun y => mk_and srt (and_args x ++ and_args y)) b) a) ->
      In x (flat_map (fun x => map (fun y => mk_and srt (and_args x ++ and_args y)) a) b)).
    { clear a b. intros a b x H. apply in_flat_map in H as (y & Hy & H). apply in_map_iff in H as (z & <- & Hz).
      apply in_flat_map. exists z. split; auto. apply in_map_iff. exists y. split; auto. unfold mk_and. f_equal.
      apply dedup_canon. intros w. rewrite !in_app_iff. tauto. }
    split; apply G.
  Qed.
  Lemma or_combine_comm a b : or_combine srt a b = or_combine srt b a.
  Proof. apply dedup_canon. intros x. rewrite !in_app_iff. tauto. Qed.
  Theorem parse_and_comm a b rel e :
    parse srt defs rel (XAnd [a; b]) = Ok e -> parse srt defs rel (XAnd [b; a]) = Ok e.
  Proof.
    destruct rel; [|discriminate]. simpl. intros H. destruct (parse srt defs true a) as [x|]; [|discriminate]. cbn [bind] in *.
    destruct (parse srt defs true b) as [y|]; [|discriminate]. cbn [bind] in *. unfold and_all in *. cbn [mapM bind] in *.
    destruct (or_nf x) as [u|]; [|discriminate]. cbn [bind] in *. destruct (or_nf y) as [v|]; [|discriminate]. cbn [bind reduce1 fold_left] in *.
    rewrite and_combine_comm. auto.
  Qed.
  Theorem parse_or_comm a b rel e :
    parse srt defs rel (XOr [a; b]) = Ok e -> parse srt defs rel (XOr [b; a]) = Ok e.
  Proof.
    destruct rel; [|discriminate]. simpl. intros H. destruct (parse srt defs true a) as [x|]; [|discriminate]. cbn [bind] in *.
    destruct (parse srt defs true b) as [y|]; [|discriminate]. cbn [bind] in *. unfold or_all in *. cbn [mapM bind] in *.
    destruct (or_nf x) as [u|]; [|discriminate]. cbn [bind] in *. destruct (or_nf y) as [v|]; [|discriminate]. cbn [bind reduce1 fold_left] in *.
    rewrite or_combine_comm. auto.
  Qed.
  Definition mirror (o : cmpop) : cmpop :=
    match o with OLt => OGt | OLe => OGe | OGt => OLt | OGe => OLe | o => o end.
  Theorem parse_cmp_comm o a b rel e : o <> OIn -> o <> ONotIn ->
    parse srt defs rel (XCmp a [(o, b)]) = Ok e -> parse srt defs rel (XCmp b [(mirror o, a)]) = Ok e.
  Proof.
    destruct rel; [|discriminate]. simpl. intros N1 N2 H. destruct (parse srt defs false a) as [x|]; [|discriminate]. cbn [bind] in *.
    destruct (parse srt defs false b) as [y|]; [|discriminate]. cbn [bind] in *.
    destruct o; try congruence; cbn [chain relation bind mirror] in *; auto.
    - rewrite (srt_canon [y; x] [x; y]) by constructor. auto.
    - rewrite (srt_canon [y; x] [x; y]) by constructor. auto.
  Qed.
End Comm.
