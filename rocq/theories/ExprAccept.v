(** Which expressions are accepted: parsing does not fail on the expressions of the class of C21 and
    C22 that use every operator where the language has it. *)
From Coq Require Import String Permutation.
From Verif Require Import Num NumFacts Base Tree Elem Order Expr ExprSpec ExprGood ExprFacts ExprLower ExprAlg ExprLogic ExprMain ExprPlain ExprAcceptSpec.
Open Scope string_scope.
Local Open Scope list_scope.

Section Accept.
  Variable user : string -> list arg -> res val.
  Hypothesis Hb : broadcasts user.
  Hypothesis Hp : powers user.
  Variable field : string -> res val.
  Variable srt : list expr -> list expr.
  Hypothesis srt_perm : forall l, Permutation l (srt l).
  Notation denote := (denote user field).
  Notation seval := (seval user field).
  Notation safe := (safe user field).
  Notation parse := (parse srt (fun _ => None)).
  Notation good := (good user field srt).
  Notation logic := (logic user field).
  Notation means := (means user field).
  Notation pmv := (pmv user field).

  (** ** Arithmetic *)
  Lemma pm_nf_total e q : safe e q -> exists p, pm_nf e = Ok p.
  Proof.
    intros S. destruct e; cbn [pm_nf td_nf bind]; try (eexists; reflexivity).
    inversion S as [? ? _ (a & A & N)| |]; subst. injection A as <-.
    destruct c as [[[x| | |]| | |]| |]; try discriminate N. eexists. reflexivity.
  Qed.
  Lemma gather_total sgn l : Forall cancels_right l -> forall st, exists st', gather sgn l st = Ok st'.
  Proof.
    induction 1 as [|t l (t' & common & E & _) F IH]; intros st; cbn [gather]; [eauto|]. rewrite E. cbn [bind]. apply IH.
  Qed.
  Lemma collect_total p : Forall cancels_right (pp p) -> Forall cancels_right (pn p) -> exists p', collect srt p = Ok p'.
  Proof.
    intros H1 H2. unfold collect. destruct (gather_total (fun q => q) _ H1 (pc p, [])) as (s1 & ->). cbn [bind].
    destruct (gather_total Qcopp _ H2 s1) as (s2 & ->). cbn [bind]. eauto.
  Qed.
  Lemma combine_total a b p q : pmv a p -> pmv b q -> exists r, pm_combine srt a b = Ok r.
  Proof.
    intros Ha Hb'. apply pmv_terms in Ha as (ps & ns & P1 & P2 & _). apply pmv_terms in Hb' as (ps' & ns' & Q1 & Q2 & _).
    destruct (Forall2_perm _ _ _ (srt_t_perm srt srt_perm _) _ (Forall2_app P1 Q1)) as (xs & X1 & _).
    destruct (Forall2_perm _ _ _ (srt_t_perm srt srt_perm _) _ (Forall2_app P2 Q2)) as (ys & Y1 & _).
    apply collect_total; cbn [pp pn]; eapply terms_cancel; eauto.
  Qed.
  Lemma distribute_total a b p q : pmv a p -> pmv b q ->
    (forall t u, In t (pp a ++ pn a) -> In u (pp b ++ pn b) -> cancels_right (td_combine srt t u)) ->
    exists r, pm_distribute srt a b = Ok r.
  Proof.
    intros Ha Hb' HT. apply pmv_terms in Ha as (ps & ns & P1 & P2 & _). apply pmv_terms in Hb' as (ps' & ns' & Q1 & Q2 & _).
    assert (CD : forall t, disjoint t -> cancels_right (td_combine srt t (td_const (pc b)))).
    { intros t D. apply disjoint_cancels. intros x. cbn [tp tn td_combine td_const].
      rewrite !app_nil_r, !(srt_In srt srt_perm). apply D. }
    assert (CE : forall t, disjoint t -> cancels_right (td_combine srt (td_const (pc a)) t)).
    { intros t D. apply disjoint_cancels. intros x. cbn [tp tn td_combine td_const app].
      rewrite !(srt_In srt srt_perm). apply D. }
    assert (MC : forall l qs, Forall2 (fun t => safe (ETD t)) l qs ->
               Forall cancels_right (map (fun x => td_combine srt x (td_const (pc b))) l)
               /\ Forall cancels_right (map (fun x => td_combine srt (td_const (pc a)) x) l)).
    { intros l qs HF. apply terms_disjoint in HF. split; apply Forall_map; (eapply Forall_impl; [|exact HF]); auto. }
    assert (PC : forall l m, incl l (pp a ++ pn a) -> incl m (pp b ++ pn b) -> Forall cancels_right (products srt l m)).
    { intros l m Hl Hm. apply Forall_forall. intros t. unfold products. rewrite in_flat_map.
      intros (x & Hx & Hy). apply in_map_iff in Hy as (y & <- & Hy). auto. }
    apply collect_total; cbn [pp pn]; repeat (apply Forall_app; split).
    - apply (MC _ _ P1).
    - apply (MC _ _ Q1).
    - apply PC; auto using incl_appl, incl_appr, incl_refl.
    - apply PC; auto using incl_appl, incl_appr, incl_refl.
    - apply (MC _ _ P2).
    - apply (MC _ _ Q2).
    - apply PC; auto using incl_appl, incl_appr, incl_refl.
    - apply PC; auto using incl_appl, incl_appr, incl_refl.
  Qed.
  Lemma product_total a b p q : safe a p -> safe b q -> product_ok srt a b -> exists e, distribute_simplify srt a b = Ok e.
  Proof.
    intros Ha Hb' HP. destruct (pm_nf_total a p Ha) as (x & X). destruct (pm_nf_total b q Hb') as (y & Y).
    destruct (HP x y X Y) as (_ & C). unfold distribute_simplify. rewrite X, Y. cbn [bind].
    destruct (distribute_total x y p q) as (r & ->); auto; [eapply pm_nf_safe; eauto|eapply pm_nf_safe; eauto|]. cbn [bind]. eauto.
  Qed.
  Lemma inv_total q : q <> qc0 -> exists r, q_inv q = Ok r.
  Proof. intros H. unfold q_inv. apply qeqb_false in H. rewrite H. eauto. Qed.
  Lemma term_coefficient t q : safe (ETD t) q -> q <> qc0 -> tc t <> qc0.
  Proof.
    intros S H. apply safe_td in S as ((ps & ns & _ & _ & _ & ->) & _). apply qterm_nonzero in H. tauto.
  Qed.
  Lemma single_coefficient p q : pmv p q -> q <> qc0 -> pc p = qc0 ->
    (forall t, pp p = [t] -> pn p = [] -> tc t <> qc0) /\ (forall t, pp p = [] -> pn p = [t] -> tc t <> qc0).
  Proof.
    intros V H Z. apply pmv_terms in V as (ps & ns & P1 & P2 & ->). split; intros t E1 E2; rewrite E1 in P1; rewrite E2 in P2.
    - inversion P1 as [|? z ? ? Hz P1']; subst. inversion P1'; inversion P2; subst. apply (term_coefficient _ z Hz).
      intros ->. apply H. rewrite Z. cbn. rewrite qc0_eq. ring.
    - inversion P2 as [|? z ? ? Hz P2']; subst. inversion P2'; inversion P1; subst. apply (term_coefficient _ z Hz).
      intros ->. apply H. rewrite Z. cbn. rewrite qc0_eq. ring.
  Qed.
  Lemma reciprocal_total b q : safe b q -> q <> qc0 -> exists r, reciprocal b = Ok r.
  Proof.
    intros S H. destruct (pm_nf_total b q S) as (p & P). unfold reciprocal. rewrite P. cbn [bind].
    pose proof (pm_nf_safe _ _ _ _ _ S P) as V.
    assert (One : exists u, td_negate (T qc1 [pm_expr p] []) = Ok u).
    { unfold td_negate. cbn [tc]. destruct (inv_total qc1) as (r & ->); [discriminate|]. cbn [bind]. eauto. }
    destruct One as (u & One).
    destruct (is_nil (pp p) && is_nil (pn p)) eqn:N.
    - apply andb_true_iff in N as (N1 & N2). apply pmv_terms in V as (ps & ns & P1 & P2 & E). destruct (pp p); [|discriminate]. destruct (pn p); [|discriminate].
      inversion P1; inversion P2; subst. destruct (inv_total (pc p)) as (r & ->); [|cbn [bind]; eauto].
      intros Z. apply H. rewrite Z. cbn. rewrite qc0_eq. ring.
    - destruct (qeqb (pc p) qc0) eqn:Z; [|rewrite One; cbn [bind]; eauto]. apply qeqb_iff in Z.
      destruct (single_coefficient p q V H Z) as (C1 & C2).
      destruct (pp p) as [|t [|t' l]] eqn:E1, (pn p) as [|t2 [|t3 l2]] eqn:E2; try (rewrite One; cbn [bind]; eauto; fail); try discriminate.
      + unfold td_negate. destruct (inv_total (tc t2)) as (r & ->); [auto|]. cbn [bind]. eauto.
      + unfold td_negate. destruct (inv_total (tc t)) as (r & ->); [auto|]. cbn [bind]. eauto.
  Qed.
  Lemma power_total n a q : safe a q -> exists e, power srt n a = Ok e.
  Proof. intros S. destruct (pm_nf_total a q S) as (p & P). unfold power. rewrite P. cbn [bind]. eauto. Qed.
  Lemma neg_power_total n a q : safe a q -> q <> qc0 -> exists e, neg_power srt n a = Ok e.
  Proof.
    intros S H. destruct (pm_nf_total a q S) as (p & P). unfold neg_power. rewrite P. cbn [bind].
    pose proof (pm_nf_safe _ _ _ _ _ S P) as V.
    destruct (qeqb (pc p) qc0) eqn:Z; [|cbn [bind]; eauto]. apply qeqb_iff in Z.
    destruct (single_coefficient p q V H Z) as (C1 & C2).
    destruct (pp p) as [|t [|t' l]] eqn:E1, (pn p) as [|t2 [|t3 l2]] eqn:E2; try (cbn [bind]; eauto; fail).
    - destruct (inv_total (qpow (tc t2) n)) as (r & ->); [apply qpow_nonzero; auto|]. cbn [bind]. eauto.
    - destruct (inv_total (qpow (tc t) n)) as (r & ->); [apply qpow_nonzero; auto|]. cbn [bind]. eauto.
  Qed.
  Lemma combine_simplify_total a b p q : safe a p -> safe b q -> exists e, combine_simplify srt a b = Ok e.
  Proof.
    intros Ha Hb'. destruct (pm_nf_total a p Ha) as (x & X). destruct (pm_nf_total b q Hb') as (y & Y). unfold combine_simplify. rewrite X, Y. cbn [bind].
    destruct (combine_total x y p q) as (r & ->); [eapply pm_nf_safe; eauto|eapply pm_nf_safe; eauto|]. cbn [bind]. eauto.
  Qed.
  Lemma negate_val y q : pmv y q -> pmv (PM (- pc y)%Qc (pn y) (pp y)) (- q)%Qc.
  Proof. intros V. apply pmv_terms in V as (ps & ns & P1 & P2 & ->). apply safe_pm. exists ns, ps. cbn [pp pn pc]. repeat split; auto. ring. Qed.
  Lemma subtract_simplify_total a b p q : safe a p -> safe b q -> exists e, subtract_simplify srt a b = Ok e.
  Proof.
    intros Ha Hb'. destruct (pm_nf_total a p Ha) as (x & X). destruct (pm_nf_total b q Hb') as (y & Y). unfold subtract_simplify, pm_negate. rewrite X, Y. cbn [bind].
    destruct (combine_total x (PM (- pc y)%Qc (pn y) (pp y)) p (- q)%Qc) as (r & ->); [eapply pm_nf_safe; eauto|apply negate_val; eapply pm_nf_safe; eauto|]. cbn [bind]. eauto.
  Qed.
  Lemma const_safe c q : safe (EConst c) q -> const_num c = Ok q.
  Proof.
    intros S. inversion S as [? ? _ (a & A & N)| |]; subst. injection A as <-. destruct c as [[[x| | |]| | |]| |]; try discriminate N. injection N as ->. reflexivity.
  Qed.
  Lemma minus_total a q : safe a q -> exists e, minus a = Ok e.
  Proof.
    intros S. assert (G : exists e, (do p <- pm_negate a; Ok (pm_simplify p)) = Ok e).
    { unfold pm_negate. destruct (pm_nf_total a q S) as (y & ->). cbn [bind]. eauto. }
    destruct a; try exact G. unfold minus. rewrite (const_safe _ _ S). cbn [bind]. eauto.
  Qed.
  Lemma fold_total o x y p q : safe (EConst x) p -> safe (EConst y) q -> (o = ODiv -> q <> qc0) ->
    match o with OAdd | OSub | OMul | ODiv => True | _ => False end -> exists e, fold_const o x y = Ok e.
  Proof.
    intros X Y Z K. apply const_safe in X. apply const_safe in Y. unfold fold_const. rewrite X, Y. cbn [bind].
    destruct o; try destruct K; eauto. destruct (inv_total q) as (r & ->); [auto|]. cbn [bind]. eauto.
  Qed.

  (** ** Constants *)
  Lemma literal_const s : literal s = true -> forall rel e, parse rel s = Ok e -> exists c, e = EConst (KS c).
  Proof.
    induction s as [c|l IH|s|l r IHl IHr|a IH|l IH|l IH|a IH|a IH|o a b IHa IHb|f l IH] using src_ind'; intros L rel e P; try discriminate L.
    - injection P as <-. eauto.
    - cbn [Expr.parse] in P. apply bind_ok_iff in P as (x & X & P). destruct (IH L _ _ X) as (c & ->). cbn [minus] in P.
      apply bind_ok_iff in P as (q & Q & P). injection P as <-. unfold k_num. eauto.
    - cbn [Expr.parse] in P. eauto.
    - cbn [literal] in L. apply andb_true_iff in L as (L1 & L2). cbn [Expr.parse] in P.
      apply bind_ok_iff in P as (x & X & P). apply bind_ok_iff in P as (y & Y & P).
      destruct (IHa L1 _ _ X) as (c & ->). destruct (IHb L2 _ _ Y) as (d & ->). cbn [binary] in P. unfold fold_const in P.
      destruct o; try discriminate P; apply bind_ok_iff in P as (p & _ & P); apply bind_ok_iff in P as (q & _ & P).
      + injection P as <-. unfold k_num. eauto.
      + injection P as <-. unfold k_num. eauto.
      + injection P as <-. unfold k_num. eauto.
      + apply bind_ok_iff in P as (i & _ & P). injection P as <-. unfold k_num. eauto.
  Qed.

  (** ** Logic *)
  Definition truthy (e : expr) : Prop := match e with EName _ => True | _ => bool_shape e = true end.
  Lemma or_nf_total e : truthy e -> exists o, or_nf e = Ok o.
  Proof. destruct e; cbn; intros H; try discriminate H; eauto. Qed.
  Lemma or_nfs_total l : Forall truthy l -> exists os, mapM or_nf l = Ok os /\ (l <> [] -> os <> []).
  Proof.
    induction 1 as [|e l H F (os & IH & _)]; [exists []; auto|]. destruct (or_nf_total e H) as (o & O). cbn [mapM]. rewrite O. cbn [bind]. rewrite IH. cbn [bind].
    exists (o :: os). split; [reflexivity|congruence].
  Qed.
  Lemma and_all_total l : Forall truthy l -> l <> [] -> exists e, and_all srt l = Ok e.
  Proof.
    intros F N. destruct (or_nfs_total l F) as (os & E & N'). unfold and_all. rewrite E. cbn [bind]. specialize (N' N).
    destruct os as [|o os]; [congruence|]. cbn [reduce1 bind]. eauto.
  Qed.
  Lemma or_all_total l : Forall truthy l -> l <> [] -> exists e, or_all srt l = Ok e.
  Proof.
    intros F N. destruct (or_nfs_total l F) as (os & E & N'). unfold or_all. rewrite E. cbn [bind]. specialize (N' N).
    destruct os as [|o os]; [congruence|]. cbn [reduce1 bind]. eauto.
  Qed.
  Lemma negate_lits_total l bs : Forall2 (lit_ok user field) l bs -> exists m, mapM negate_lit l = Ok m.
  Proof.
    induction 1 as [|e b l bs (C & _) F (m & IH)]; [exists []; reflexivity|]. cbn [mapM].
    assert (exists x, negate_lit e = Ok x) as (x & ->) by (destruct e; try destruct C; [eexists; reflexivity|destruct c; eexists; reflexivity]).
    cbn [bind]. rewrite IH. cbn [bind]. eauto.
  Qed.
  Lemma negation_total e b : truthy e -> logic e b -> exists r, negation srt e = Ok r.
  Proof.
    intros T L. assert (G : exists r, (do o <- or_negate srt e; Ok (or_simplify o)) = Ok r).
    { destruct (or_nf_total e T) as (o & O). destruct (or_nf_ok _ _ _ _ _ L O) as (bs & _ & D & _).
      unfold or_negate. rewrite O. cbn [bind].
      assert (exists u, mapM (fun a => mapM negate_lit (and_args a)) o = Ok u) as (u & ->).
      { clear O L. induction D as [|x c o bs (l & cs & -> & _ & F & _) D (u & IH)]; [exists []; reflexivity|]. cbn [mapM and_args].
        destruct (negate_lits_total l cs F) as (m & ->). cbn [bind]. rewrite IH. cbn [bind]. eauto. }
      cbn [bind]. eauto. }
    destruct e; try exact G. unfold negation. eauto.
  Qed.
  Lemma relation_total o l r a b v : means a l -> means b r -> compare o a b = Ok v -> exists e, relation srt o l r = Ok e.
  Proof.
    intros _ ((r' & D & S) & _) C.
    assert (P2 : forall k, exists e, match srt [l; r] with [a; b] => Ok (ERel k a b) | _ => Err AssertionError end = Ok e).
    { intros k. pose proof (Permutation_length (srt_perm [l; r])) as L. destruct (srt [l; r]) as [|x [|y [|z m]]]; try discriminate L. eauto. }
    assert (IN : forall k, (match b with AC (KSet _) => True | _ => False end) -> exists e, match r with EConst (KSet _) => Ok (ERel k l r) | _ => Err ExpressionError end = Ok e).
    { intros k K. destruct b as [[s|m|t]|x]; try destruct K.
      assert (exists m', r' = AC (KSet m')) as (m' & ->).
      { destruct S as [<-|[(w & W & _)|(m1 & m2 & _ & -> & _)]]; eauto. discriminate W. }
      clear C S P2. destruct r; cbn [ExprSpec.denote] in D;
        try (injection D as ->; eauto; fail);
        repeat (match type of D with bind _ _ = _ => apply bind_ok_iff in D as (? & _ & D) | rmap _ _ = _ => apply rmap_ok_iff in D as (? & _ & D) end); discriminate D. }
    destruct o; cbn [relation]; eauto.
    - apply IN. unfold compare in C. destruct b as [[| |]|]; try discriminate C. exact I.
    - apply IN. unfold compare in C. destruct b as [[| |]|]; try discriminate C. exact I.
  Qed.
  Lemma chain_total bs es : Forall2 (fun x y => fst x = fst y /\ means (snd x) (snd y)) bs es -> forall a e b,
    means a e -> compare_chain a bs = Ok b -> exists rs, chain srt e es = Ok rs /\ List.length rs = List.length es.
  Proof.
    induction 1 as [|[o v] [o' e'] bs es (E & M') F IH]; intros a e b M C.
    - exists []. split; reflexivity.
    - cbn [fst snd] in *. subst o'. cbn [compare_chain] in C. apply bind_ok_iff in C as (c & C1 & C). apply bind_ok_iff in C as (d & C2 & _).
      destruct (relation_total o e e' a v c M M' C1) as (z & Z). destruct (IH v e' d M' C2) as (zs & Zs & L').
      exists (z :: zs). cbn [chain]. rewrite Z. cbn [bind]. rewrite Zs. cbn [bind List.length]. split; [reflexivity|congruence].
  Qed.
  Lemma chain_shape es : forall e rs, chain srt e es = Ok rs -> Forall truthy rs.
  Proof.
    induction es as [|[o y] es IH]; intros e rs H; cbn [chain] in H; [injection H as <-; constructor|].
    apply bind_ok_iff in H as (z & Z & H). apply bind_ok_iff in H as (zs & Zs & H). injection H as <-. constructor; [|eauto].
    unfold relation in Z. destruct o; try (injection Z as <-; reflexivity).
    - destruct (srt [e; y]) as [|? [|? [|]]]; try discriminate Z. injection Z as <-. reflexivity.
    - destruct (srt [e; y]) as [|? [|? [|]]]; try discriminate Z. injection Z as <-. reflexivity.
    - destruct y as [[| |]| | | | | | | |]; try discriminate Z. injection Z as <-. reflexivity.
    - destruct y as [[| |]| | | | | | | |]; try discriminate Z. injection Z as <-. reflexivity.
  Qed.
  Lemma chain_bool es : forall e rs x, chain srt e es = Ok rs -> In x rs -> bool_shape x = true.
  Proof.
    intros e rs x H I. pose proof (proj1 (Forall_forall _ _) (chain_shape es e rs H) x I) as T. destruct x; try exact T.
    exfalso. revert e rs H I. induction es as [|[o y] es IH]; intros e rs H I; cbn [chain] in H; [injection H as <-; destruct I|].
    apply bind_ok_iff in H as (z & Z & H). apply bind_ok_iff in H as (zs & Zs & H). injection H as <-. destruct I as [->|I]; [|eauto].
    unfold relation in Z. destruct o; try discriminate Z.
    - destruct (srt [e; y]) as [|? [|? [|]]]; discriminate Z.
    - destruct (srt [e; y]) as [|? [|? [|]]]; discriminate Z.
    - destruct y as [[| |]| | | | | | | |]; discriminate Z.
    - destruct y as [[| |]| | | | | | | |]; discriminate Z.
  Qed.
End Accept.

Section Varies.
  Variable user : string -> list arg -> res val.
  Hypothesis Hb : broadcasts user.
  Hypothesis Hp : powers user.
  Variable srt : list expr -> list expr.
  Hypothesis srt_perm : forall l, Permutation l (srt l).
  Notation parse := (parse srt (fun _ => None)).

  Lemma same_arg_sym a b : same_arg a b -> same_arg b a.
  Proof.
    intros [->|[(v & H1 & H2)|(l & m & -> & -> & H)]]; [left; auto|right; left; eauto|right; right; exists m, l].
    repeat split; auto; apply H.
  Qed.
  Lemma same_arg_trans a b c : same_arg a b -> same_arg b c -> same_arg a c.
  Proof.
    intros [->|[(v & H1 & H2)|(l & m & -> & -> & H)]]; auto; intros [<-|[(w & K1 & K2)|(l' & m' & E & -> & K)]].
    - right; left; eauto.
    - right; left. exists v. split; auto. congruence.
    - subst. discriminate H2.
    - right; right; exists l, m; auto.
    - discriminate K1.
    - injection E as <-. right; right; exists l, m'. repeat split; auto; intros I; [apply K, H, I|apply H, K, I].
  Qed.
  (** What varies is not folded to a constant. *)
  Lemma varies_const s rel c : plain s -> varies user s -> parse rel s = Ok (EConst c) -> False.
  Proof.
    intros P (f1 & f2 & v1 & v2 & T1 & T2 & S1 & S2 & N) E. apply N.
    assert (K : forall f v, tame user f s -> seval user f s = Ok v -> same_arg v (AC c)).
    { intros f v T S. pose proof (plain_good srt srt_perm user f s P T) as G.
      destruct (parse_keeps user Hb Hp f srt srt_perm s G rel v _ S E) as ((v' & D & A) & _). injection D as <-. exact A. }
    exact (same_arg_trans _ _ _ (K f1 v1 T1 S1) (same_arg_sym _ _ (K f2 v2 T2 S2))).
  Qed.
End Varies.

Section Main.
  Variable user : string -> list arg -> res val.
  Hypothesis Hb : broadcasts user.
  Hypothesis Hp : powers user.
  Variable field : string -> res val.
  Variable srt : list expr -> list expr.
  Hypothesis srt_perm : forall l, Permutation l (srt l).
  Notation seval := (seval user field).
  Notation safe := (safe user field).
  Notation parse := (parse srt (fun _ => None)).
  Notation means := (means user field).
  Notation tame := (tame user field).
  Notation accept := (accept user).

  (** A name stays a name, other logic is a predicate, a comparison, an and or an or. *)
  Definition shaped (s : src) (e : expr) : Prop := match s with XName _ => truthy e | _ => bool_shape e = true end.
  Definition taken (s : src) : Prop :=
    forall rel v, plain s -> tame s -> seval s = Ok v -> accept rel s ->
      exists e, parse rel s = Ok e /\ means v e /\ (logical s = true -> shaped s e).
  Lemma shaped_truthy s e : shaped s e -> truthy e.
  Proof. unfold shaped. destruct s; auto; destruct e; cbn; intros H; try discriminate H; auto. Qed.

  Fixpoint all_plain (l : list src) : Prop := match l with [] => True | a :: l => plain a /\ all_plain l end.
  Fixpoint all_tame (l : list src) : Prop := match l with [] => True | a :: l => tame a /\ all_tame l end.
  Fixpoint all_accept (b : bool) (l : list src) : Prop := match l with [] => True | a :: l => accept b a /\ all_accept b l end.

  Lemma many_taken rel l : Forall taken l -> all_plain l -> all_tame l -> all_accept rel l ->
    forall vs, mapM seval l = Ok vs -> exists es, mapM (parse rel) l = Ok es /\ Forall2 means vs es
      /\ (forallb logical l = true -> Forall truthy es) /\ (l <> [] -> es <> []).
  Proof.
    induction 1 as [|s l K F IH]; intros P T A vs V; cbn [mapM] in V.
    - injection V as <-. exists []. repeat split; auto.
    - apply bind_ok_iff in V as (v & V1 & V). apply bind_ok_iff in V as (vs' & V2 & V). injection V as <-.
      destruct P as (P1 & P2), T as (T1 & T2), A as (A1 & A2).
      destruct (K rel v P1 T1 V1 A1) as (e & E & M & B). destruct (IH P2 T2 A2 vs' V2) as (es & Es & Ms & Bs & _).
      exists (e :: es). cbn [mapM]. rewrite E. cbn [bind]. rewrite Es. cbn [bind]. split; [reflexivity|]. split; [auto|]. split; [|congruence].
      cbn [forallb]. intros L. apply andb_true_iff in L as (L1 & L2). constructor; auto. eapply shaped_truthy; eauto.
  Qed.

  Lemma cmps_taken r : Forall taken (map snd r) -> forall bs,
    (fix go (l : list (cmpop * src)) : Prop := match l with [] => True | (_, a) :: l => plain a /\ go l end) r ->
    (fix go (l : list (cmpop * src)) : Prop := match l with [] => True | (_, a) :: l => (tame a /\ no_nan user field a) /\ go l end) r ->
    (fix go (l : list (cmpop * src)) : Prop := match l with [] => True | (_, a) :: l => accept false a /\ go l end) r ->
    mapM (fun p => do v <- seval (snd p); Ok (fst p, v)) r = Ok bs ->
    exists es, mapM (fun p => do v <- parse false (snd p); Ok (fst p, v)) r = Ok es
      /\ Forall2 (fun x y => fst x = fst y /\ means (snd x) (snd y)) bs es /\ List.length es = List.length r.
  Proof.
    induction r as [|[o s] r IH]; intros K bs P T A V; cbn [mapM map fst snd] in *.
    - injection V as <-. exists []. repeat split; auto.
    - inversion K as [|? ? K1 K2]; subst.
      apply bind_ok_iff in V as (x & X & V). apply bind_ok_iff in V as (bs' & V2 & V). injection V as <-.
      apply bind_ok_iff in X as (v & V1 & X). injection X as <-.
      destruct P as (P1 & P2), T as ((T1 & _) & T2), A as (A1 & A2).
      destruct (K1 false v P1 T1 V1 A1) as (e & E & M & _). destruct (IH K2 bs' P2 T2 A2 V2) as (es & Es & Ms & L).
      exists ((o, e) :: es). rewrite E. cbn [bind]. rewrite Es. cbn [bind]. split; [reflexivity|]. split; [auto|]. cbn [List.length]. congruence.
  Qed.

  Lemma consts_total l : forall es, forallb literal l = true -> mapM (parse false) l = Ok es -> exists ss, mapM const_scal es = Ok ss.
  Proof.
    induction l as [|s l IH]; intros es L E; cbn [mapM] in E.
    - injection E as <-. exists []. reflexivity.
    - cbn [forallb] in L. apply andb_true_iff in L as (L1 & L2).
      apply bind_ok_iff in E as (e & E1 & E). apply bind_ok_iff in E as (es' & E2 & E). injection E as <-.
      destruct (literal_const srt s L1 false e E1) as (c & ->). destruct (IH es' L2 E2) as (ss & S). exists (c :: ss). cbn [mapM const_scal bind]. rewrite S. reflexivity.
  Qed.

  Lemma value_fun s sv q : seval s = Ok sv -> value_at user field s q -> arg_num sv = Ok (Fin q).
  Proof. intros E (a & E' & N). congruence. Qed.

  Lemma binary_total o a b x y v ea eb : plain (XBin o a b) -> tame (XBin o a b) -> accept false (XBin o a b) ->
    seval a = Ok x -> seval b = Ok y -> parse false a = Ok ea -> parse false b = Ok eb -> means x ea -> means y eb ->
    operate user o x y = Ok v -> exists e, binary srt o ea eb = Ok e.
  Proof.
    intros HP HT HA Sa Sb Pa Pb Ma Mb Hv.
    pose proof (plain_good srt srt_perm user field _ HP HT) as G. inversion G as [| | | | | | | | |? ? ? Ga Gb HO|]; subst.
    cbn [ExprGood.plain] in HP. cbn [ExprAcceptSpec.accept] in HA. destruct HP as (HPa & HPb & HP). destruct HA as (_ & _ & HA).
    destruct (is_econst ea && is_econst eb) eqn:BC.
    { apply andb_true_iff in BC as (C1 & C2). destruct ea as [cx| | | | | | | |]; try discriminate C1. destruct eb as [cy| | | | | | | |]; try discriminate C2.
      cbn [binary]. destruct Ma as (_ & Na & _). destruct Mb as (_ & Nb & _).
      assert (V : varies user a \/ varies user b -> exists e, fold_const o cx cy = Ok e).
      { intros [V|V]; exfalso; [eapply (varies_const user Hb Hp srt srt_perm a); eauto|eapply (varies_const user Hb Hp srt srt_perm b); eauto]. }
      destruct o; try (apply V; exact HA); try (destruct HA; fail); cbn [bin_ok] in HO.
      - destruct HO as ((p & Vp) & (q & Vq)). eapply fold_total; [apply Na; eapply value_fun; eauto|apply Nb; eapply value_fun; eauto|discriminate|exact I].
      - destruct HO as ((p & Vp) & (q & Vq)). eapply fold_total; [apply Na; eapply value_fun; eauto|apply Nb; eapply value_fun; eauto|discriminate|exact I].
      - destruct HO as ((p & Vp) & (q & Vq) & _). eapply fold_total; [apply Na; eapply value_fun; eauto|apply Nb; eapply value_fun; eauto|discriminate|exact I].
      - destruct HO as ((p & Vp) & (q & Vq & Z) & _). eapply fold_total; [apply Na; eapply value_fun; eauto|apply Nb; eapply value_fun; eauto|intros _; exact Z|exact I]. }
    assert (R : exists e, match o with
        | OAdd => combine_simplify srt ea eb
        | OSub => subtract_simplify srt ea eb
        | OMul => distribute_simplify srt ea eb
        | ODiv => do r <- reciprocal eb; distribute_simplify srt ea r
        | OPow =>
            match eb with
            | EConst c =>
                do q <- const_num c;
                match small_exponent q with
                | Some (true, n) => power srt n ea
                | Some (false, n) => neg_power srt n ea
                | None => Ok (ECall true "pow"%string [ea; eb])
                end
            | _ => Ok (ECall true "pow"%string [ea; eb])
            end
        | OFloorDiv => Ok (ECall true "numpy.floor_divide"%string [ea; eb])
        | OMod => Ok (ECall true "fmod"%string [ea; eb])
        | OXor => Ok (ECall true "xor"%string [ea; eb])
        | OBitAnd | OBitOr => Err NotImplementedError
        end = Ok e).
    { pose proof Ma as (_ & Na & _). pose proof Mb as (_ & Nb & _).
      destruct o; try (destruct HA; fail); try (eexists; reflexivity); cbn [bin_ok] in HO.
      - destruct HO as ((p & Vp) & (q & Vq)). eapply combine_simplify_total; eauto using value_fun.
      - destruct HO as ((p & Vp) & (q & Vq)). eapply subtract_simplify_total; eauto using value_fun.
      - destruct HO as ((p & Vp) & (q & Vq) & PO). eapply product_total; eauto using value_fun.
      - destruct HO as ((p & Vp) & (q & Vq & Z) & PO).
        assert (S : safe eb q) by eauto using value_fun. destruct (reciprocal_total user field eb q S Z) as (r & R). rewrite R. cbn [bind].
        eapply product_total; [exact srt_perm|apply Na; eapply value_fun; eauto|eapply reciprocal_val; eauto|eauto].
      - destruct eb as [c| | | | | | | |]; try (eexists; reflexivity).
        assert (exists q, const_num c = Ok q) as (q & Q).
        { destruct b as [[[z| | |]| | |]| |s| | | | |b'| | |]; try destruct HP.
          - injection Pb as <-. eexists. reflexivity.
          - discriminate Pb.
          - destruct b' as [[[z| | |]| | |]| | | | | | | | | |]; try destruct HP. cbn in Pb. injection Pb as <-. eexists. reflexivity. }
        rewrite Q. cbn [bind]. specialize (HO c q Pb Q). destruct (small_exponent q) as [[[|] n]|]; [| |eauto].
        + destruct HO as (p & Vp). eapply power_total; eauto using value_fun.
        + destruct HO as (p & Vp & Z). eapply neg_power_total; eauto using value_fun. }
    destruct ea; try exact R. destruct eb; try exact R. discriminate BC.
  Qed.

  Theorem parse_accepts : forall s, taken s.
  Proof.
    assert (FIN : forall s rel v, plain s -> tame s -> seval s = Ok v -> (exists e, parse rel s = Ok e /\ (logical s = true -> shaped s e)) ->
              exists e, parse rel s = Ok e /\ means v e /\ (logical s = true -> shaped s e)).
    { intros s rel v P T S (e & E & B). exists e. split; [exact E|]. split; [|exact B].
      exact (parse_keeps user Hb Hp field srt srt_perm s (plain_good srt srt_perm user field s P T) rel v e S E). }
    induction s as [c|l IH|s|l r IHl IHr|a IH|l IH|l IH|a IH|a IH|o a b IHa IHb|f l IH] using src_ind'; intros rel v P T S A; apply FIN; auto.
    - cbn. eexists. split; [reflexivity|discriminate].
    - cbn [ExprSpec.seval] in S. rewrite seval_many in S. apply bind_ok_iff in S as (vs & Vs & S). destruct A as (L & A).
      destruct (many_taken false l IH P T A vs Vs) as (es & Es & _). destruct (consts_total l es L Es) as (ss & Ss).
      exists (EConst (scal_set ss)). split; [|discriminate]. cbn [Expr.parse]. rewrite parse_list_eq, Es. cbn [bind]. rewrite Ss. reflexivity.
    - cbn. eexists. split; [reflexivity|]. intros _. exact I.
    - pose proof (plain_good srt srt_perm user field _ P T) as G. inversion G as [| | |? ? G1 G2 G3 G4| | | | | | |]; subst.
      cbn [ExprSpec.seval] in S. rewrite cmp_list_seval in S. apply bind_ok_iff in S as (x & X & S). apply bind_ok_iff in S as (bs & Bs & S). apply bind_ok_iff in S as (b & B & _).
      destruct P as (P1 & P2), T as (T1 & _ & T2), A as (-> & N & A1 & A2).
      destruct (IHl false x P1 T1 X A1) as (e & E & M & _). destruct (cmps_taken r IHr bs P2 T2 A2 Bs) as (es & Es & Ms & L).
      destruct (chain_total user field srt srt_perm bs es Ms x e b M B) as (rs & Rs & L').
      pose proof (chain_shape srt es e rs Rs) as SH.
      assert (Pe : parse true (XCmp l r) = match rs with [] => Err ExpressionError | [r] => Ok r | _ => and_all srt rs end).
      { cbn [Expr.parse]. rewrite E. cbn [bind]. rewrite cmp_list_parse, Es. cbn [bind]. rewrite Rs. reflexivity. }
      rewrite Pe. destruct rs as [|z [|z' rs]].
      + destruct r; [congruence|]. rewrite L in L'. discriminate L'.
      + exists z. split; [reflexivity|]. intros _. cbn [shaped]. eapply chain_bool; eauto. left. reflexivity.
      + destruct (and_all_total srt (z :: z' :: rs) SH) as (w & W); [discriminate|]. exists w. split; [exact W|]. intros _.
        assert (CK : exists cs, Forall2 (lit_ok user field) (z :: z' :: rs) cs /\ b = forallb bid cs).
        { refine (chain_keep user field srt srt_perm r _ G3 G4 bs es x e _ b Bs Es M (G2 _ X) B Rs).
          apply Forall_forall. intros s _. exact (parse_keeps user Hb Hp field srt srt_perm s). }
        destruct CK as (cs & Cs & _). destruct (and_all_ok user field srt srt_perm (z :: z' :: rs) cs w) as (_ & _ & SB); [|exact W|exact SB].
        clear - Cs. induction Cs; constructor; auto. eapply proj1, proj2, lit_logic; eauto.
    - cbn [ExprSpec.seval] in S. apply bind_ok_iff in S as (w & W & S). apply bind_ok_iff in S as (b & B & _). destruct A as (-> & L & A).
      destruct (IH true w P T W A) as (e & E & M & TR). pose proof (proj2 (proj2 M) b B) as LG.
      destruct (negation_total user field srt e b (shaped_truthy _ _ (TR L)) LG) as (r & R). exists r. cbn [Expr.parse]. rewrite E. cbn [bind]. split; [exact R|].
      intros _. destruct (negation_ok user field srt srt_perm e b r LG R) as (_ & _ & SB). exact SB.
    - cbn [ExprSpec.seval] in S. rewrite seval_many in S. apply bind_ok_iff in S as (vs & Vs & S). apply bind_ok_iff in S as (bs & Bs & _).
      destruct A as (-> & N & L & A). destruct (many_taken true l IH P T A vs Vs) as (es & Es & Ms & TR & Ne).
      destruct (and_all_total srt es (TR L) (Ne N)) as (w & W). exists w. cbn [Expr.parse]. rewrite parse_list_eq, Es. cbn [bind]. split; [exact W|].
      intros _. destruct (and_all_ok user field srt srt_perm es bs w (truths_logic user field vs es bs Ms Bs) W) as (_ & _ & SB). exact SB.
    - cbn [ExprSpec.seval] in S. rewrite seval_many in S. apply bind_ok_iff in S as (vs & Vs & S). apply bind_ok_iff in S as (bs & Bs & _).
      destruct A as (-> & N & L & A). destruct (many_taken true l IH P T A vs Vs) as (es & Es & Ms & TR & Ne).
      destruct (or_all_total srt es (TR L) (Ne N)) as (w & W). exists w. cbn [Expr.parse]. rewrite parse_list_eq, Es. cbn [bind]. split; [exact W|].
      intros _. destruct (or_all_ok user field srt srt_perm es bs w (truths_logic user field vs es bs Ms Bs) W) as (_ & _ & SB). exact SB.
    - cbn [ExprSpec.seval] in S. apply bind_ok_iff in S as (w & W & S). destruct T as (T & (q & Vq)).
      destruct (IH false w P T W A) as (e & E & (_ & M & _) & _). cbn [Expr.parse]. rewrite E. cbn [bind].
      destruct (minus_total user field e q) as (r & R); [apply M; eapply value_fun; eauto|]. exists r. split; [exact R|discriminate].
    - cbn [ExprSpec.seval] in S. destruct (IH false v P T S A) as (e & E & _). exists e. split; [exact E|discriminate].
    - pose proof S as S0. cbn [ExprSpec.seval] in S. apply bind_ok_iff in S as (x & X & S). apply bind_ok_iff in S as (y & Y & S). apply rmap_ok_iff in S as (w & W & _).
      pose proof P as (P1 & P2 & _). pose proof T as (T1 & T2 & _). pose proof A as (A1 & A2 & _).
      destruct (IHa false x P1 T1 X A1) as (ea & Ea & Ma & _). destruct (IHb false y P2 T2 Y A2) as (eb & Eb & Mb & _).
      destruct (binary_total o a b x y w ea eb P T A X Y Ea Eb Ma Mb W) as (r & R).
      exists r. split; [|discriminate]. cbn [Expr.parse]. rewrite Ea. cbn [bind]. rewrite Eb. cbn [bind]. exact R.
    - cbn [ExprSpec.seval] in S. rewrite seval_many in S. apply bind_ok_iff in S as (vs & Vs & S).
      destruct l as [|a l].
      + eexists. split; [reflexivity|discriminate].
      + cbn [mapM] in Vs. apply bind_ok_iff in Vs as (x & X & Vs). apply bind_ok_iff in Vs as (xs & Xs & _).
        inversion IH as [|? ? K1 K2]; subst. destruct P as (P1 & P2), T as (T1 & T2), A as (A1 & A2).
        destruct (K1 _ x P1 T1 X A1) as (e & E & _). destruct (many_taken false l K2 P2 T2 A2 xs Xs) as (es & Es & _).
        exists (ECall false f (e :: es)). split; [|discriminate]. cbn [Expr.parse]. rewrite parse_args_eq, E. cbn [bind]. replace (match l with [] => Ok [] | a0 :: l0 => do e0 <- parse false a0; do es0 <- mapM (parse false) l0; Ok (e0 :: es0) end) with (mapM (parse false) l) by (destruct l; reflexivity). rewrite Es. reflexivity.
  Qed.
End Main.
