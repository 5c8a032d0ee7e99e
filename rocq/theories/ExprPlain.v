(** The written criterion [plain] implies [good]: proofs for C21 and C22. *)
From Coq Require Import String Permutation.
From Verif Require Import Num NumFacts Base Tree Elem Order Expr ExprSpec ExprGood ExprFacts ExprLower ExprAlg ExprLogic ExprMain.
Open Scope string_scope.
Local Open Scope list_scope.

(** The marks of a factor. *)
Fixpoint marks (e : expr) : list string :=
  let term_marks t := match t with T _ p n => flat_map marks p ++ flat_map marks n end in
  match e with
  | EName s | EPred s _ => [s]
  | ECall _ f _ => [mark f]
  | EPM _ p n => flat_map term_marks p ++ flat_map term_marks n
  | ETD t => term_marks t
  | _ => []
  end.
Definition tmarks (t : term) : list string := flat_map marks (tp t) ++ flat_map marks (tn t).

Section Plain.
  Variable srt : list expr -> list expr.
  Hypothesis srt_perm : forall l, Permutation l (srt l).
  Notation parse := (parse srt (fun _ => None)).

  Definition is_pm (e : expr) : bool := match e with EPM _ _ _ => true | _ => false end.
  Definition factor_ok (N : list string) (x : expr) : Prop :=
    marks x <> [] /\ incl (marks x) N /\ (match x with ETD _ | EConst _ => False | _ => True end).
  Record term_ok (N D : list string) (t : term) : Prop := {
    to_p : Forall (factor_ok N) (tp t);
    to_n : Forall (factor_ok D) (tn t);
    to_two : existsb is_pm (tp t) = true -> 2 <= length (tp t);
    to_dis : disjoint t;
    to_ne : is_nil (tp t) && is_nil (tn t) = false }.
  Notation terms_ok N D := (Forall (term_ok N D)).
  Definition pm_ok (z : bool) (N D : list string) (p : pm) : Prop :=
    (z = false -> pc p = qc0) /\ terms_ok N D (pp p) /\ terms_ok N D (pn p).
  Definition inv (z : bool) (N D : list string) (e : expr) : Prop := forall p, pm_nf e = Ok p -> pm_ok z N D p.

  Lemma factor_ok_incl N N' x : incl N N' -> factor_ok N x -> factor_ok N' x.
  Proof. intros H (A & B & C). repeat split; auto. eapply incl_tran; eauto. Qed.
  Lemma term_ok_incl N D N' D' t : incl N N' -> incl D D' -> term_ok N D t -> term_ok N' D' t.
  Proof.
    intros H1 H2 [A B C E F]. split; auto; (eapply Forall_impl; [|eassumption]); intros x; apply factor_ok_incl; auto.
  Qed.
  Lemma pm_ok_incl (z z' : bool) N D N' D' p : (z' = false -> z = false) -> incl N N' -> incl D D' ->
    pm_ok z N D p -> pm_ok z' N' D' p.
  Proof.
    intros Hz H1 H2 (A & B & C). split; [auto|]. split; (eapply Forall_impl; [|eassumption]); intros t; apply term_ok_incl; auto.
  Qed.
  Lemma perm_existsb {A} (f : A -> bool) l m : Permutation l m -> existsb f l = existsb f m.
  Proof. induction 1; simpl; auto; try congruence. destruct (f x), (f y); auto. Qed.
  Lemma perm_nil {A} (l m : list A) : Permutation l m -> is_nil l = is_nil m.
  Proof. intros P. apply Permutation_length in P. destruct l, m; auto; discriminate. Qed.

  (** ** Collecting *)
  Lemma term_ok_const N D t c : term_ok N D t -> term_ok N D (T c (tp t) (tn t)).
  Proof. intros [A B C E F]. split; auto. Qed.
  Lemma merge_ok N D x terms : term_ok N D x -> terms_ok N D terms -> terms_ok N D (merge x terms).
  Proof.
    intros Hx H. induction H as [|y l Hy Hl IH]; simpl; auto.
    destruct (similar x y); auto. constructor; auto. apply term_ok_const; auto.
  Qed.
  Lemma gather_ok N D sgn l : terms_ok N D l -> forall st st', gather sgn l st = Ok st' ->
    terms_ok N D (snd st) -> fst st' = fst st /\ terms_ok N D (snd st').
  Proof.
    induction 1 as [|x l Hx Hl IH]; intros st st' H Hs; simpl in H.
    - injection H as <-. auto.
    - rewrite (cancel_id _ (to_dis _ _ _ Hx)) in H. cbn [bind] in H. rewrite (to_ne _ _ _ Hx) in H.
      destruct (qeqb (tc x) qc0); [eauto|]. apply IH in H; auto. cbn [snd]. apply merge_ok; auto.
      apply term_ok_const; auto.
  Qed.
  Lemma srt_t_ok N D l : terms_ok N D l -> terms_ok N D (srt_t srt l).
  Proof. intros H. rewrite <- (srt_t_perm srt srt_perm l). auto. Qed.
  Lemma filter_ok {A} (P : A -> Prop) f l : Forall P l -> Forall P (filter f l).
  Proof. rewrite !Forall_forall. intros H x Hx. apply filter_In in Hx as [Hx _]. auto. Qed.
  Lemma collect_ok N D p p' : terms_ok N D (pp p) -> terms_ok N D (pn p) -> collect srt p = Ok p' ->
    pc p' = pc p /\ terms_ok N D (pp p') /\ terms_ok N D (pn p').
  Proof.
    intros H1 H2 H. unfold collect in H. apply bind_ok_iff in H as (s1 & G1 & H). apply bind_ok_iff in H as (s2 & G2 & H).
    injection H as <-. destruct (gather_ok N D _ _ H1 _ _ G1) as [A1 A2]; [constructor|]. destruct (gather_ok N D _ _ H2 _ _ G2 A2) as [B1 B2].
    cbn [pc pp pn fst snd] in *. split; [congruence|]. split; apply srt_t_ok.
    - apply filter_ok, filter_ok; auto.
    - apply Forall_map. eapply Forall_impl; [|apply filter_ok, filter_ok; exact B2]. intros t. apply term_ok_const.
  Qed.

  (** ** Products *)
  Lemma factor_separate N D x y : separate N D -> factor_ok N x -> factor_ok D y -> x <> y.
  Proof.
    intros S (A1 & A2 & _) (B1 & B2 & _) <-. destruct (marks x) as [|m ms] eqn:E; [congruence|].
    apply (S m); [apply A2|apply B2]; left; auto.
  Qed.
  Lemma td_combine_ok N D t u : separate N D -> term_ok N D t -> term_ok N D u -> term_ok N D (td_combine srt t u).
  Proof.
    intros S [A1 A2 A3 A4 A5] [B1 B2 B3 B4 B5].
    assert (P : Forall (factor_ok N) (srt (tp t ++ tp u))) by (rewrite <- (srt_perm (tp t ++ tp u)); apply Forall_app; auto).
    assert (Q : Forall (factor_ok D) (srt (tn t ++ tn u))) by (rewrite <- (srt_perm (tn t ++ tn u)); apply Forall_app; auto).
    split; cbn [tp tn td_combine]; auto.
    - intros H. rewrite <- (perm_existsb _ _ _ (srt_perm _)), existsb_app in H.
      rewrite <- (Permutation_length (srt_perm _)), app_length. apply orb_true_iff in H as [H|H]; [apply A3 in H|apply B3 in H]; lia.
    - intros x Hx Hy. cbn [tp tn td_combine] in Hx, Hy. rewrite Forall_forall in P, Q.
      exact (factor_separate N D x x S (P _ Hx) (Q _ Hy) eq_refl).
    - rewrite <- !(perm_nil _ _ (srt_perm _)). destruct (tp t), (tn t); simpl in *; auto; try discriminate.
      rewrite andb_false_r. auto.
  Qed.
  Lemma td_combine_const_ok N D t c : term_ok N D t ->
    term_ok N D (td_combine srt t (td_const c)) /\ term_ok N D (td_combine srt (td_const c) t).
  Proof.
    intros [A1 A2 A3 A4 A5].
    assert (G : forall k, term_ok N D (T k (srt (tp t)) (srt (tn t)))).
    { intros k. split; cbn [tp tn].
      - rewrite <- (srt_perm (tp t)). auto.
      - rewrite <- (srt_perm (tn t)). auto.
      - rewrite <- (perm_existsb _ _ _ (srt_perm _)), <- (Permutation_length (srt_perm _)). auto.
      - intros x. cbn [tp tn]. rewrite !(srt_In srt srt_perm). apply A4.
      - rewrite <- !(perm_nil _ _ (srt_perm _)). auto. }
    split; unfold td_combine, td_const; cbn [tp tn tc]; rewrite ?app_nil_r; apply G.
  Qed.
  Lemma products_ok N D l m : separate N D -> terms_ok N D l -> terms_ok N D m -> terms_ok N D (products srt l m).
  Proof.
    intros S Hl Hm. apply Forall_forall. intros t Ht. unfold products in Ht. apply in_flat_map in Ht as (x & Hx & Ht).
    apply in_map_iff in Ht as (y & <- & Hy). rewrite Forall_forall in Hl, Hm. apply td_combine_ok; auto.
  Qed.
  Lemma distribute_ok N D a b r : separate N D -> pm_ok true N D a -> pm_ok true N D b ->
    pm_distribute srt a b = Ok r -> pm_ok false N D r.
  Proof.
    intros S (_ & A1 & A2) (_ & B1 & B2) H. unfold pm_distribute in H.
    apply collect_ok with (N := N) (D := D) in H as (C1 & C2 & C3).
    - split; auto.
    - cbn [pp]. repeat (apply Forall_app; split); try (apply products_ok; auto);
        apply Forall_map; (eapply Forall_impl; [|eassumption]); intros t; apply td_combine_const_ok.
    - cbn [pn]. repeat (apply Forall_app; split); try (apply products_ok; auto);
        apply Forall_map; (eapply Forall_impl; [|eassumption]); intros t; apply td_combine_const_ok.
  Qed.
  Lemma product_ok_ok N D za zb a b : separate N D -> inv za N D a -> inv zb N D b -> za && zb = false -> product_ok srt a b.
  Proof.
    intros S Ha Hb Z x y Hx Hy. destruct (Ha _ Hx) as (A0 & A1 & A2). destruct (Hb _ Hy) as (B0 & B1 & B2). split.
    - destruct za; [right; apply B0; exact Z|left; auto].
    - intros t u Ht Hu. apply disjoint_cancels.
      assert (Tt : term_ok N D t) by (apply in_app_iff in Ht as [Ht|Ht]; [rewrite Forall_forall in A1|rewrite Forall_forall in A2]; auto).
      assert (Tu : term_ok N D u) by (apply in_app_iff in Hu as [Hu|Hu]; [rewrite Forall_forall in B1|rewrite Forall_forall in B2]; auto).
      exact (to_dis _ _ _ (td_combine_ok N D t u S Tt Tu)).
  Qed.

  (** ** Simplifying *)
  Lemma pm_nf_atom x p : match x with ETD _ | EConst _ | EPM _ _ _ => False | _ => True end -> pm_nf x = Ok p ->
    p = PM qc0 [T qc1 [x] []] [].
  Proof. intros H E. destruct x; try tauto; vm_compute in E; injection E as <-; reflexivity. Qed.
  Lemma td_simplify_ok N D t : term_ok N D t -> inv false N D (td_simplify t).
  Proof.
    intros H p Hp. unfold td_simplify in Hp. rewrite (to_ne _ _ _ H) in Hp.
    assert (G : pm_nf (ETD t) = Ok p -> pm_ok false N D p).
    { clear Hp. intros Hp. simpl in Hp. rewrite (to_ne _ _ _ H) in Hp. injection Hp as <-.
      destruct (qltb (tc t) qc0); split; auto; cbn [pp pn]; split; auto; constructor; auto. apply term_ok_const; auto. }
    destruct (qeqb (tc t) qc1); auto. destruct (tp t) as [|x [|]] eqn:E1; auto. destruct (tn t) eqn:E2; auto.
    destruct H as [A1 A2 A3 A4 A5]. rewrite E1 in A1, A3. inversion A1 as [|? ? (F1 & F2 & F3) _]; subst.
    assert (NP : is_pm x = false). { destruct (is_pm x) eqn:E; auto. simpl in A3. rewrite E in A3. specialize (A3 eq_refl). lia. }
    apply pm_nf_atom in Hp; [subst p|destruct x; auto; discriminate].
    split; [auto|]. cbn [pp pn]. split; auto. constructor; auto. split; cbn [tp tn]; auto.
    - intros y _ [].
  Qed.
  Lemma pm_simplify_ok z N D p : pm_ok z N D p -> inv z N D (pm_simplify p).
  Proof.
    intros (A0 & A1 & A2) r Hr. unfold pm_simplify in Hr.
    assert (G : pm_nf (pm_expr p) = Ok r -> pm_ok z N D r).
    { intros E. injection E as <-. split; auto. }
    assert (W : forall e, inv false N D e -> pm_nf e = Ok r -> pm_ok z N D r).
    { intros e He E. eapply pm_ok_incl; [| | |apply He; exact E]; auto using incl_refl. }
    destruct (pp p) as [|t l] eqn:E1, (pn p) as [|u m] eqn:E2; cbn [is_nil andb] in Hr.
    - injection Hr as <-. split; auto.
    - destruct (qeqb (pc p) qc0); [|auto]. destruct m; [|auto]. eapply W; [|exact Hr].
      apply td_simplify_ok, term_ok_const. inversion A2; auto.
    - destruct (qeqb (pc p) qc0); [|auto]. destruct l; [|auto]. eapply W; [|exact Hr].
      apply td_simplify_ok. inversion A1; auto.
    - destruct (qeqb (pc p) qc0); [destruct l|]; auto.
  Qed.
  Lemma pm_combine_ok z N D a b r : pm_ok z N D a -> pm_ok z N D b -> pm_combine srt a b = Ok r -> pm_ok z N D r.
  Proof.
    intros (A0 & A1 & A2) (B0 & B1 & B2) H. unfold pm_combine in H.
    apply collect_ok with (N := N) (D := D) in H as (C1 & C2 & C3).
    - split; auto. intros Z. rewrite C1. cbn [pc]. rewrite A0, B0 by auto. reflexivity.
    - cbn [pp]. apply srt_t_ok, Forall_app; auto.
    - cbn [pn]. apply srt_t_ok, Forall_app; auto.
  Qed.

  (** ** Powers and reciprocals *)
  Lemma flat_marks N l : Forall (factor_ok N) l -> incl (flat_map marks l) N.
  Proof.
    intros H x Hx. apply in_flat_map in Hx as (y & Hy & Hx). rewrite Forall_forall in H. apply (H y Hy); auto.
  Qed.
  Lemma flat_marks_ne N l : Forall (factor_ok N) l -> l <> [] -> flat_map marks l <> [].
  Proof.
    intros H Hl. destruct H as [|x l (A & _) _]; [congruence|]. simpl. destruct (marks x); [congruence|]. simpl. congruence.
  Qed.
  Lemma whole_ok z N D p : pm_ok z N D p -> pp p ++ pn p <> [] -> factor_ok (N ++ D) (pm_expr p).
  Proof.
    intros (_ & A1 & A2) Hne.
    assert (E : marks (pm_expr p) = flat_map tmarks (pp p ++ pn p)).
    { rewrite flat_map_app. unfold pm_expr. cbn [marks]. f_equal; apply flat_map_ext; intros [c q n]; reflexivity. }
    assert (A : terms_ok N D (pp p ++ pn p)) by (apply Forall_app; auto).
    split; [|split; [|exact I]]; rewrite E.
    - destruct A as [|t l Ht _]; [congruence|]. simpl. destruct Ht as [B1 B2 _ _ B5]. unfold tmarks.
      destruct (tp t) as [|x l1] eqn:Ep.
      + destruct (tn t) as [|y l2] eqn:En; [discriminate|]. cbn [flat_map app]. pose proof (flat_marks_ne D (y :: l2) B2) as K.
        simpl in K. destruct (marks y ++ flat_map marks l2); [|simpl; congruence]. exfalso. apply K; congruence.
      + pose proof (flat_marks_ne N (x :: l1) B1) as K. destruct (flat_map marks (x :: l1)); [|simpl; congruence].
        exfalso. apply K; congruence.
    - intros s Hs. apply in_flat_map in Hs as (t & Ht & Hs). rewrite Forall_forall in A. destruct (A t Ht) as [B1 B2 _ _ _].
      apply in_app_iff in Hs as [Hs|Hs]; apply in_app_iff; [left; apply (flat_marks N _ B1)|right; apply (flat_marks D _ B2)]; auto.
  Qed.
  Lemma rep_Forall {A} (P : A -> Prop) n l : Forall P l -> Forall P (rep n l).
  Proof. intros H. apply Forall_forall. intros x Hx. rewrite Forall_forall in H. apply H. eapply rep_In; eauto. Qed.
  Lemma rep_length {A} n (l : list A) : length (rep n l) = n * length l.
  Proof. unfold rep. induction n; simpl; auto. rewrite app_length, IHn. auto. Qed.
  Lemma rep_existsb {A} (f : A -> bool) n l : existsb f (rep n l) = true -> existsb f l = true.
  Proof. rewrite !existsb_exists. intros (x & Hx & H). exists x. split; auto. eapply rep_In; eauto. Qed.
  Lemma rep_nil {A} n (l : list A) : 1 <= n -> is_nil (rep n l) = is_nil l.
  Proof. intros H. destruct n; [lia|]. unfold rep. simpl. destruct l; simpl; auto. clear. induction n; auto. Qed.

  (** Only a constant has no terms. *)
  Definition proper (e : expr) : Prop := forall p, pm_nf e = Ok p -> is_econst e = true \/ pp p ++ pn p <> [].
  Lemma td_simplify_proper N D t : term_ok N D t -> proper (td_simplify t).
  Proof.
    intros H p Hp. right. unfold td_simplify in Hp. rewrite (to_ne _ _ _ H) in Hp.
    assert (G : pm_nf (ETD t) = Ok p -> pp p ++ pn p <> []).
    { clear Hp. intros Hp. simpl in Hp. rewrite (to_ne _ _ _ H) in Hp. injection Hp as <-.
      destruct (qltb (tc t) qc0); discriminate. }
    destruct (qeqb (tc t) qc1); auto. destruct (tp t) as [|x [|]] eqn:E1; auto. destruct (tn t) eqn:E2; auto.
    destruct H as [A1 A2 A3 A4 A5]. rewrite E1 in A1, A3. inversion A1 as [|? ? (F1 & F2 & F3) _]; subst.
    assert (NP : is_pm x = false). { destruct (is_pm x) eqn:E; auto. simpl in A3. rewrite E in A3. specialize (A3 eq_refl). lia. }
    apply pm_nf_atom in Hp; [subst p; discriminate|destruct x; auto; discriminate].
  Qed.
  Lemma pm_simplify_proper z N D p : pm_ok z N D p -> proper (pm_simplify p).
  Proof.
    intros (A0 & A1 & A2) r Hr. unfold pm_simplify in *.
    destruct (pp p) as [|t l] eqn:E1, (pn p) as [|u m] eqn:E2; cbn [is_nil andb] in Hr |- *; [left; reflexivity| | |];
      (destruct (qeqb (pc p) qc0); [|right; injection Hr as <-; rewrite E1, E2; discriminate]).
    - destruct m; [|right; injection Hr as <-; rewrite E1, E2; discriminate].
      inversion A2; subst. exact (td_simplify_proper N D _ (term_ok_const N D _ (- tc u)%Qc H1) r Hr).
    - destruct l; [|right; injection Hr as <-; rewrite E1, E2; discriminate].
      inversion A1; subst. exact (td_simplify_proper N D _ H1 r Hr).
    - right. destruct l; injection Hr as <-; rewrite E1, E2; discriminate.
  Qed.

  Lemma power_ok z N D n a e : 2 <= n -> inv z N D a -> proper a -> is_econst a = false -> power srt n a = Ok e ->
    exists p, e = pm_simplify p /\ pm_ok false (N ++ D) D p.
  Proof.
    intros Hn Ha HP HE H. unfold power in H. apply bind_ok_iff in H as (p & P & H). injection H as <-.
    pose proof (Ha _ P) as Hp. eexists. split; [reflexivity|].
    destruct (HP _ P) as [K|NE]; [congruence|].
    assert (T : forall t c, term_ok N D t -> term_ok (N ++ D) D (T c (srt (rep n (tp t))) (srt (rep n (tn t))))).
    { intros t c [B1 B2 B3 B4 B5]. split; cbn [tp tn].
      - rewrite <- (srt_perm _). apply rep_Forall. eapply Forall_impl; [|exact B1]. intros x. apply factor_ok_incl, incl_appl, incl_refl.
      - rewrite <- (srt_perm _). apply rep_Forall; auto.
      - rewrite <- (perm_existsb _ _ _ (srt_perm _)), <- (Permutation_length (srt_perm _)), rep_length.
        intros K. apply rep_existsb in K. apply B3 in K. nia.
      - intros x. cbn [tp tn]. rewrite !(srt_In srt srt_perm). intros K1 K2. apply rep_In in K1. apply rep_In in K2. exact (B4 x K1 K2).
      - rewrite <- !(perm_nil _ _ (srt_perm _)), !rep_nil by lia. auto. }
    assert (W : pm_ok false (N ++ D) D (PM qc0 [Expr.T qc1 (rep n [pm_expr p]) []] [])).
    { split; [auto|]. cbn [pp pn]. split; auto. constructor; auto. split; cbn [tp tn]; auto.
      - apply rep_Forall. constructor; auto. eapply whole_ok; eauto.
      - intros _. rewrite rep_length. simpl. lia.
      - intros x _ [].
      - rewrite rep_nil by lia. reflexivity. }
    destruct Hp as (_ & A1 & A2).
    destruct (qeqb (pc p) qc0); auto.
    destruct (pp p) as [|t [|]], (pn p) as [|u [|]]; auto.
    - inversion A2; subst. destruct (Nat.even n); (split; [auto|]); cbn [pp pn]; split; auto.
    - inversion A1; subst. split; [auto|]. cbn [pp pn]. split; auto.
  Qed.
  Lemma no_den x : factor_ok [] x -> False.
  Proof. intros (A & B & _). destruct (marks x) as [|m l]; [congruence|]. apply (B m). left; auto. Qed.
  Lemma tn_nil N t : term_ok N [] t -> tn t = [].
  Proof. intros [_ B _ _ _]. destruct B; auto. exfalso. eapply no_den; eauto. Qed.
  Lemma term_swap N t c : term_ok N [] t -> term_ok [] N (T c (tn t) (tp t)).
  Proof.
    intros H. pose proof (tn_nil _ _ H) as E. destruct H as [B1 B2 B3 B4 B5]. rewrite E in *. split; cbn [tp tn]; auto.
    - discriminate.
    - intros x [].
    - rewrite andb_comm. auto.
  Qed.
  Lemma neg_power_ok z N n a e : 1 <= n -> inv z N [] a -> proper a -> is_econst a = false -> neg_power srt n a = Ok e ->
    exists p, e = pm_simplify p /\ pm_ok false [] N p.
  Proof.
    intros Hn Ha HP HE H. unfold neg_power in H. apply bind_ok_iff in H as (p & P & H). apply bind_ok_iff in H as (r & R & H). injection H as <-.
    pose proof (Ha _ P) as Hp. exists r. split; [reflexivity|].
    destruct (HP _ P) as [K|NE]; [congruence|].
    assert (T : forall t c, term_ok N [] t -> term_ok [] N (T c (srt (rep n (tn t))) (srt (rep n (tp t))))).
    { intros t c Ht. apply (term_swap _ _ c) in Ht. destruct Ht as [B1 B2 B3 B4 B5]. cbn [tp tn] in *. split; cbn [tp tn].
      - rewrite <- (srt_perm _). apply rep_Forall; auto.
      - rewrite <- (srt_perm _). apply rep_Forall; auto.
      - rewrite <- (perm_existsb _ _ _ (srt_perm _)), <- (Permutation_length (srt_perm _)), rep_length.
        intros K. apply rep_existsb in K. apply B3 in K. nia.
      - intros x. cbn [tp tn]. rewrite !(srt_In srt srt_perm). intros K1 K2. apply rep_In in K1. apply rep_In in K2. exact (B4 x K1 K2).
      - rewrite <- !(perm_nil _ _ (srt_perm _)), !rep_nil by lia. auto. }
    assert (W : Ok (PM qc0 [Expr.T qc1 [] (rep n [pm_expr p])] []) = Ok r -> pm_ok false [] N r).
    { intros E. injection E as <-. split; [auto|]. cbn [pp pn]. split; auto. constructor; auto. split; cbn [tp tn]; auto.
      - apply rep_Forall. constructor; auto. rewrite <- (app_nil_r N). eapply whole_ok; eauto.
      - discriminate.
      - intros x [].
      - rewrite andb_comm, rep_nil by lia. reflexivity. }
    destruct Hp as (_ & A1 & A2).
    destruct (qeqb (pc p) qc0); auto.
    destruct (pp p) as [|t [|]], (pn p) as [|u [|]]; auto.
    - inversion A2; subst. apply bind_ok_iff in R as (c & _ & R). injection R as <-.
      destruct (Nat.even n); (split; [auto|]); cbn [pp pn]; split; auto.
    - inversion A1; subst. apply bind_ok_iff in R as (c & _ & R). injection R as <-. split; [auto|]. cbn [pp pn]. split; auto.
  Qed.
  Lemma reciprocal_ok z N b r : inv z N [] b -> reciprocal b = Ok r -> inv z [] N r.
  Proof.
    intros Hb H. unfold reciprocal in H. apply bind_ok_iff in H as (p & P & H). apply bind_ok_iff in H as (t & Ht & H). injection H as <-.
    pose proof (Hb _ P) as Hp. pose proof Hp as (A0 & A1 & A2).
    assert (TD : forall t, term_ok [] N t -> inv z [] N (ETD t)).
    { clear. intros t H p Hp. simpl in Hp. rewrite (to_ne _ _ _ H) in Hp. injection Hp as <-.
      destruct (qltb (tc t) qc0); split; auto; cbn [pp pn]; split; auto; constructor; auto. apply term_ok_const; auto. }
    assert (NG : forall u c, term_ok N [] u -> (do d <- q_inv c; Ok (T d (tn u) (tp u))) = Ok t -> inv z [] N (ETD t)).
    { intros u c Hu E. apply bind_ok_iff in E as (d & _ & E). injection E as <-. apply TD, term_swap; auto. }
    assert (W : pp p ++ pn p <> [] -> td_negate (T qc1 [pm_expr p] []) = Ok t -> inv z [] N (ETD t)).
    { intros NE E. unfold td_negate in E. apply bind_ok_iff in E as (d & _ & E). injection E as <-. apply TD.
      split; cbn [tp tn]; auto.
      - constructor; auto. rewrite <- (app_nil_r N). eapply whole_ok; eauto.
      - discriminate.
      - intros x []. }
    destruct (pp p) as [|x l] eqn:E1, (pn p) as [|y m] eqn:E2; cbn [is_nil andb] in Ht.
    - apply bind_ok_iff in Ht as (c & C & Ht). injection Ht as <-. apply q_inv_ok in C as [C ->].
      intros q Hq. injection Hq as <-. split; [|cbn [pp pn]; auto]. intros Z. exfalso. auto.
    - destruct (qeqb (pc p) qc0); [|apply W; auto; discriminate]. destruct m; [|apply W; auto; discriminate].
      apply bind_ok_iff in Ht as (u & U & Ht). injection Ht as <-. unfold td_negate in U. apply bind_ok_iff in U as (d & _ & U). injection U as <-.
      cbn [tp tn]. apply TD. apply term_swap. inversion A2; auto.
    - destruct (qeqb (pc p) qc0); [|apply W; auto; discriminate]. destruct l; [|apply W; auto; discriminate].
      inversion A1; subst. eapply NG; eauto.
    - destruct (qeqb (pc p) qc0); [destruct l|]; apply W; auto; discriminate.
  Qed.

  (** ** Parsed expressions *)
  Notation holds s e := (inv (offset s) (numn s) (denn s) e /\ proper e /\ (literal s = true -> is_econst e = true)).

  Lemma atom_ok z x : match x with ETD _ | EConst _ | EPM _ _ _ => False | _ => True end -> marks x <> [] ->
    inv z (marks x) [] x /\ proper x.
  Proof.
    intros H M. split; intros p Hp; apply pm_nf_atom in Hp; auto; subst p.
    - split; auto. cbn [pp pn]. split; auto. constructor; auto. split; cbn [tp tn]; auto.
      + constructor; auto. split; auto. split; [apply incl_refl|destruct x; auto].
      + destruct x; simpl; try discriminate. destruct H.
      + intros y _ [].
    - right. discriminate.
  Qed.
  Lemma const_ok (z : bool) N D q : (z = false -> q = qc0) -> inv z N D (k_num q) /\ proper (k_num q).
  Proof.
    intros H. split; intros p Hp; [|left; reflexivity]. injection Hp as <-. split; cbn [pc pp pn tc]; auto.
  Qed.
  Lemma inv_incl (z z' : bool) N D N' D' e : (z' = false -> z = false) -> incl N N' -> incl D D' -> inv z N D e -> inv z' N' D' e.
  Proof. intros Hz H1 H2 H p Hp. eapply pm_ok_incl; eauto. Qed.
  Lemma simplified_ok z N D p : pm_ok z N D p -> inv z N D (pm_simplify p) /\ proper (pm_simplify p).
  Proof. intros H. split; [apply pm_simplify_ok|eapply pm_simplify_proper]; eauto. Qed.

  Lemma plain_many l : (fix go (l : list src) : Prop := match l with [] => True | a :: l => plain a /\ go l end) l <-> Forall plain l.
  Proof. induction l as [|x l IH]; split; intros H; auto. { destruct H. constructor; tauto. } { inversion H; subst. tauto. } Qed.

  Lemma const_pc c q : const_num c = Ok q -> pm_nf (EConst c) = Ok (PM q [] []).
  Proof. destruct c as [[[x| | |]| | |]| |]; try discriminate. intros E. injection E as ->. reflexivity. Qed.

  Lemma fold_const_ok o a b x y e : plain (XBin o a b) -> holds a (EConst x) -> holds b (EConst y) ->
    fold_const o x y = Ok e -> holds (XBin o a b) e.
  Proof.
    intros (_ & _ & HP) (Ia & _ & _) (Ib & _ & _) H.
    destruct o; simpl in H; try discriminate H;
      apply bind_ok_iff in H as (p & P & H); apply bind_ok_iff in H as (q & Q & H);
      destruct (Ia _ (const_pc _ _ P)) as (A0 & _); destruct (Ib _ (const_pc _ _ Q)) as (B0 & _); cbn [pc] in A0, B0.
    - injection H as <-. cbn [offset numn denn literal]. split; [|split; [|reflexivity]]; apply (const_ok _ (numn a) (denn a)) || idtac.
      + apply const_ok. intros Z. apply orb_false_iff in Z as [Z1 Z2]. rewrite A0, B0 by auto. reflexivity.
      + intros p' _. left. reflexivity.
    - injection H as <-. cbn [offset numn denn literal]. split; [|split; [|reflexivity]].
      + apply const_ok. intros Z. apply orb_false_iff in Z as [Z1 Z2]. rewrite A0, B0 by auto. reflexivity.
      + intros p' _. left. reflexivity.
    - injection H as <-. cbn [offset numn denn literal]. split; [|split; [|reflexivity]].
      + apply const_ok. intros Z. destruct HP as [[L|Z'] _]; [congruence|]. apply andb_false_iff in Z' as [Z'|Z'].
        * rewrite A0 by auto. rewrite qc0_eq. ring.
        * rewrite B0 by auto. rewrite qc0_eq. ring.
      + intros p' _. left. reflexivity.
    - apply bind_ok_iff in H as (i & I & H). injection H as <-. apply q_inv_ok in I as [I ->].
      cbn [offset literal]. split; [|split; [|reflexivity]].
      + apply const_ok. intros Z. destruct HP as [[L|Z'] _]; [congruence|]. apply andb_false_iff in Z' as [Z'|Z'].
        * rewrite A0 by auto. rewrite qc0_eq. ring.
        * exfalso. auto.
      + intros p' _. left. reflexivity.
  Qed.

  Lemma call_ok z op f l : inv z [mark f] [] (ECall op f l) /\ proper (ECall op f l).
  Proof. apply (atom_ok z (ECall op f l)); simpl; auto. discriminate. Qed.
  Lemma separate_denom A B C : separate (A ++ C) (B ++ C) -> C = [].
  Proof. intros S. destruct C as [|m C]; auto. exfalso. apply (S m); apply in_or_app; right; left; auto. Qed.
  Lemma exponent_parsed b y q : match b with XLit (SNum (Fin _)) | XNeg (XLit (SNum (Fin _))) => True | _ => False end ->
    parse false b = Ok (EConst y) -> const_num y = Ok q -> exponent b = small_exponent q.
  Proof.
    intros H P Q. destruct b as [[[x| | |]| | |]| | | | | | |[[[x| | |]| | |]| | | | | | | | | |]| | |]; try tauto.
    - injection P as <-. injection Q as <-. reflexivity.
    - injection P as <-. injection Q as <-. reflexivity.
  Qed.
  Lemma exponent_const b : match b with XLit (SNum (Fin _)) | XNeg (XLit (SNum (Fin _))) => True | _ => False end ->
    forall y, parse false b = Ok y -> exists c, y = EConst c.
  Proof.
    intros H y P. destruct b as [[[x| | |]| | |]| | | | | | |[[[x| | |]| | |]| | | | | | | | | |]| | |]; try tauto;
      injection P as <-; eexists; reflexivity.
  Qed.
  Lemma small_exponent_ge q s n : small_exponent q = Some (s, n) -> 1 <= n.
  Proof.
    unfold small_exponent. repeat (match goal with |- context [if ?b then _ else _] => destruct b end; [intros E; injection E as <- <-; lia|]).
    discriminate.
  Qed.

  Lemma binary_ok o a b x y e : plain (XBin o a b) -> parse false b = Ok y -> holds a x -> holds b y ->
    is_econst x && is_econst y = false -> binary srt o x y = Ok e -> holds (XBin o a b) e.
  Proof.
    intros (_ & _ & HP) PB (Ia & Pa & La) (Ib & Pb & Lb) EC H.
    assert (NL : literal (XBin o a b) = true -> is_econst e = true).
    { intros L. cbn [literal] in L. apply andb_true_iff in L as [L1 L2]. rewrite La, Lb in EC by auto. discriminate. }
    enough (inv (offset (XBin o a b)) (numn (XBin o a b)) (denn (XBin o a b)) e /\ proper e) by tauto.
    assert (EQ : binary srt o x y = match o with
        | OAdd => combine_simplify srt x y
        | OSub => subtract_simplify srt x y
        | OMul => distribute_simplify srt x y
        | ODiv => do r <- reciprocal y; distribute_simplify srt x r
        | OPow =>
            match y with
            | EConst c =>
                do q <- const_num c;
                match small_exponent q with
                | Some (true, n) => power srt n x
                | Some (false, n) => neg_power srt n x
                | None => Ok (ECall true "pow"%string [x; y])
                end
            | _ => Ok (ECall true "pow"%string [x; y])
            end
        | OFloorDiv => Ok (ECall true "numpy.floor_divide"%string [x; y])
        | OMod => Ok (ECall true "fmod"%string [x; y])
        | OXor => Ok (ECall true "xor"%string [x; y])
        | OBitAnd | OBitOr => Err NotImplementedError
        end).
    { destruct x, y; try reflexivity. discriminate. }
    rewrite EQ in H. clear EQ. destruct o.
    - unfold combine_simplify in H. apply bind_ok_iff in H as (p & P & H). apply bind_ok_iff in H as (q & Q & H).
      apply bind_ok_iff in H as (r & R & H). injection H as <-. cbn [offset numn denn]. apply simplified_ok.
      eapply pm_combine_ok; [| |exact R].
      + eapply pm_ok_incl; [| | |exact (Ia _ P)]; [intros Z; apply orb_false_iff in Z; tauto|apply incl_appl, incl_refl..].
      + eapply pm_ok_incl; [| | |exact (Ib _ Q)]; [intros Z; apply orb_false_iff in Z; tauto|apply incl_appr, incl_refl..].
    - unfold subtract_simplify in H. apply bind_ok_iff in H as (p & P & H). apply bind_ok_iff in H as (q & Q & H).
      apply bind_ok_iff in H as (r & R & H). injection H as <-. cbn [offset numn denn]. apply simplified_ok.
      unfold pm_negate in Q. apply bind_ok_iff in Q as (q' & Q & E). injection E as <-.
      eapply pm_combine_ok; [| |exact R].
      + eapply pm_ok_incl; [| | |exact (Ia _ P)]; [intros Z; apply orb_false_iff in Z; tauto|apply incl_appl, incl_refl..].
      + assert (G : pm_ok (offset b) (numn b) (denn b) (PM (- pc q') (pn q') (pp q'))).
        { destruct (Ib _ Q) as (B0 & B1 & B2). split; cbn [pc pp pn]; auto. intros Z. rewrite B0 by auto. reflexivity. }
        eapply pm_ok_incl; [| | |exact G]; [intros Z; apply orb_false_iff in Z; tauto|apply incl_appr, incl_refl..].
    - unfold distribute_simplify in H. apply bind_ok_iff in H as (p & P & H). apply bind_ok_iff in H as (q & Q & H).
      apply bind_ok_iff in H as (r & R & H). injection H as <-. apply simplified_ok. cbn [numn denn].
      destruct HP as [_ S]. apply (pm_ok_incl false _ (numn a ++ numn b) (denn a ++ denn b)); auto using incl_refl.
      eapply distribute_ok; [exact S| | |exact R].
      + eapply pm_ok_incl; [| | |exact (Ia _ P)]; [discriminate|apply incl_appl, incl_refl..].
      + eapply pm_ok_incl; [| | |exact (Ib _ Q)]; [discriminate|apply incl_appr, incl_refl..].
    - apply bind_ok_iff in H as (v & V & H).
      destruct HP as [_ S]. rewrite app_assoc in S. pose proof (separate_denom _ _ _ S) as E.
      cbn [numn denn]. rewrite E in *. rewrite !app_nil_r in *.
      pose proof (reciprocal_ok _ _ _ _ Ib V) as Iv.
      unfold distribute_simplify in H. apply bind_ok_iff in H as (p & P & H). apply bind_ok_iff in H as (q & Q & H).
      apply bind_ok_iff in H as (r & R & H). injection H as <-. apply simplified_ok.
      apply (pm_ok_incl false _ (numn a) (denn a ++ numn b)); auto using incl_refl.
      eapply distribute_ok; [exact S| | |exact R].
      + eapply pm_ok_incl; [| | |exact (Ia _ P)]; [discriminate|apply incl_refl|apply incl_appl, incl_refl].
      + eapply pm_ok_incl; [| | |exact (Iv _ Q)]; [discriminate|intros m []|apply incl_appr, incl_refl].
    - injection H as <-. apply (call_ok _ true "numpy.floor_divide").
    - injection H as <-. apply (call_ok _ true "fmod").
    - cbn [numn denn].
      assert (CB : (match b with XLit (SNum (Fin _)) | XNeg (XLit (SNum (Fin _))) => True | _ => False end
                    /\ match exponent b with Some (true, n) => n <> 1 | Some (false, _) => denn a = [] | None => True end)
                   \/ exists n, b = XName n).
      { destruct b as [[[z| | |]| | |]| |n| | | | |[[[z| | |]| | |]| | | | | | | | | |]| | |]; try tauto. right. eauto. }
      destruct CB as [[C1 C2]|[n ->]].
      + destruct (exponent_const _ C1 _ PB) as [c ->]. apply bind_ok_iff in H as (q & Q & H).
        pose proof (exponent_parsed _ _ _ C1 PB Q) as E. rewrite E in *. rewrite andb_true_r in EC.
        destruct (small_exponent q) as [[[] n]|] eqn:SE.
        * apply small_exponent_ge in SE. destruct (power_ok _ _ _ n x e ltac:(lia) Ia Pa EC H) as (p & -> & Hp).
          apply simplified_ok. eapply pm_ok_incl; [| | |exact Hp]; auto using incl_refl.
        * apply small_exponent_ge in SE. rewrite C2 in Ia. destruct (neg_power_ok _ _ n x e ltac:(lia) Ia Pa EC H) as (p & -> & Hp).
          apply simplified_ok. eapply pm_ok_incl; [| | |exact Hp]; auto using incl_refl.
        * injection H as <-. apply (call_ok _ true "pow").
      + injection PB as <-. injection H as <-. apply (call_ok _ true "pow").
    - injection H as <-. apply (call_ok _ true "xor").
    - discriminate.
    - discriminate.
  Qed.

  Theorem parsed_ok : forall s, plain s -> forall e, parse false s = Ok e -> holds s e.
  Proof.
    induction s as [c|l IH|s|l r IHl IHr|a IH|l IH|l IH|a IH|a IH|o a b IHa IHb|f l IH] using src_ind'; intros HP e H;
      try discriminate H.
    - injection H as <-. split; [|split; [|auto]].
      + intros p Hp. destruct c as [[q| | |]| | |]; try discriminate Hp. injection Hp as <-. split; cbn [pc pp pn tc]; auto.
        cbn [offset]. intros Z. apply negb_false_iff, qeqb_iff in Z. auto.
      + intros p _. left; auto.
    - simpl in H. apply bind_ok_iff in H as (es & _ & H). apply bind_ok_iff in H as (ss & _ & H). injection H as <-.
      split; [|split; [intros p _; left; auto|discriminate]]. intros p Hp. discriminate.
    - injection H as <-. destruct (atom_ok (offset (XName s)) (EName s) I) as [A B]; [discriminate|]. split; [|split; auto].
      exact A.
    - simpl in H. apply bind_ok_iff in H as (x & X & H). destruct (IH HP _ X) as (A & B & C). cbn [offset numn denn literal].
      unfold minus in H.
      assert (G : is_econst x = false -> (do p <- pm_negate x; Ok (pm_simplify p)) = Ok e -> holds a e).
      { intros NE K. apply bind_ok_iff in K as (p & P & K). injection K as <-. unfold pm_negate in P. apply bind_ok_iff in P as (q & Q & P).
        injection P as <-. destruct (A _ Q) as (B0 & B1 & B2).
        destruct (simplified_ok (offset a) (numn a) (denn a) (PM (- pc q) (pn q) (pp q))) as [S1 S2].
        { split; cbn [pc pp pn]; auto. intros Z. rewrite B0 by auto. reflexivity. }
        split; auto. split; auto. intros L. rewrite C in NE by auto. discriminate. }
      destruct x; try (apply G; auto; fail). apply bind_ok_iff in H as (q & Q & H). injection H as <-.
      destruct (A _ (const_pc _ _ Q)) as (A0 & _). cbn [pc] in A0.
      destruct (const_ok (offset a) (numn a) (denn a) (- q)) as [S1 S2].
      { intros Z. rewrite A0 by auto. reflexivity. }
      split; auto.
    - apply (IH HP); auto.
    - pose proof HP as (Ha & Hb & _). simpl in H. apply bind_ok_iff in H as (x & X & H). apply bind_ok_iff in H as (y & Y & H).
      pose proof (IHa Ha _ X) as A. pose proof (IHb Hb _ Y) as B.
      destruct (is_econst x && is_econst y) eqn:EC.
      + destruct x; try discriminate. destruct y; try discriminate. eapply fold_const_ok; eauto.
      + eapply binary_ok; eauto.
    - simpl in H. apply bind_ok_iff in H as (es & _ & H). injection H as <-.
      destruct (call_ok (offset (XCall f l)) false f es) as [A B]. split; auto.
  Qed.

  (** ** The criterion *)
  Variable user : string -> list arg -> res val.
  Variable field : string -> res val.
  Notation good := (good user field srt).
  Notation tame := (tame user field).
  Notation value_at := (value_at user field).

  Lemma value_fun s q r : value_at s q -> value_at s r -> q = r.
  Proof. intros (a & A & B) (b & C & D). congruence. Qed.

  Theorem plain_good : forall s, plain s -> tame s -> good s.
  Proof.
    induction s as [c|l IH|s|l r IHl IHr|a IH|l IH|l IH|a IH|a IH|o a b IHa IHb|f l IH] using src_ind'; intros HP HT.
    - constructor.
    - constructor. simpl in HP, HT. clear -IH HP HT. induction IH; constructor; simpl in HP, HT; tauto.
    - constructor.
    - destruct HP as [P1 P2], HT as (T1 & T2 & T3).
      assert (G : Forall (fun p => good (snd p) /\ no_nan user field (snd p)) r).
      { clear -IHr P2 T3. induction r as [|[o x] r IH]; [constructor|]. cbn [map snd] in IHr. inversion IHr; subst.
        constructor; cbn [snd]; tauto. }
      constructor; auto; apply Forall_map; eapply Forall_impl; [|exact G| |exact G]; cbn; tauto.
    - constructor. auto.
    - constructor. simpl in HP, HT. clear -IH HP HT. induction IH; constructor; simpl in HP, HT; tauto.
    - constructor. simpl in HP, HT. clear -IH HP HT. induction IH; constructor; simpl in HP, HT; tauto.
    - destruct HT. constructor; auto.
    - constructor; auto.
    - pose proof HP as (P1 & P2 & P3). destruct HT as (T1 & T2 & T3). constructor; auto. destruct o; cbn [bin_ok]; auto.
      + destruct T3. split; auto. split; auto. intros x y X Y EC. destruct (parsed_ok _ P1 _ X) as (A & A' & A''), (parsed_ok _ P2 _ Y) as (B & B' & B'').
        destruct P3 as [[L|Z] S].
        { apply andb_true_iff in L as [L1 L2]. rewrite A'', B'' in EC by auto. discriminate. }
        eapply product_ok_ok; [exact S| | |exact Z]; [refine (inv_incl _ _ _ _ _ _ _ _ _ _ A)|refine (inv_incl _ _ _ _ _ _ _ _ _ _ B)];
          auto using incl_appl, incl_appr, incl_refl.
      + destruct T3. split; auto. split; auto. intros x y v X Y EC V. destruct (parsed_ok _ P1 _ X) as (A & A' & A''), (parsed_ok _ P2 _ Y) as (B & B' & B'').
        destruct P3 as [[L|Z] S].
        { apply andb_true_iff in L as [L1 L2]. rewrite A'', B'' in EC by auto. discriminate. }
        rewrite app_assoc in S. pose proof (separate_denom _ _ _ S) as E. rewrite E in *. rewrite !app_nil_r in S.
        pose proof (reciprocal_ok _ _ _ _ B V) as Bv.
        eapply product_ok_ok; [exact S| | |exact Z]; [refine (inv_incl _ _ _ _ _ _ _ _ _ _ A)|refine (inv_incl _ _ _ _ _ _ _ _ _ _ Bv)];
          auto using incl_appl, incl_appr, incl_refl. intros m [].
      + intros c q Y Q.
        assert (CB : match b with XLit (SNum (Fin _)) | XNeg (XLit (SNum (Fin _))) => True | _ => False end \/ exists n, b = XName n).
        { destruct b as [[[z| | |]| | |]| |n| | | | |[[[z| | |]| | |]| | | | | | | | | |]| | |]; try tauto. right. eauto. }
        destruct CB as [C|[n ->]]; [|discriminate]. rewrite (exponent_parsed _ _ _ C Y Q) in T3. exact T3.
    - constructor. simpl in HP, HT. clear -IH HP HT. induction IH; constructor; simpl in HP, HT; tauto.
  Qed.
End Plain.
