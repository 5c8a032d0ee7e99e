(** Normalization keeps the value of arithmetic expressions: proofs for C21. *)
From Coq Require Import String Permutation.
From Verif Require Import Num NumFacts Base Tree Elem Order Expr ExprSpec ExprGood ExprFacts ExprLower.

Definition qsum (l : list Qc) : Qc := fold_right Qcplus qc0 l.
Definition qprod (l : list Qc) : Qc := fold_right Qcmult qc1 l.

Lemma qc0_eq : qc0 = (0%Qc). Proof. apply Qc_ext. reflexivity. Qed.
Lemma qc1_eq : qc1 = (1%Qc). Proof. apply Qc_ext. reflexivity. Qed.
Lemma qsum_app l m : qsum (l ++ m) = (qsum l + qsum m)%Qc.
Proof. induction l; simpl; [rewrite qc0_eq; ring|rewrite IHl; ring]. Qed.
Lemma qprod_app l m : qprod (l ++ m) = (qprod l * qprod m)%Qc.
Proof. induction l; simpl; [rewrite qc1_eq; ring|rewrite IHl; ring]. Qed.
Lemma qsum_perm l m : Permutation l m -> qsum l = qsum m.
Proof. induction 1; simpl; auto; try congruence; try ring. Qed.
Lemma qprod_perm l m : Permutation l m -> qprod l = qprod m.
Proof. induction 1; simpl; auto; try congruence; try ring. Qed.
Lemma qprod_nonzero l : Forall (fun q => q <> qc0) l -> qprod l <> qc0.
Proof.
  induction 1 as [|x l Hx Hl IH]; simpl.
  - discriminate.
  - intros E. rewrite qc0_eq in *. apply Qcmult_integral in E. tauto.
Qed.
Lemma qpow_eq q n : qpow q n = (q ^ n)%Qc.
Proof. induction n; simpl; [apply qc1_eq|rewrite IHn; auto]. Qed.
Lemma qprod_repeat q n : qprod (repeat q n) = qpow q n.
Proof. induction n; simpl; congruence. Qed.
Lemma nsum_fin l : nsum (map Fin l) = Fin (qsum l).
Proof. induction l as [|x l IH]; auto. cbn [map]. rewrite nsum_cons, IH. auto. Qed.
Lemma nprod_fin l : nprod (map Fin l) = Fin (qprod l).
Proof. induction l as [|x l IH]; auto. simpl. rewrite IH. auto. Qed.
Lemma qc_field_nz x : x <> qc0 -> x <> 0%Qc.
Proof. rewrite qc0_eq. auto. Qed.

Section Alg.
  Variable user : string -> list arg -> res val.
  Hypothesis Hb : broadcasts user.
  Variable field : string -> res val.
  Notation denote := (denote user field).

  Definition atomv (e : expr) (q : Qc) : Prop := exists a, denote e = Ok a /\ arg_num a = Ok (Fin q).
  Definition is_atom (e : expr) : bool := match e with ETD _ | EPM _ _ _ => false | _ => true end.
  Definition disjoint (t : term) : Prop := forall x, In x (tp t) -> In x (tn t) -> False.
  Definition qterm (c : Qc) (ps ns : list Qc) : Qc := (c * qprod ps / qprod ns)%Qc.

  (** [safe e q]: the normal form [e] is worth [q] on the row, every denominator in it is not
      zero, and no product has a factor in common with its denominator. *)
  Inductive safe : expr -> Qc -> Prop :=
  | s_atom e q : is_atom e = true -> atomv e q -> safe e q
  | s_td t ps ns : Forall2 safe (tp t) ps -> Forall2 safe (tn t) ns ->
      Forall (fun q => q <> qc0) ns -> disjoint t -> safe (ETD t) (qterm (tc t) ps ns)
  | s_pm c p n ps ns : Forall2 (fun t => safe (ETD t)) p ps -> Forall2 (fun t => safe (ETD t)) n ns ->
      safe (EPM c p n) (c + qsum ps - qsum ns)%Qc.

  Definition tval (t : term) (q : Qc) : Prop :=
    exists ps ns, Forall2 safe (tp t) ps /\ Forall2 safe (tn t) ns /\ Forall (fun q => q <> qc0) ns
      /\ q = qterm (tc t) ps ns.
  Lemma safe_td t q : safe (ETD t) q <-> tval t q /\ disjoint t.
  Proof.
    split.
    - intros H. inversion H as [? ? A|? ps ns H1 H2 H3 H4|]; subst; [discriminate|]. split; auto. exists ps, ns. auto.
    - intros [(ps & ns & H1 & H2 & H3 & ->) H4]. apply s_td; auto.
  Qed.
  Lemma safe_pm c p n q : safe (EPM c p n) q <->
    exists ps ns, Forall2 (fun t => safe (ETD t)) p ps /\ Forall2 (fun t => safe (ETD t)) n ns
      /\ q = (c + qsum ps - qsum ns)%Qc.
  Proof.
    split.
    - intros H. inversion H as [? ? A| |? ? ? ps ns H1 H2]; subst; [discriminate|]. exists ps, ns. auto.
    - intros (ps & ns & H1 & H2 & ->). apply s_pm; auto.
  Qed.

  (** ** Safe normal forms have that value *)
  Lemma safe_atomv e : forall q, safe e q -> atomv e q.
  Proof.
    induction e as [c|s|s b|b f l IH|c l r IHl IHr|c p n Hp Hn|t Ht|l IH|l IH] using expr_ind'; intros q H;
      try (inversion H; subst; auto; fail).
    - apply safe_pm in H as (ps & ns & H1 & H2 & ->).
      assert (G : forall l qs, Forall (PT (fun e => forall q, safe e q -> atomv e q)) l ->
                  Forall2 (fun t => safe (ETD t)) l qs -> mapM (term_num user field) l = Ok (map Fin qs)).
      { intros l qs HF H. induction H as [|t q l qs Ht Hl IHl]; auto. inversion HF as [|? ? [A1 A2] HF']; subst.
        simpl. apply safe_td in Ht as [(ps' & ns' & P1 & P2 & P3 & ->) _].
        assert (N : forall l qs, Forall (fun e => forall q, safe e q -> atomv e q) l -> Forall2 safe l qs ->
                    mapM (num_of user field) l = Ok (map Fin qs)).
        { clear. intros l qs HF H. induction H as [|e q l qs He Hl IH]; auto. inversion HF; subst. simpl.
          destruct (H1 q He) as (a & D & E). unfold num_of at 1. rewrite D. cbn [bind]. rewrite E. cbn [bind].
          rewrite IH by auto. auto. }
        unfold term_num at 1. rewrite (N _ _ A1 P1), (N _ _ A2 P2). cbn [bind].
        rewrite IHl by auto. cbn [bind map]. do 2 f_equal. rewrite !nprod_fin. unfold qterm. simpl.
        pose proof (qprod_nonzero _ P3) as NZ. apply qeqb_false in NZ as NZ'. rewrite NZ'. f_equal. f_equal. ring. }
      exists (AV (VNum (Fin (c + qsum ps - qsum ns)%Qc))). split; auto.
      apply denote_pm. exists (map Fin ps), (map Fin ns). split; [|split]; auto.
      rewrite !nsum_fin. unfold nsub. simpl. do 3 f_equal. ring.
    - apply safe_td in H as [(ps & ns & P1 & P2 & P3 & ->) _]. destruct Ht as [A1 A2].
      assert (N : forall l qs, Forall (fun e => forall q, safe e q -> atomv e q) l -> Forall2 safe l qs ->
                  mapM (num_of user field) l = Ok (map Fin qs)).
      { clear. intros l qs HF H. induction H as [|e q l qs He Hl IH]; auto. inversion HF; subst. simpl.
        destruct (H1 q He) as (a & D & E). unfold num_of at 1. rewrite D. cbn [bind]. rewrite E. cbn [bind].
        rewrite IH by auto. auto. }
      exists (AV (VNum (Fin (qterm (tc t) ps ns)))). split; auto. apply denote_td.
      eexists; split; [|reflexivity]. unfold term_num. rewrite (N _ _ A1 P1), (N _ _ A2 P2). cbn [bind].
      f_equal. rewrite !nprod_fin. unfold qterm. simpl.
      pose proof (qprod_nonzero _ P3) as NZ. apply qeqb_false in NZ as NZ'. rewrite NZ'. f_equal. f_equal. ring.
  Qed.
  Lemma safe_fun e p q : safe e p -> safe e q -> p = q.
  Proof.
    intros H1 H2. destruct (safe_atomv _ _ H1) as (a & A1 & A2). destruct (safe_atomv _ _ H2) as (b & B1 & B2). congruence.
  Qed.
  Lemma safe_list_fun l : forall ps qs, Forall2 safe l ps -> Forall2 safe l qs -> ps = qs.
  Proof.
    induction l as [|e l IH]; intros ps qs H1 H2; inversion H1; inversion H2; subst; auto.
    f_equal; auto. eapply safe_fun; eauto.
  Qed.

  Lemma Forall2_perm {A B} (R : A -> B -> Prop) l m : Permutation l m -> forall ps, Forall2 R l ps ->
    exists qs, Forall2 R m qs /\ Permutation ps qs.
  Proof.
    induction 1 as [|x l m P IH|x y l|l m k P1 IH1 P2 IH2]; intros ps HF.
    - inversion HF; subst. exists []. auto.
    - inversion HF as [|? b ? bs Hb' HF']; subst. destruct (IH _ HF') as (qs & Q1 & Q2). exists (b :: qs). auto.
    - inversion HF as [|? a ? as_ Ha H']; subst. inversion H' as [|? b ? bs Hb' H'']; subst.
      exists (b :: a :: bs). split; [auto|apply perm_swap].
    - destruct (IH1 _ HF) as (qs & Q1 & Q2). destruct (IH2 _ Q1) as (rs & R1 & R2).
      exists rs. split; auto. eapply Permutation_trans; eauto.
  Qed.

  Variable srt : list expr -> list expr.
  Hypothesis srt_perm : forall l, Permutation l (srt l).

  (** ** Normal forms of operands *)
  Definition pmv (p : pm) (q : Qc) : Prop := safe (pm_expr p) q.

  Lemma td_nf_safe e t q : safe e q -> td_nf e = Ok t -> safe (ETD t) q.
  Proof.
    intros H E.
    assert (A : E = E -> td_nf e = Ok (T qc1 [e] []) -> safe (ETD t) q).
    { intros _ E'. rewrite E' in E. injection E as <-. apply safe_td. split.
      - exists [q], []. repeat split; cbn [tp tn tc pp pn pc pm_expr td_const td_combine]; auto. unfold qterm. simpl. rewrite qc1_eq. field. discriminate.
      - intros x _ []. }
    destruct e; try (apply A; auto; fail).
    - destruct c as [[[x| | |]| | |]| |]; try discriminate. injection E as <-.
      inversion H as [? ? _ (a & D & N)| |]; subst. injection D as <-. injection N as ->.
      apply safe_td. split; [|intros x []]. exists [], []. repeat split; cbn [tp tn tc pp pn pc pm_expr td_const td_combine]; auto.
      unfold qterm. simpl. rewrite qc1_eq. field. discriminate.
    - injection E as <-. auto.
  Qed.

  Lemma qneg_pos q : qltb q qc0 = true -> q <> qc0.
  Proof. intros H ->. discriminate. Qed.
  Lemma pm_nf_safe e p q : safe e q -> pm_nf e = Ok p -> pmv p q.
  Proof.
    intros H E.
    assert (A : (do t <- td_nf e; Ok (if is_nil (tp t) && is_nil (tn t) then PM (tc t) [] []
            else if qltb (tc t) qc0 then PM qc0 [] [T (- tc t)%Qc (tp t) (tn t)]
            else PM qc0 [t] [])) = Ok p -> pmv p q).
    { clear E. intros E. apply bind_ok_iff in E as (t & Et & E). injection E as <-.
      pose proof (td_nf_safe _ _ _ H Et) as S. unfold pmv.
      destruct (is_nil (tp t) && is_nil (tn t)) eqn:N.
      - apply andb_true_iff in N as [N1 N2]. apply safe_td in S as [(ps & ns & P1 & P2 & P3 & ->) _].
        destruct (tp t); [|discriminate]. destruct (tn t); [|discriminate]. inversion P1; inversion P2; subst.
        apply safe_pm. exists [], []. repeat split; cbn [tp tn tc pp pn pc pm_expr td_const td_combine]; auto. unfold qterm. simpl. rewrite qc1_eq, qc0_eq. field. discriminate.
      - destruct (qltb (tc t) qc0) eqn:L.
        + apply safe_td in S as [(ps & ns & P1 & P2 & P3 & ->) D]. apply safe_pm.
          exists [], [qterm (- tc t)%Qc ps ns]. repeat split; cbn [tp tn tc pp pn pc pm_expr td_const td_combine]; auto.
          * constructor; auto. apply safe_td. split; [|exact D]. exists ps, ns. auto.
          * unfold qterm. simpl. rewrite qc0_eq. field. apply qc_field_nz, qprod_nonzero; auto.
        + apply safe_pm. exists [q], []. repeat split; cbn [tp tn tc pp pn pc pm_expr td_const td_combine]; auto. simpl. rewrite qc0_eq. ring. }
    destruct e; try (apply A; exact E).
    injection E as <-. exact H.
  Qed.

  (** ** Products of terms *)
  Lemma td_combine_val a b p q : tval a p -> tval b q -> tval (td_combine srt a b) (p * q)%Qc.
  Proof.
    intros (ps & ns & P1 & P2 & P3 & ->) (ps' & ns' & Q1 & Q2 & Q3 & ->).
    destruct (Forall2_perm safe _ _ (srt_perm (tp a ++ tp b)) (ps ++ ps')) as (xs & X1 & X2); [apply Forall2_app; auto|].
    destruct (Forall2_perm safe _ _ (srt_perm (tn a ++ tn b)) (ns ++ ns')) as (ys & Y1 & Y2); [apply Forall2_app; auto|].
    exists xs, ys. repeat split; cbn [tp tn tc pp pn pc pm_expr td_const td_combine]; auto.
    - rewrite <- Y2. apply Forall_app; auto.
    - unfold qterm. cbn [tc td_combine]. rewrite <- (qprod_perm _ _ X2), <- (qprod_perm _ _ Y2), !qprod_app.
      field. split; apply qc_field_nz, qprod_nonzero; auto.
  Qed.
  Lemma td_const_val c : tval (td_const c) c.
  Proof. exists [], []. repeat split; cbn [tp tn tc pp pn pc pm_expr td_const td_combine]; auto. unfold qterm. simpl. rewrite qc1_eq. field. discriminate. Qed.

  (** ** Cancelling *)
  Lemma find_index_None y l : find_index y l = None <-> ~ In y l.
  Proof.
    induction l as [|x l IH]; simpl; [tauto|]. destruct (expr_same x y) eqn:E.
    - apply expr_same_eq in E. subst. split; [discriminate|intros H; exfalso; auto].
    - destruct (find_index y l); simpl.
      + split; [discriminate|]. intros H. exfalso. apply H. right. destruct (in_dec expr_eq_dec y l) as [I|I]; auto.
        apply IH in I. discriminate.
      + split; auto. intros _ [->|K]; [rewrite expr_same_refl in E; discriminate|]. tauto.
  Qed.
  Lemma del_nth_incl i : forall l m, del_nth i l = Ok m -> incl m l.
  Proof.
    induction i as [|i IH]; intros [|x l] m H; simpl in H; try discriminate.
    - injection H as <-. apply incl_tl, incl_refl.
    - apply rmap_ok_iff in H as (r & H & ->). intros y [<-|Hy]; [left; auto|right; eapply IH; eauto].
  Qed.
  Lemma cancel_go_spec orig neg : forall pos p n, cancel_go orig pos neg = Ok (p, n) ->
    incl p pos /\ (forall y, In y n -> ~ In y orig).
  Proof.
    induction neg as [|y neg IH]; intros pos p n H; simpl in H.
    - injection H as <- <-. split; [apply incl_refl|intros y []].
    - destruct (find_index y orig) eqn:E.
      + apply bind_ok_iff in H as (pos' & D & H). apply IH in H as [H1 H2]. split; auto.
        eapply incl_tran; [exact H1|]. eapply del_nth_incl; eauto.
      + apply bind_ok_iff in H as ([p' n'] & D & H). injection H as <- <-. apply IH in D as [H1 H2].
        split; auto. intros z [<-|Hz]; auto. apply find_index_None; auto.
  Qed.
  Lemma cancel_disjoint t t' : cancel t = Ok t' -> disjoint t'.
  Proof.
    unfold cancel. intros H. apply bind_ok_iff in H as ([p n] & H & E). injection E as <-.
    apply cancel_go_spec in H as [H1 H2]. intros x Hx Hy. apply (H2 x); auto.
  Qed.
  Lemma cancel_id t : disjoint t -> cancel t = Ok t.
  Proof.
    intros D. unfold cancel.
    assert (G : forall neg pos, (forall x, In x neg -> ~ In x (tp t)) -> cancel_go (tp t) pos neg = Ok (pos, neg)).
    { induction neg as [|y neg IH]; intros pos H; simpl; auto.
      rewrite (proj2 (find_index_None y (tp t))) by (apply H; left; auto).
      rewrite IH by (intros; apply H; right; auto). auto. }
    rewrite G by (intros x H1 H2; exact (D x H2 H1)). destruct t; auto.
  Qed.
  Lemma disjoint_cancels t : disjoint t -> cancels_right t.
  Proof. intros D. exists t, []. rewrite !app_nil_r. repeat split; cbn [tp tn tc pp pn pc pm_expr td_const td_combine]; auto. apply cancel_id; auto. Qed.
  Lemma cancel_val t t' q : cancels_right t -> cancel t = Ok t' -> tval t q -> tval t' q.
  Proof.
    intros (t'' & com & C & Ec & P1 & P2) C' (ps & ns & V1 & V2 & V3 & ->).
    rewrite C in C'. injection C' as ->.
    destruct (Forall2_perm safe _ _ P1 ps V1) as (ps1 & A1 & A2).
    destruct (Forall2_perm safe _ _ P2 ns V2) as (ns1 & B1 & B2).
    apply Forall2_app_inv_l in A1 as (x1 & x2 & X1 & X2 & ->).
    apply Forall2_app_inv_l in B1 as (y1 & y2 & Y1 & Y2 & ->).
    assert (x2 = y2) by (eapply safe_list_fun; eauto). subst y2.
    assert (NZ : Forall (fun q => q <> qc0) (y1 ++ x2)) by (rewrite <- B2; auto).
    apply Forall_app in NZ as [N1 N2].
    exists x1, y1. repeat split; cbn [tp tn tc pp pn pc pm_expr td_const td_combine]; auto.
    unfold qterm. rewrite (qprod_perm _ _ A2), (qprod_perm _ _ B2), !qprod_app, Ec.
    field. split; apply qc_field_nz, qprod_nonzero; auto.
  Qed.

  (** ** Collecting *)
  Lemma merge_val x terms q qs : safe (ETD x) q -> Forall2 (fun t => safe (ETD t)) terms qs ->
    exists rs, Forall2 (fun t => safe (ETD t)) (merge x terms) rs /\ qsum rs = (q + qsum qs)%Qc.
  Proof.
    intros Hx H. induction H as [|y r terms qs Hy Hr (rs & IH1 & IH2)]; simpl.
    - exists [q]. split; auto.
    - destruct (similar x y) eqn:E.
      + apply similar_eq in E as [E1 E2].
        apply safe_td in Hx as [(ps & ns & P1 & P2 & P3 & ->) _]. apply safe_td in Hy as [(ps' & ns' & Q1 & Q2 & Q3 & ->) D].
        rewrite E1 in P1. rewrite E2 in P2.
        rewrite <- (safe_list_fun _ _ _ P1 Q1), <- (safe_list_fun _ _ _ P2 Q2) in *.
        exists (qterm (tc x + tc y)%Qc ps ns :: qs). split.
        * constructor; auto. apply safe_td. split; [|exact D]. exists ps, ns. auto.
        * simpl. unfold qterm. field. apply qc_field_nz, qprod_nonzero; auto.
      + exists (r :: rs). split; auto. simpl. rewrite IH2. ring.
  Qed.

  Lemma gather_val sgn (m : Qc) l : (forall c, sgn c = (m * c)%Qc) -> m <> qc0 ->
    Forall cancels_right l -> forall qs, Forall2 tval l qs -> forall st st' ts,
    gather sgn l st = Ok st' -> Forall2 (fun t => safe (ETD t)) (snd st) ts ->
    exists ts', Forall2 (fun t => safe (ETD t)) (snd st') ts'
      /\ (fst st' + qsum ts' = fst st + qsum ts + m * qsum qs)%Qc.
  Proof.
    intros Hs Hm HC qs HV. induction HV as [|x q l qs Hx Hl IH]; intros st st' ts H Ht.
    - simpl in H. injection H as <-. exists ts. split; auto. simpl. rewrite qc0_eq. ring.
    - inversion HC as [|? ? C1 C2]; subst. simpl in H. apply bind_ok_iff in H as (y & Ey & H).
      pose proof (cancel_val _ _ _ C1 Ey Hx) as Vy. pose proof (cancel_disjoint _ _ Ey) as Dy.
      destruct (qeqb (tc y) qc0) eqn:Z.
      + apply qeqb_iff in Z. destruct (IH C2 _ _ _ H Ht) as (ts' & T1 & T2). exists ts'. split; auto.
        rewrite T2. simpl. assert (q = qc0) as ->; [|rewrite qc0_eq; ring].
        destruct Vy as (ps & ns & P1 & P2 & P3 & ->). unfold qterm. rewrite Z, qc0_eq. field.
        apply qc_field_nz, qprod_nonzero; auto.
      + destruct (is_nil (tp y) && is_nil (tn y)) eqn:N.
        * destruct (IH C2 _ _ _ H Ht) as (ts' & T1 & T2). exists ts'. split; auto.
          rewrite T2. cbn [fst snd]. assert (q = tc y) as ->.
          { destruct Vy as (ps & ns & P1 & P2 & P3 & ->). apply andb_true_iff in N as [N1 N2].
            destruct (tp y); [|discriminate]. destruct (tn y); [|discriminate]. inversion P1; inversion P2; subst.
            unfold qterm. simpl. rewrite qc1_eq. field. discriminate. }
          rewrite Hs. simpl. ring.
        * destruct (merge_val (T (sgn (tc y)) (tp y) (tn y)) (snd st) (m * q)%Qc ts) as (rs & R1 & R2); auto.
          { apply safe_td. split; [|exact Dy]. destruct Vy as (ps & ns & P1 & P2 & P3 & ->).
            exists ps, ns. repeat split; cbn [tp tn tc pp pn pc pm_expr td_const td_combine]; auto. unfold qterm. cbn [tc]. rewrite Hs. field. apply qc_field_nz, qprod_nonzero; auto. }
          destruct (IH C2 _ _ _ H R1) as (ts' & T1 & T2). exists ts'. split; auto.
          rewrite T2. cbn [fst snd]. rewrite R2. simpl. ring.
  Qed.

  Lemma filter_split (terms : list term) qs : Forall2 (fun t => safe (ETD t)) terms qs ->
    exists ps ns,
      Forall2 (fun t => safe (ETD t)) (filter (fun t => negb (qltb (tc t) qc0)) (filter (fun t => negb (qeqb (tc t) qc0)) terms)) ps
      /\ Forall2 (fun t => safe (ETD t)) (map (fun t => T (- tc t)%Qc (tp t) (tn t)) (filter (fun t => qltb (tc t) qc0) (filter (fun t => negb (qeqb (tc t) qc0)) terms))) ns
      /\ (qsum ps - qsum ns = qsum qs)%Qc.
  Proof.
    induction 1 as [|t q terms qs Ht Hl (ps & ns & P1 & P2 & P3)]; cbn [filter].
    - exists [], []. repeat split; auto; try constructor.
    - destruct (qeqb (tc t) qc0) eqn:Z; cbn [negb].
      + apply qeqb_iff in Z. exists ps, ns. repeat split; cbn [tp tn tc pp pn pc pm_expr td_const td_combine]; auto. rewrite P3. simpl.
        apply safe_td in Ht as [(xs & ys & X1 & X2 & X3 & ->) _]. unfold qterm. rewrite Z, qc0_eq. field.
        apply qc_field_nz, qprod_nonzero; auto.
      + cbn [filter]. destruct (qltb (tc t) qc0) eqn:L; cbn [negb map].
        * apply safe_td in Ht as [(xs & ys & X1 & X2 & X3 & ->) D].
          exists ps, (qterm (- tc t)%Qc xs ys :: ns). repeat split; cbn [tp tn tc pp pn pc pm_expr td_const td_combine]; auto.
          -- constructor; auto. apply safe_td. split; [|exact D]. exists xs, ys. auto.
          -- simpl. rewrite <- P3. unfold qterm. field. apply qc_field_nz, qprod_nonzero; auto.
        * exists (q :: ps), ns. repeat split; cbn [tp tn tc pp pn pc pm_expr td_const td_combine]; auto. simpl. rewrite <- P3. ring.
  Qed.

  (** The value of a sum whose terms may still have common factors. *)
  Definition pmv0 (p : pm) (q : Qc) : Prop :=
    exists ps ns, Forall2 tval (pp p) ps /\ Forall2 tval (pn p) ns /\ q = (pc p + qsum ps - qsum ns)%Qc.

  Lemma collect_val p p' q : pmv0 p q -> Forall cancels_right (pp p) -> Forall cancels_right (pn p) ->
    collect srt p = Ok p' -> pmv p' q.
  Proof.
    intros (ps & ns & P1 & P2 & ->) C1 C2 H. unfold collect in H.
    apply bind_ok_iff in H as (st1 & G1 & H). apply bind_ok_iff in H as (st2 & G2 & H). injection H as <-.
    destruct (gather_val (fun q => q) qc1 (pp p)) with (qs := ps) (st := (pc p, @nil term)) (st' := st1) (ts := @nil Qc)
      as (t1 & T1 & E1); auto.
    { intros; rewrite qc1_eq; ring. } { discriminate. } { constructor. }
    destruct (gather_val Qcopp (- qc1)%Qc (pn p)) with (qs := ns) (st := st1) (st' := st2) (ts := t1)
      as (t2 & T2 & E2); auto.
    all: try (intros c; rewrite qc1_eq; ring). { discriminate. }
    destruct (filter_split _ _ T2) as (xs & ys & X1 & X2 & X3).
    destruct (Forall2_perm _ _ _ (srt_t_perm srt srt_perm _) _ X1) as (xs' & X1' & XP).
    destruct (Forall2_perm _ _ _ (srt_t_perm srt srt_perm _) _ X2) as (ys' & X2' & YP).
    apply safe_pm. exists xs', ys'. split; [exact X1'|]. split; [exact X2'|].
    cbn [fst snd pc] in *. rewrite <- (qsum_perm _ _ XP), <- (qsum_perm _ _ YP).
    assert (F : (fst st2 + qsum xs - qsum ys = fst st2 + qsum t2)%Qc) by (rewrite <- X3; ring).
    rewrite F, E2, E1. rewrite qc1_eq. cbn [qsum fold_right]. rewrite qc0_eq. ring.
  Qed.

  Lemma pmv_terms p q : pmv p q -> exists ps ns,
    Forall2 (fun t => safe (ETD t)) (pp p) ps /\ Forall2 (fun t => safe (ETD t)) (pn p) ns
    /\ q = (pc p + qsum ps - qsum ns)%Qc.
  Proof. intros H. apply safe_pm in H. exact H. Qed.
  Lemma terms_tval l qs : Forall2 (fun t => safe (ETD t)) l qs -> Forall2 tval l qs.
  Proof. induction 1; constructor; auto. apply safe_td in H. tauto. Qed.
  Lemma terms_disjoint l qs : Forall2 (fun t => safe (ETD t)) l qs -> Forall disjoint l.
  Proof. induction 1; constructor; auto. apply safe_td in H. tauto. Qed.
  Lemma terms_cancel l qs : Forall2 (fun t => safe (ETD t)) l qs -> Forall cancels_right l.
  Proof. intros H. eapply Forall_impl; [|eapply terms_disjoint; eauto]. apply disjoint_cancels. Qed.

  Lemma pm_combine_val a b p q r : pmv a p -> pmv b q -> pm_combine srt a b = Ok r -> pmv r (p + q)%Qc.
  Proof.
    intros Ha Hb' H. apply pmv_terms in Ha as (ps & ns & P1 & P2 & ->). apply pmv_terms in Hb' as (ps' & ns' & Q1 & Q2 & ->).
    destruct (Forall2_perm _ _ _ (srt_t_perm srt srt_perm _) _ (Forall2_app P1 Q1)) as (xs & X1 & XP).
    destruct (Forall2_perm _ _ _ (srt_t_perm srt srt_perm _) _ (Forall2_app P2 Q2)) as (ys & Y1 & YP).
    unfold pm_combine in H. eapply collect_val; [| | |exact H].
    - exists xs, ys. cbn [pp pn pc]. split; [apply terms_tval; auto|]. split; [apply terms_tval; auto|].
      rewrite <- (qsum_perm _ _ XP), <- (qsum_perm _ _ YP), !qsum_app. ring.
    - eapply terms_cancel; exact X1.
    - eapply terms_cancel; exact Y1.
  Qed.

  Lemma products_val a b xs ys : Forall2 tval a xs -> Forall2 tval b ys ->
    exists zs, Forall2 tval (products srt a b) zs /\ qsum zs = (qsum xs * qsum ys)%Qc.
  Proof.
    intros Ha Hb'. induction Ha as [|t x a xs Ht Ha (zs & IH1 & IH2)]; unfold products in *; simpl.
    - exists []. split; auto. simpl. rewrite qc0_eq. ring.
    - assert (R : exists ws, Forall2 tval (map (td_combine srt t) b) ws /\ qsum ws = (x * qsum ys)%Qc).
      { clear - Hb' Ht srt_perm. induction Hb' as [|u y b ys Hu Hb (ws & W1 & W2)]; simpl.
        - exists []. split; auto. simpl. rewrite qc0_eq. ring.
        - exists ((x * y)%Qc :: ws). split; [constructor; auto; apply td_combine_val; auto|]. simpl. rewrite W2. ring. }
      destruct R as (ws & W1 & W2). exists (ws ++ zs). split; [apply Forall2_app; auto|].
      rewrite qsum_app, W2, IH2. ring.
  Qed.
  Lemma map_combine_val (g : term -> term) (k : Qc) l xs : (forall t x, tval t x -> tval (g t) (k * x)%Qc) ->
    Forall2 tval l xs -> exists zs, Forall2 tval (map g l) zs /\ qsum zs = (k * qsum xs)%Qc.
  Proof.
    intros Hg H. induction H as [|t x l xs Ht Hl (zs & Z1 & Z2)]; simpl.
    - exists []. split; auto. simpl. rewrite qc0_eq. ring.
    - exists ((k * x)%Qc :: zs). split; auto. simpl. rewrite Z2. ring.
  Qed.

  Lemma pm_distribute_val a b p q r : pmv a p -> pmv b q ->
    (pc a = qc0 \/ pc b = qc0) ->
    (forall t u, In t (pp a ++ pn a) -> In u (pp b ++ pn b) -> cancels_right (td_combine srt t u)) ->
    pm_distribute srt a b = Ok r -> pmv r (p * q)%Qc.
  Proof.
    intros Ha Hb' HC HT H. apply pmv_terms in Ha as (ps & ns & P1 & P2 & ->). apply pmv_terms in Hb' as (ps' & ns' & Q1 & Q2 & ->).
    pose proof (terms_tval _ _ P1) as VP1. pose proof (terms_tval _ _ P2) as VP2.
    pose proof (terms_tval _ _ Q1) as VQ1. pose proof (terms_tval _ _ Q2) as VQ2.
    assert (GR : forall t x, tval t x -> tval (td_combine srt t (td_const (pc b))) (pc b * x)%Qc).
    { intros t x Ht. rewrite Qcmult_comm. apply td_combine_val; auto. apply td_const_val. }
    assert (GL : forall t x, tval t x -> tval (td_combine srt (td_const (pc a)) t) (pc a * x)%Qc).
    { intros t x Ht. apply td_combine_val; auto. apply td_const_val. }
    assert (CD : forall t, disjoint t -> cancels_right (td_combine srt t (td_const (pc b)))).
    { intros t D. apply disjoint_cancels. intros x. cbn [tp tn td_combine td_const].
      rewrite !app_nil_r, !(srt_In srt srt_perm). apply D. }
    assert (CE : forall t, disjoint t -> cancels_right (td_combine srt (td_const (pc a)) t)).
    { intros t D. apply disjoint_cancels. intros x. cbn [tp tn td_combine td_const app].
      rewrite !(srt_In srt srt_perm). apply D. }
    destruct (map_combine_val _ _ _ _ GR VP1) as (z1 & Z1 & E1).
    destruct (map_combine_val _ _ _ _ GR VP2) as (z2 & Z2 & E2).
    destruct (map_combine_val _ _ _ _ GL VQ1) as (z3 & Z3 & E3).
    destruct (map_combine_val _ _ _ _ GL VQ2) as (z4 & Z4 & E4).
    destruct (products_val _ _ _ _ VP1 VQ1) as (z5 & Z5 & E5).
    destruct (products_val _ _ _ _ VP2 VQ2) as (z6 & Z6 & E6).
    destruct (products_val _ _ _ _ VP1 VQ2) as (z7 & Z7 & E7).
    destruct (products_val _ _ _ _ VP2 VQ1) as (z8 & Z8 & E8).
    assert (MC : forall l qs, Forall2 (fun t => safe (ETD t)) l qs ->
               Forall cancels_right (map (fun x => td_combine srt x (td_const (pc b))) l)
               /\ Forall cancels_right (map (fun x => td_combine srt (td_const (pc a)) x) l)).
    { intros l qs HF. apply terms_disjoint in HF. split; apply Forall_map; (eapply Forall_impl; [|exact HF]); auto. }
    assert (PC : forall l m, incl l (pp a ++ pn a) -> incl m (pp b ++ pn b) -> Forall cancels_right (products srt l m)).
    { intros l m Hl Hm. apply Forall_forall. intros t. unfold products. rewrite in_flat_map.
      intros (x & Hx & Hy). apply in_map_iff in Hy as (y & <- & Hy). auto. }
    unfold pm_distribute in H. eapply collect_val; [| | |exact H]; cbn [pp pn pc].
    - exists (z1 ++ z3 ++ z5 ++ z6), (z2 ++ z4 ++ z7 ++ z8). cbn [pp pn pc].
      split; [repeat apply Forall2_app; auto|]. split; [repeat apply Forall2_app; auto|].
      rewrite !qsum_app, E1, E2, E3, E4, E5, E6, E7, E8.
      assert (K : (pc a * pc b = 0)%Qc) by (rewrite <- qc0_eq; destruct HC as [-> | ->]; rewrite qc0_eq; ring).
      rewrite qc0_eq. transitivity ((pc a * pc b) + (pc a * (qsum ps' - qsum ns') + (qsum ps - qsum ns) * pc b + (qsum ps - qsum ns) * (qsum ps' - qsum ns')))%Qc; [ring|].
      rewrite K. ring.
    - repeat (apply Forall_app; split).
      + apply (MC _ _ P1). + apply (MC _ _ Q1).
      + apply PC; auto using incl_appl, incl_appr, incl_refl.
      + apply PC; auto using incl_appl, incl_appr, incl_refl.
    - repeat (apply Forall_app; split).
      + apply (MC _ _ P2). + apply (MC _ _ Q2).
      + apply PC; auto using incl_appl, incl_appr, incl_refl.
      + apply PC; auto using incl_appl, incl_appr, incl_refl.
  Qed.

  (** ** Simplifying *)
  Lemma num_safe q : safe (EConst (KS (SNum (Fin q)))) q.
  Proof. constructor; auto. eexists; split; reflexivity. Qed.
  Lemma td_simplify_val t q : safe (ETD t) q -> safe (td_simplify t) q.
  Proof.
    intros H. unfold td_simplify. destruct (is_nil (tp t) && is_nil (tn t)) eqn:N.
    - apply safe_td in H as [(ps & ns & P1 & P2 & P3 & ->) _]. apply andb_true_iff in N as [N1 N2].
      destruct (tp t); [|discriminate]. destruct (tn t); [|discriminate]. inversion P1; inversion P2; subst.
      replace (qterm (tc t) [] []) with (tc t); [apply num_safe|]. unfold qterm. simpl. rewrite qc1_eq. field. discriminate.
    - destruct (qeqb (tc t) qc1) eqn:E; auto. apply qeqb_iff in E.
      destruct (tp t) as [|x [|]] eqn:Ep; auto. destruct (tn t) as [|] eqn:En; auto.
      apply safe_td in H as [(ps & ns & P1 & P2 & P3 & ->) _]. rewrite Ep in P1. rewrite En in P2.
      inversion P1 as [|? y ? ? Hy P1']; subst. inversion P1'; subst. inversion P2; subst.
      replace (qterm (tc t) [y] []) with y; auto. unfold qterm. simpl. rewrite E, qc1_eq. field. discriminate.
  Qed.
  Lemma neg_term_val t q : safe (ETD t) q -> safe (ETD (T (- tc t)%Qc (tp t) (tn t))) (- q)%Qc.
  Proof.
    intros H. apply safe_td in H as [(ps & ns & P1 & P2 & P3 & ->) D]. apply safe_td. split; [|exact D].
    exists ps, ns. repeat split; cbn [tp tn tc pp pn pc pm_expr td_const td_combine]; auto. unfold qterm. simpl. field. apply qc_field_nz, qprod_nonzero; auto.
  Qed.
  Lemma pm_simplify_val p q : pmv p q -> safe (pm_simplify p) q.
  Proof.
    intros H. pose proof H as H0. apply pmv_terms in H as (ps & ns & P1 & P2 & ->). unfold pm_simplify.
    destruct (pp p) as [|t l] eqn:Ep, (pn p) as [|u m] eqn:En; cbn [is_nil andb].
    - inversion P1; inversion P2; subst. replace (pc p + qsum [] - qsum [])%Qc with (pc p); [apply num_safe|]. simpl. rewrite qc0_eq. ring.
    - destruct (qeqb (pc p) qc0) eqn:E; auto. apply qeqb_iff in E. destruct m; auto.
      inversion P1; subst. inversion P2 as [|? y ? ? Hy P2']; subst. inversion P2'; subst.
      apply td_simplify_val. replace (pc p + qsum [] - qsum [y])%Qc with (- y)%Qc; [apply neg_term_val; auto|].
      simpl. rewrite E, qc0_eq. ring.
    - destruct (qeqb (pc p) qc0) eqn:E; auto. apply qeqb_iff in E. destruct l; auto.
      inversion P2; subst. inversion P1 as [|? y ? ? Hy P1']; subst. inversion P1'; subst.
      apply td_simplify_val. replace (pc p + qsum [y] - qsum [])%Qc with y; auto.
      simpl. rewrite E, qc0_eq. ring.
    - destruct (qeqb (pc p) qc0); auto; destruct l; auto.
  Qed.
End Alg.
