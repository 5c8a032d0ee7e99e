(** Parsing keeps the meaning of good expressions: the main proof for C21 and C22. *)
From Coq Require Import String Permutation.
From Verif Require Import Num NumFacts Base Tree Elem Order Expr ExprSpec ExprGood ExprFacts ExprLower ExprAlg ExprLogic.
Open Scope string_scope.
Local Open Scope list_scope.

Lemma scal_val_inj s t v : scal_val s = Some v -> scal_val t = Some v -> s = t.
Proof. destruct s, t; simpl; congruence. Qed.
Lemma same_arg_scal v s : same_arg v (AC (KS s)) -> arg_scal v = Ok s.
Proof.
  intros [->|[(w & H1 & H2)|(l & m & _ & E & _)]]; auto; [|discriminate].
  simpl in H2. destruct (scal_val s) as [w'|] eqn:E; [|discriminate]. injection H2 as ->.
  destruct v as [[t| |]|x]; simpl in H1; try discriminate.
  - destruct (scal_val t) eqn:E'; [|discriminate]. injection H1 as ->. simpl. f_equal. eapply scal_val_inj; eauto.
  - injection H1 as ->. destruct s; simpl in E; try discriminate; injection E as <-; auto.
Qed.

Lemma small_exponent_spec q pos n : small_exponent q = Some (pos, n) ->
  1 <= n <= 4 /\ q = (if pos then qz (Z.of_nat n) else qz (- Z.of_nat n)).
Proof.
  unfold small_exponent.
  repeat match goal with |- context [qeqb q ?z] => destruct (qeqb q z) eqn:?E end; intros H; try discriminate; injection H as <- <-;
    (split; [lia|]); match goal with E : qeqb q _ = true |- _ => apply qeqb_iff in E; exact E end.
Qed.
Lemma npow_fin q n : npow (Fin q) n = Fin (qpow q n).
Proof. induction n; auto. cbn [npow]. rewrite IHn. auto. Qed.

Section Main.
  Variable user : string -> list arg -> res val.
  Hypothesis Hb : broadcasts user.
  Hypothesis Hp : powers user.
  Variable field : string -> res val.
  Variable srt : list expr -> list expr.
  Hypothesis srt_perm : forall l, Permutation l (srt l).
  Notation denote := (denote user field).
  Notation seval := (seval user field).
  Notation safe := (safe user field).
  Notation parse := (parse srt (fun _ => None)).
  Notation good := (good user field srt).
  Notation logic := (logic user field).

  Definition means (v : arg) (e : expr) : Prop :=
    (exists v', denote e = Ok v' /\ same_arg v v')
    /\ (forall q, arg_num v = Ok (Fin q) -> safe e q)
    /\ (forall b, arg_truth v = Ok b -> logic e b).

  Lemma same_num v v' x : arg_num v = Ok x -> arg_num v' = Ok x -> same_arg v v'.
  Proof. intros H1 H2. right; left. exists (VNum x). split; apply arg_num_val; auto. Qed.

  (** A number: its value is enough. *)
  Lemma means_num v e q : arg_num v = Ok (Fin q) -> safe e q -> means v e.
  Proof.
    intros Hv Hs. destruct (safe_atomv _ _ _ _ Hs) as (v' & D & N).
    split; [exists v'; split; auto; eapply same_num; eauto|]. split.
    - intros q' E. rewrite Hv in E. injection E as <-. auto.
    - intros b Hb'. pose proof (same_num _ _ _ Hv N) as SA.
      assert (NB : bool_shape e = true -> False).
      { intros B. destruct (bool_shape_val _ _ _ _ B D) as (c & ->). discriminate. }
      destruct e; try (exfalso; apply NB; reflexivity); try exact I.
      simpl in D. apply rmap_ok_iff in D as (w & W & ->). exists w. split; auto.
      rewrite (same_arg_truth _ _ SA) in Hb'. exact Hb'.
  Qed.
  (** Anything that is not arithmetic nor logic. *)
  Lemma means_other v v' e : denote e = Ok v' -> same_arg v v' -> is_atom e = true -> bool_shape e = false -> means v e.
  Proof.
    intros D SA A B. split; [exists v'; auto|]. split.
    - intros q Hq. constructor; auto. exists v'. split; auto. rewrite <- (same_arg_num _ _ SA). auto.
    - intros b Hb'. destruct e; try discriminate A; try discriminate B; try exact I.
      simpl in D. apply rmap_ok_iff in D as (w & W & ->). exists w. split; auto.
      rewrite (same_arg_truth _ _ SA) in Hb'. exact Hb'.
  Qed.
  Lemma means_logic e b : denote e = Ok (AV (VBool b)) /\ logic e b /\ bool_shape e = true -> means (AV (VBool b)) e.
  Proof.
    intros (D & L & B). split; [exists (AV (VBool b)); split; auto; apply same_arg_refl|]. split.
    - intros q Hq. discriminate.
    - intros c Hc. injection Hc as <-. auto.
  Qed.

  Lemma num2_fin f (g : Num -> Num -> Num) a b x y v : num2 g a b = Ok v -> arg_num a = Ok x -> arg_num b = Ok y ->
    f = g x y -> v = VNum f.
  Proof. unfold num2. intros H Ha Hb' ->. rewrite Ha, Hb' in H. cbn [bind] in H. congruence. Qed.

  Lemma const_num_val c q a : const_num c = Ok q -> same_arg a (AC c) -> arg_num a = Ok (Fin q).
  Proof.
    intros H S. rewrite (same_arg_num _ _ S). destruct c as [[[x| | |]| | |]| |]; try discriminate H.
    injection H as ->. auto.
  Qed.

  Lemma fold_const_means o x y a b v e : fold_const o x y = Ok e -> same_arg a (AC x) -> same_arg b (AC y) ->
    operate user o a b = Ok v -> means (AV v) e.
  Proof.
    intros H Ha Hb' Hv.
    destruct o; simpl in H; try discriminate H;
      apply bind_ok_iff in H as (p & P & H); apply bind_ok_iff in H as (q & Q & H);
      pose proof (const_num_val _ _ _ P Ha) as NA; pose proof (const_num_val _ _ _ Q Hb') as NB.
    - injection H as <-. simpl in Hv. rewrite (num2_fin _ _ _ _ _ _ _ Hv NA NB eq_refl).
      apply means_num with (q := (p + q)%Qc); auto. apply num_safe.
    - injection H as <-. simpl in Hv. rewrite (num2_fin _ _ _ _ _ _ _ Hv NA NB eq_refl).
      apply means_num with (q := (p - q)%Qc); auto. apply num_safe.
    - injection H as <-. simpl in Hv. rewrite (num2_fin _ _ _ _ _ _ _ Hv NA NB eq_refl).
      apply means_num with (q := (p * q)%Qc); auto. apply num_safe.
    - apply bind_ok_iff in H as (i & Hi & H). injection H as <-. apply q_inv_ok in Hi as [Nq ->].
      simpl in Hv. rewrite (num2_fin _ _ _ _ _ _ _ Hv NA NB eq_refl).
      apply means_num with (q := (p * / q)%Qc); [|apply num_safe]. simpl. apply qeqb_false in Nq. rewrite Nq. auto.
  Qed.

  Lemma distribute_means a b p q r : safe a p -> safe b q -> product_ok srt a b ->
    distribute_simplify srt a b = Ok r -> safe r (p * q)%Qc.
  Proof.
    intros Ha Hb' HP H. unfold distribute_simplify in H. apply bind_ok_iff in H as (x & X & H).
    apply bind_ok_iff in H as (y & Y & H). apply bind_ok_iff in H as (z & Z & H). injection H as <-.
    destruct (HP _ _ X Y) as [P1 P2]. apply pm_simplify_val.
    eapply pm_distribute_val; [exact srt_perm|eapply pm_nf_safe; eauto|eapply pm_nf_safe; eauto|auto|auto|auto].
  Qed.

  Lemma binary_means o sa sb va vb v ea eb e :
    bin_ok user field srt o sa sb ->
    seval sa = Ok va -> seval sb = Ok vb -> parse false sa = Ok ea -> parse false sb = Ok eb ->
    means va ea -> means vb eb -> operate user o va vb = Ok v -> binary srt o ea eb = Ok e -> means (AV v) e.
  Proof.
    intros HO Sa Sb Pa Pb (( va' & Da & Aa) & Na & La) ((vb' & Db & Ab) & Nb & Lb) Hv H.
    destruct (is_econst ea && is_econst eb) eqn:BC.
    { apply andb_true_iff in BC as [C1 C2]. destruct ea; try discriminate C1. destruct eb; try discriminate C2.
      simpl in Da, Db. injection Da as <-. injection Db as <-. eapply fold_const_means; eauto. }
    assert (F : forall s sv q, seval s = Ok sv -> value_at user field s q -> arg_num sv = Ok (Fin q)).
    { intros s sv q E (a & E' & N). congruence. }
    assert (CALL : forall f, Ok (ECall true f [ea; eb]) = Ok e -> (forall l, efun user f l = user f l) ->
                 user f [va; vb] = Ok v -> means (AV v) e).
    { intros f E Ef Eu. injection E as <-. apply means_other with (v' := AV v); auto; [|apply same_arg_refl].
      rewrite denote_call. cbn [mapM]. rewrite Da, Db. cbn [bind]. rewrite Ef.
      rewrite <- (Hb f [va; vb] [va'; vb']) by (constructor; [auto|constructor; [auto|constructor]]). rewrite Eu. auto. }
    assert (H' : match o with
        | OAdd => combine_simplify srt ea eb
        | OSub => subtract_simplify srt ea eb
        | OMul => distribute_simplify srt ea eb
        | ODiv => do r <- reciprocal eb; distribute_simplify srt ea r
        | OPow =>
            match eb with
            | EConst c =>
                do q <- const_num c;
                match small_exponent q with
                | Some (true, n) => power srt n ea
                | Some (false, n) => neg_power srt n ea
                | None => Ok (ECall true "pow"%string [ea; eb])
                end
            | _ => Ok (ECall true "pow"%string [ea; eb])
            end
        | OFloorDiv => Ok (ECall true "numpy.floor_divide"%string [ea; eb])
        | OMod => Ok (ECall true "fmod"%string [ea; eb])
        | OXor => Ok (ECall true "xor"%string [ea; eb])
        | OBitAnd | OBitOr => Err NotImplementedError
        end = Ok e).
    { destruct ea; try exact H. destruct eb; try exact H. discriminate BC. }
    clear H. destruct o; try discriminate H'; simpl in HO.
    - destruct HO as [(p & Vp) (q & Vq)]. pose proof (F _ _ _ Sa Vp) as Np. pose proof (F _ _ _ Sb Vq) as Nq.
      simpl in Hv. rewrite (num2_fin _ _ _ _ _ _ _ Hv Np Nq eq_refl). apply means_num with (q := (p + q)%Qc); auto.
      unfold combine_simplify in H'. apply bind_ok_iff in H' as (x & X & H'). apply bind_ok_iff in H' as (y & Y & H').
      apply bind_ok_iff in H' as (z & Z & H'). injection H' as <-. apply pm_simplify_val.
      eapply pm_combine_val; [exact srt_perm|eapply pm_nf_safe; eauto|eapply pm_nf_safe; eauto|auto].
    - destruct HO as [(p & Vp) (q & Vq)]. pose proof (F _ _ _ Sa Vp) as Np. pose proof (F _ _ _ Sb Vq) as Nq.
      simpl in Hv. rewrite (num2_fin _ _ _ _ _ _ _ Hv Np Nq eq_refl). apply means_num with (q := (p - q)%Qc); auto.
      unfold subtract_simplify in H'. apply bind_ok_iff in H' as (x & X & H'). apply bind_ok_iff in H' as (y & Y & H').
      apply bind_ok_iff in H' as (z & Z & H'). injection H' as <-. apply pm_simplify_val.
      unfold pm_negate in Y. apply bind_ok_iff in Y as (w & W & Y). injection Y as <-.
      unfold Qcminus. eapply pm_combine_val; [exact srt_perm|eapply pm_nf_safe; eauto| |exact Z].
      pose proof (pm_nf_safe _ _ _ _ _ (Nb _ Nq) W) as V. apply pmv_terms in V as (ps & ns & P1 & P2 & ->).
      apply safe_pm. exists ns, ps. cbn [pp pn pc]. repeat split; auto. ring.
    - destruct HO as [(p & Vp) [(q & Vq) HP]]. pose proof (F _ _ _ Sa Vp) as Np. pose proof (F _ _ _ Sb Vq) as Nq.
      simpl in Hv. rewrite (num2_fin _ _ _ _ _ _ _ Hv Np Nq eq_refl). apply means_num with (q := (p * q)%Qc); auto.
      eapply distribute_means; eauto.
    - destruct HO as [(p & Vp) [(q & Vq & Zq) HP]]. pose proof (F _ _ _ Sa Vp) as Np. pose proof (F _ _ _ Sb Vq) as Nq.
      simpl in Hv. rewrite (num2_fin _ _ _ _ _ _ _ Hv Np Nq eq_refl). apply means_num with (q := (p * / q)%Qc).
      { simpl. apply qeqb_false in Zq. rewrite Zq. auto. }
      apply bind_ok_iff in H' as (r & R & H'). eapply distribute_means; eauto. eapply reciprocal_val; eauto.
    - apply (CALL _ H'); auto.
    - apply (CALL _ H'); auto.
    - assert (G : Ok (ECall true "pow" [ea; eb]) = Ok e -> means (AV v) e) by (intros E; apply (CALL _ E); auto).
      destruct eb; try (apply G; exact H'). apply bind_ok_iff in H' as (q & Q & H').
      simpl in Db. injection Db as <-. pose proof (const_num_val _ _ _ Q Ab) as Nq.
      specialize (HO _ q Pb Q).
      destruct (small_exponent q) as [[[|] n]|] eqn:Es; [| |auto].
      + apply small_exponent_spec in Es as [Hn Eq]. destruct HO as (p & Vp). pose proof (F _ _ _ Sa Vp) as Np.
        simpl in Hv. rewrite (Hp va vb q (Fin p) true n Hn Np Nq Eq) in Hv. injection Hv as <-.
        apply means_num with (q := qpow p n); [rewrite npow_fin; auto|]. eapply power_val; eauto.
      + apply small_exponent_spec in Es as [Hn Eq]. destruct HO as (p & Vp & Zp). pose proof (F _ _ _ Sa Vp) as Np.
        simpl in Hv. rewrite (Hp va vb q (Fin p) false n Hn Np Nq Eq) in Hv. injection Hv as <-.
        apply means_num with (q := (/ qpow p n)%Qc).
        { rewrite npow_fin. pose proof (qpow_nonzero p n Zp) as Z. apply qeqb_false in Z. simpl. rewrite Z.
          change (Ok (Fin (qc1 * / qpow p n)%Qc) = Ok (Fin (/ qpow p n)%Qc)). rewrite qc1_eq, Qcmult_1_l. auto. }
        eapply neg_power_val; eauto.
    - apply (CALL _ H'); auto.
  Qed.

  Lemma minus_means sa va ea e : finite user field sa -> seval sa = Ok va -> means va ea -> minus ea = Ok e ->
    forall x, arg_num va = Ok x -> means (AV (VNum (nneg x))) e.
  Proof.
    intros (q & a & Ea & Nq) Sa (D & N & L) H x Hx. assert (a = va) as -> by congruence.
    rewrite Nq in Hx. injection Hx as <-. apply means_num with (q := (- q)%Qc); auto.
    assert (G : (do p <- pm_negate ea; Ok (pm_simplify p)) = Ok e -> safe e (- q)%Qc).
    { clear H. intros H. apply bind_ok_iff in H as (p & P & H). injection H as <-. apply pm_simplify_val.
      unfold pm_negate in P. apply bind_ok_iff in P as (w & W & P). injection P as <-.
      pose proof (pm_nf_safe _ _ _ _ _ (N _ Nq) W) as V. apply pmv_terms in V as (ps & ns & P1 & P2 & ->).
      apply safe_pm. exists ns, ps. cbn [pp pn pc]. repeat split; auto. ring. }
    destruct ea; try (apply G; exact H). simpl in H. apply bind_ok_iff in H as (p & P & H). injection H as <-.
    pose proof (N _ Nq) as S. inversion S as [? ? _ (b & B1 & B2)| |]; subst. injection B1 as <-.
    destruct c as [[[y| | |]| | |]| |]; try discriminate P. injection P as ->. injection B2 as ->. apply num_safe.
  Qed.

  (** ** Lists of expressions *)
  Notation parse_list rel := (fix go (l : list src) : res (list expr) :=
                    match l with
                    | [] => Ok []
                    | a :: l => do e <- parse rel a; do es <- go l; Ok (e :: es)
                    end).
  Lemma parse_list_eq rel l : parse_list rel l = mapM (parse rel) l.
  Proof. induction l as [|x l IH]; simpl; auto. rewrite IH. auto. Qed.
  Definition keeps (s : src) : Prop :=
    good s -> forall rel v e, seval s = Ok v -> parse rel s = Ok e -> means v e.
  Lemma many_keep rel l : Forall keeps l -> Forall good l -> forall vs es,
    mapM seval l = Ok vs -> mapM (parse rel) l = Ok es -> Forall2 means vs es.
  Proof.
    intros HK HG. induction l as [|s l IH]; intros vs es Hv He; simpl in Hv, He.
    - injection Hv as <-. injection He as <-. constructor.
    - inversion HK; inversion HG; subst.
      apply bind_ok_iff in Hv as (v & V & Hv). apply bind_ok_iff in Hv as (vs' & Vs & Hv). injection Hv as <-.
      apply bind_ok_iff in He as (e & E & He). apply bind_ok_iff in He as (es' & Es & He). injection He as <-.
      constructor; eauto.
  Qed.
  Lemma truths_logic vs es bs : Forall2 means vs es -> truths vs = Ok bs -> Forall2 logic es bs.
  Proof.
    intros H. revert bs. unfold truths. induction H as [|v e vs es Hm H IH]; intros bs E; simpl in E.
    - injection E as <-. constructor.
    - apply bind_ok_iff in E as (b & Eb & E). apply bind_ok_iff in E as (bs' & Ebs & E). injection E as <-.
      constructor; auto. apply Hm; auto.
  Qed.

  Lemma cmp_list_seval r :
    (fix go (l : list (cmpop * src)) : res (list (cmpop * arg)) :=
                    match l with
                    | [] => Ok []
                    | (o, a) :: l => do v <- seval a; do vs <- go l; Ok ((o, v) :: vs)
                    end) r = mapM (fun p => do v <- seval (snd p); Ok (fst p, v)) r.
  Proof. induction r as [|[o a] r IH]; auto. cbn [mapM fst snd]. rewrite IH. destruct (seval a); auto. Qed.
  Lemma cmp_list_parse r :
    (fix go (l : list (cmpop * src)) : res (list (cmpop * expr)) :=
                      match l with
                      | [] => Ok []
                      | (o, a) :: l => do e <- parse false a; do es <- go l; Ok ((o, e) :: es)
                      end) r = mapM (fun p => do v <- parse false (snd p); Ok (fst p, v)) r.
  Proof. induction r as [|[o a] r IH]; auto. cbn [mapM fst snd]. rewrite IH. destruct (parse false a); auto. Qed.

  Lemma chain_keep r : Forall keeps (map snd r) -> Forall good (map snd r) -> Forall (no_nan user field) (map snd r) ->
    forall bs es a e rs b, mapM (fun p => do v <- seval (snd p); Ok (fst p, v)) r = Ok bs ->
      mapM (fun p => do v <- parse false (snd p); Ok (fst p, v)) r = Ok es ->
      means a e -> not_nan a -> compare_chain a bs = Ok b -> chain srt e es = Ok rs ->
      exists cs, Forall2 (lit_ok user field) rs cs /\ b = forallb bid cs.
  Proof.
    induction r as [|[o s] r IH]; intros HK HG HN bs es a e rs b Hv He Hm Ha Hc H; cbn [mapM fst snd map] in *.
    - injection Hv as <-. injection He as <-. injection Hc as <-. injection H as <-. exists []. auto.
    - inversion HK as [|? ? K1 K2]; inversion HG as [|? ? G1 G2]; inversion HN as [|? ? N1 N2]; subst.
      apply bind_ok_iff in Hv as (x & X & Hv). apply bind_ok_iff in Hv as (bs' & Vs & Hv). injection Hv as <-.
      apply bind_ok_iff in X as (v & V & X). injection X as <-.
      apply bind_ok_iff in He as (y & Y & He). apply bind_ok_iff in He as (es' & Es & He). injection He as <-.
      apply bind_ok_iff in Y as (e' & E & Y). injection Y as <-.
      simpl in Hc, H. apply bind_ok_iff in Hc as (c & C & Hc). apply bind_ok_iff in Hc as (d & D & Hc). injection Hc as <-.
      apply bind_ok_iff in H as (z & Z & H). apply bind_ok_iff in H as (zs & Zs & H). injection H as <-.
      pose proof (K1 G1 false _ _ V E) as M'.
      destruct (IH K2 G2 N2 bs' es' v e' zs d Vs Es M' (N1 _ V) D Zs) as (cs & C1 & ->).
      exists (c :: cs). split; auto. constructor; auto.
      destruct Hm as ((a' & Da & Aa) & _). destruct M' as ((v' & Dv & Av) & _).
      eapply relation_ok; [exact srt_perm|exact Da|exact Dv| | | |exact Z].
      + unfold not_nan in *. rewrite <- (same_arg_val _ _ Aa). auto.
      + unfold not_nan in *. rewrite <- (same_arg_val _ _ Av). exact (N1 _ V).
      + rewrite <- (compare_same o _ _ _ _ Aa Av). auto.
  Qed.

  Lemma parse_args_eq f l : (fix go (first : bool) (l : list src) : res (list expr) :=
                    match l with
                    | [] => Ok []
                    | a :: l => do e <- parse first a; do es <- go false l; Ok (e :: es)
                    end) f l = match l with [] => Ok [] | a :: l => do e <- parse f a; do es <- mapM (parse false) l; Ok (e :: es) end.
  Proof.
    assert (E : forall l, (fix go (first : bool) (l : list src) : res (list expr) :=
                    match l with
                    | [] => Ok []
                    | a :: l => do e <- parse first a; do es <- go false l; Ok (e :: es)
                    end) false l = mapM (parse false) l).
    { induction l0 as [|x l' IH]; simpl; auto. rewrite IH. auto. }
    destruct l as [|a l]; auto. destruct (parse f a); auto. cbn [bind]. rewrite E. auto.
  Qed.

  Lemma lit_logic e b : lit_ok user field e b -> denote e = Ok (AV (VBool b)) /\ logic e b /\ bool_shape e = true.
  Proof. intros H. pose proof H as [C D]. split; auto. destruct e; simpl in C; try tauto; auto. Qed.

  Theorem parse_keeps : forall s, keeps s.
  Proof.
    induction s as [c|l IH|s|l r IHl IHr|a IH|l IH|l IH|a IH|a IH|o a b IHa IHb|f l IH] using src_ind'; intros G rel v e S P.
    - injection S as <-. injection P as <-. apply means_other with (v' := AC (KS c)); auto. apply same_arg_refl.
    - inversion G; subst. simpl in S, P. rewrite seval_many in S.
      apply bind_ok_iff in S as (vs & Vs & S). apply bind_ok_iff in S as (ss & Ss & S). injection S as <-.
      rewrite parse_list_eq in P. apply bind_ok_iff in P as (es & Es & P). apply bind_ok_iff in P as (ks & Ks & P). injection P as <-.
      pose proof (many_keep false l IH H0 _ _ Vs Es) as M.
      assert (ss = ks) as ->.
      { clear - M Ss Ks. revert ss ks Ss Ks. induction M as [|v e vs es ((v' & D & A) & _) M IHM]; intros ss ks Ss Ks; simpl in Ss, Ks.
        - congruence.
        - apply bind_ok_iff in Ss as (x & X & Ss). apply bind_ok_iff in Ss as (xs & Xs & Ss). injection Ss as <-.
          apply bind_ok_iff in Ks as (y & Y & Ks). apply bind_ok_iff in Ks as (ys & Ys & Ks). injection Ks as <-.
          f_equal; auto. destruct e as [[s| |]| | | | | | | |]; try discriminate Y. injection Y as <-. injection D as <-.
          rewrite (same_arg_scal _ _ A) in X. congruence. }
      destruct (scal_set_In ks) as (m & Em & HI). apply means_other with (v' := AC (KSet m)); auto.
      + simpl. rewrite Em. auto.
      + right; right. exists ks, m. split; [|split]; auto. intros x. symmetry. apply HI.
    - injection P as <-. simpl in S. apply rmap_ok_iff in S as (w & W & ->).
      apply means_other with (v' := AV w); auto; [|apply same_arg_refl]. simpl. rewrite W. auto.
    - inversion G; subst. simpl in S, P. destruct rel; [|discriminate].
      rewrite cmp_list_seval in S. rewrite cmp_list_parse in P.
      apply bind_ok_iff in S as (a & A & S). apply bind_ok_iff in S as (bs & Bs & S). apply bind_ok_iff in S as (b & B & S). injection S as <-.
      apply bind_ok_iff in P as (ea & Ea & P). apply bind_ok_iff in P as (es & Es & P). apply bind_ok_iff in P as (rs & Rs & P).
      destruct (chain_keep r IHr H3 H4 bs es a ea rs b Bs Es (IHl H1 false _ _ A Ea) (H2 _ A) B Rs) as (cs & Cs & ->).
      destruct rs as [|x [|y rs]]; [discriminate| |].
      + injection P as <-. inversion Cs as [|? c ? ? L Cs']; subst. inversion Cs'; subst. simpl. rewrite andb_true_r.
        apply means_logic, lit_logic; auto.
      + apply means_logic. eapply and_all_ok; [exact srt_perm| |exact P].
        clear - Cs. induction Cs; constructor; auto. apply lit_logic; auto.
    - inversion G; subst. simpl in S, P. destruct rel; [|discriminate].
      apply bind_ok_iff in S as (w & W & S). apply bind_ok_iff in S as (b & B & S). injection S as <-.
      apply bind_ok_iff in P as (ea & Ea & P). pose proof (IH H0 true _ _ W Ea) as (_ & _ & L).
      apply means_logic. eapply negation_ok; eauto.
    - inversion G; subst. simpl in S, P. destruct rel; [|discriminate]. rewrite seval_many in S. rewrite parse_list_eq in P.
      apply bind_ok_iff in S as (vs & Vs & S). apply bind_ok_iff in S as (bs & Bs & S). injection S as <-.
      apply bind_ok_iff in P as (es & Es & P). pose proof (many_keep true l IH H0 _ _ Vs Es) as M.
      apply means_logic. eapply and_all_ok; [exact srt_perm|eapply truths_logic; eauto|exact P].
    - inversion G; subst. simpl in S, P. destruct rel; [|discriminate]. rewrite seval_many in S. rewrite parse_list_eq in P.
      apply bind_ok_iff in S as (vs & Vs & S). apply bind_ok_iff in S as (bs & Bs & S). injection S as <-.
      apply bind_ok_iff in P as (es & Es & P). pose proof (many_keep true l IH H0 _ _ Vs Es) as M.
      apply means_logic. eapply or_all_ok; [exact srt_perm|eapply truths_logic; eauto|exact P].
    - inversion G; subst. simpl in S, P. apply bind_ok_iff in S as (w & W & S). apply bind_ok_iff in S as (x & X & S). injection S as <-.
      apply bind_ok_iff in P as (ea & Ea & P). eapply minus_means; eauto.
    - inversion G; subst. simpl in S, P. eapply IH; eauto.
    - inversion G; subst. simpl in S, P. apply bind_ok_iff in S as (x & X & S). apply bind_ok_iff in S as (y & Y & S).
      apply rmap_ok_iff in S as (w & W & ->).
      apply bind_ok_iff in P as (ea & Ea & P). apply bind_ok_iff in P as (eb & Eb & P).
      eapply binary_means; eauto.
    - inversion G; subst. simpl in S, P. rewrite seval_many in S. rewrite parse_args_eq in P.
      apply bind_ok_iff in S as (vs & Vs & S). apply rmap_ok_iff in S as (w & W & ->).
      apply bind_ok_iff in P as (es & Es & P). injection P as <-.
      assert (M : Forall2 means vs es).
      { destruct l as [|s l].
        - simpl in Vs. injection Vs as <-. injection Es as <-. constructor.
        - inversion IH as [|? ? K1 K2]; inversion H0 as [|? ? G1 G2]; subst. simpl in Vs.
          apply bind_ok_iff in Vs as (v & V & Vs). apply bind_ok_iff in Vs as (vs' & Vs' & Vs). injection Vs as <-.
          apply bind_ok_iff in Es as (e & E & Es). apply bind_ok_iff in Es as (es' & Es' & Es). injection Es as <-.
          constructor; [eapply K1; eauto|]. eapply many_keep; eauto. }
      assert (D : exists vs', mapM denote es = Ok vs' /\ Forall2 same_arg vs vs').
      { clear - M. induction M as [|v e vs es ((v' & D & A) & _) M (vs' & IH1 & IH2)]; [exists []; auto|].
        exists (v' :: vs'). split; auto. simpl. rewrite D. cbn [bind]. rewrite IH1. auto. }
      destruct D as (vs' & D1 & D2). apply means_other with (v' := AV w); auto; [|apply same_arg_refl].
      rewrite denote_call, D1. cbn [bind]. rewrite <- (efun_same user Hb field f vs vs' D2), W. auto.
  Qed.
End Main.
