(** The fields and the functions of an expression: normalization and lowering add none. *)
From Coq Require Import String Permutation.
From Verif Require Import Num NumFacts Base Tree Elem Order Expr ExprSpec ExprFacts ExprLower ExprAlg ExprLogic ExprMain ExprShape.
Open Scope string_scope.
Local Open Scope list_scope.

(** The names of the fields that are written in an expression, and of the functions. *)
Fixpoint reads (s : src) : list string :=
  match s with
  | XLit _ => []
  | XName n => [n]
  | XSet l | XAnd l | XOr l | XCall _ l => flat_map reads l
  | XCmp l r => reads l ++ flat_map (fun p => reads (snd p)) r
  | XNot a | XNeg a | XPos a => reads a
  | XBin _ a b => reads a ++ reads b
  end.
Fixpoint calls (s : src) : list string :=
  match s with
  | XLit _ | XName _ => []
  | XSet l | XAnd l | XOr l => flat_map calls l
  | XCall f l => f :: flat_map calls l
  | XCmp l r => calls l ++ flat_map (fun p => calls (snd p)) r
  | XNot a | XNeg a | XPos a => calls a
  | XBin _ a b => calls a ++ calls b
  end.
(** The functions that operators become. *)
Definition operators : list string :=
  ["pow"; "fmod"; "xor"; "numpy.floor_divide"; "numpy.add"; "numpy.subtract"; "numpy.multiply"; "numpy.true_divide";
   "numpy.equal"; "numpy.not_equal"; "numpy.less"; "numpy.less_equal"; "numpy.isin"; "numpy.logical_not";
   "numpy.logical_or"; "numpy.logical_and"].

Section Names.
  Variable srt : list expr -> list expr.
  Hypothesis srt_perm : forall l, Permutation l (srt l).
  Variable defs : string -> option expr.
  Notation parse := (parse srt defs).
  (** What holds of the fields and of the functions. *)
  Variables okn okf : string -> Prop.
  Hypothesis Fop : forall f, In f operators -> okf f.

  Inductive nice : expr -> Prop :=
  | n_const c : nice (EConst c)
  | n_name s : okn s -> nice (EName s)
  | n_pred s b : okn s -> nice (EPred s b)
  | n_call b f l : okf f -> Forall nice l -> nice (ECall b f l)
  | n_rel c l r : nice l -> nice r -> nice (ERel c l r)
  | n_pm c p n : Forall (fun t => Forall nice (tp t) /\ Forall nice (tn t)) p ->
                 Forall (fun t => Forall nice (tp t) /\ Forall nice (tn t)) n -> nice (EPM c p n)
  | n_td t : Forall nice (tp t) -> Forall nice (tn t) -> nice (ETD t)
  | n_and l : Forall nice l -> nice (EAnd l)
  | n_or l : Forall nice l -> nice (EOr l).
  Notation nicet t := (Forall nice (tp t) /\ Forall nice (tn t)).
  Notation nices := (Forall (fun t => nicet t)).
  Definition nicep (p : pm) : Prop := nices (pp p) /\ nices (pn p).
  Hypothesis Hdefs : forall n e, defs n = Some e -> nice e.
  Lemma Fops : okf "pow" /\ okf "fmod" /\ okf "xor" /\ okf "numpy.floor_divide".
  Proof. repeat split; apply Fop; simpl; tauto. Qed.

  (** ** Arithmetic *)
  Lemma perm_F {A} (P : A -> Prop) l m : Permutation l m -> Forall P l -> Forall P m.
  Proof. intros H. rewrite H. auto. Qed.
  Lemma td_nf_nice e t : nice e -> td_nf e = Ok t -> nicet t.
  Proof.
    intros D H. destruct e; try (injection H as <-; cbn [tp tn]; auto; fail).
    - destruct c as [[[q| | |]| | |]| |]; try discriminate H. injection H as <-. cbn [tp tn]; auto.
    - injection H as <-. inversion D; auto.
  Qed.
  Lemma pm_nf_nice e p : nice e -> pm_nf e = Ok p -> nicep p.
  Proof.
    intros D H. assert (G : (do t <- td_nf e;
        Ok (if is_nil (tp t) && is_nil (tn t) then PM (tc t) [] []
            else if qltb (tc t) qc0 then PM qc0 [] [T (- tc t)%Qc (tp t) (tn t)]
            else PM qc0 [t] [])) = Ok p -> nicep p).
    { intros K. apply bind_ok_iff in K as (t & Ht & K). apply td_nf_nice in Ht as [A B]; auto. injection K as <-.
      destruct (is_nil (tp t) && is_nil (tn t)); [split; cbn [pp pn]; auto|].
      destruct (qltb (tc t) qc0); split; cbn [pp pn]; auto. }
    destruct e; try (apply G; exact H). injection H as <-. inversion D; subst. split; auto.
  Qed.
  Lemma del_nth_F (P : expr -> Prop) l : forall i m, del_nth i l = Ok m -> Forall P l -> Forall P m.
  Proof.
    induction l as [|x l IH]; intros [|i] m H F; try discriminate H; inversion F; subst.
    - injection H as <-. auto.
    - apply rmap_ok_iff in H as (k & K & ->). constructor; eauto.
  Qed.
  Lemma cancel_go_F (P : expr -> Prop) orig neg : forall pos r, cancel_go orig pos neg = Ok r -> Forall P pos -> Forall P neg ->
    Forall P (fst r) /\ Forall P (snd r).
  Proof.
    induction neg as [|y ys IH]; intros pos r H Fp Fn; simpl in H.
    - injection H as <-. auto.
    - inversion Fn; subst. destruct (find_index y orig) as [i|].
      + apply bind_ok_iff in H as (k & K & H). eapply IH; eauto. eapply del_nth_F; eauto.
      + apply bind_ok_iff in H as (k & K & H). injection H as <-. apply IH in K as [A B]; auto. cbn [fst snd]. auto.
  Qed.
  Lemma cancel_nice t u : nicet t -> cancel t = Ok u -> nicet u.
  Proof.
    intros [A B] H. unfold cancel in H. apply bind_ok_iff in H as (k & K & H). injection H as <-. cbn [tp tn].
    eapply cancel_go_F; eauto.
  Qed.
  Lemma merge_nice x l : nicet x -> nices l -> nices (merge x l).
  Proof.
    intros D H. induction H as [|y l Hy Hl IH]; simpl; auto. destruct (similar x y); auto.
  Qed.
  Lemma gather_nice sgn l : nices l -> forall st st', gather sgn l st = Ok st' -> nices (snd st) -> nices (snd st').
  Proof.
    induction 1 as [|x l Hx Hl IH]; intros st st' H Hs; simpl in H; [injection H as <-; auto|].
    apply bind_ok_iff in H as (y & Y & H). apply cancel_nice in Y; auto. eapply IH; [exact H|].
    destruct (qeqb (tc y) qc0); auto. destruct (is_nil (tp y) && is_nil (tn y)); auto. cbn [snd]. apply merge_nice; auto.
  Qed.
  Lemma filter_F {A} (P : A -> Prop) f l : Forall P l -> Forall P (filter f l).
  Proof. rewrite !Forall_forall. intros H x Hx. apply filter_In in Hx as [Hx _]. auto. Qed.
  Lemma collect_nice p q : nicep p -> collect srt p = Ok q -> nicep q.
  Proof.
    intros [A B] H. unfold collect in H. apply bind_ok_iff in H as (s1 & G1 & H). apply bind_ok_iff in H as (s2 & G2 & H).
    injection H as <-. apply gather_nice in G1; auto; [|constructor]. apply gather_nice in G2; auto.
    split; cbn [pp pn]; (eapply perm_F; [apply srt_t_perm; auto|]).
    - apply filter_F, filter_F; auto.
    - apply Forall_map. cbn [tp tn]. apply filter_F, filter_F; auto.
  Qed.
  Lemma td_combine_nice t u : nicet t -> nicet u -> nicet (td_combine srt t u).
  Proof.
    intros [A1 A2] [B1 B2]. unfold td_combine. cbn [tp tn]. split; (eapply perm_F; [apply srt_perm|]); apply Forall_app; auto.
  Qed.
  Lemma td_const_nice c : nicet (td_const c).
  Proof. split; constructor. Qed.
  Lemma products_nice l m : nices l -> nices m -> nices (products srt l m).
  Proof.
    intros Hl Hm. apply Forall_forall. intros t Ht. unfold products in Ht. apply in_flat_map in Ht as (x & Hx & Ht).
    apply in_map_iff in Ht as (y & <- & Hy). rewrite Forall_forall in Hl, Hm. apply td_combine_nice; auto.
  Qed.
  Lemma pm_combine_nice a b r : nicep a -> nicep b -> pm_combine srt a b = Ok r -> nicep r.
  Proof.
    intros [A1 A2] [B1 B2] H. eapply collect_nice; [|exact H].
    split; cbn [pp pn]; (eapply perm_F; [apply srt_t_perm; auto|]); apply Forall_app; auto.
  Qed.
  Lemma pm_distribute_nice a b r : nicep a -> nicep b -> pm_distribute srt a b = Ok r -> nicep r.
  Proof.
    intros [A1 A2] [B1 B2] H. eapply collect_nice; [|exact H].
    assert (C1 : forall l c, nices l -> nices (map (fun x => td_combine srt x (td_const c)) l)).
    { intros l c Hl. apply Forall_map. eapply Forall_impl; [|exact Hl]. intros t Ht. apply td_combine_nice; auto. apply td_const_nice. }
    assert (C2 : forall l c, nices l -> nices (map (fun x => td_combine srt (td_const c) x) l)).
    { intros l c Hl. apply Forall_map. eapply Forall_impl; [|exact Hl]. intros t Ht. apply td_combine_nice; auto. apply td_const_nice. }
    split; cbn [pp pn]; repeat (apply Forall_app; split); auto using products_nice.
  Qed.
  Lemma td_simplify_nice t : nicet t -> nice (td_simplify t).
  Proof.
    intros [A B]. assert (G : nice (ETD t)) by (constructor; auto). unfold td_simplify.
    destruct (is_nil (tp t) && is_nil (tn t)); [constructor|]. destruct (qeqb (tc t) qc1); auto.
    destruct (tp t) as [|x [|]]; auto. destruct (tn t); auto. inversion A; auto.
  Qed.
  Lemma pm_simplify_nice p : nicep p -> nice (pm_simplify p).
  Proof.
    intros [A B]. assert (G : nice (pm_expr p)) by (constructor; auto). unfold pm_simplify.
    destruct (is_nil (pp p) && is_nil (pn p)); [constructor|]. destruct (qeqb (pc p) qc0); auto.
    destruct (pp p) as [|t [|]], (pn p) as [|u [|]]; auto; apply td_simplify_nice.
    - inversion B; auto.
    - inversion A; auto.
  Qed.
  Lemma pm_expr_nice p : nicep p -> nice (pm_expr p).
  Proof. intros [A B]. constructor; auto. Qed.
  Lemma rep_F {A} (P : A -> Prop) n l : Forall P l -> Forall P (rep n l).
  Proof. rewrite !Forall_forall. intros H x Hx. apply H. eapply rep_In; eauto. Qed.
  Lemma td_negate_nice t u : nicet t -> td_negate t = Ok u -> nicet u.
  Proof. intros [A B] H. unfold td_negate in H. apply bind_ok_iff in H as (c & _ & H). injection H as <-. auto. Qed.
  Lemma reciprocal_nice b r : nice b -> reciprocal b = Ok r -> nice r.
  Proof.
    intros D H. unfold reciprocal in H. apply bind_ok_iff in H as (p & P & H). apply bind_ok_iff in H as (t & Ht & H). injection H as <-.
    apply pm_nf_nice in P; auto. pose proof (pm_expr_nice _ P) as W. destruct P as [A B].
    enough (nicet t) by (constructor; tauto).
    assert (WH : td_negate (T qc1 [pm_expr p] []) = Ok t -> nicet t) by (intros E; eapply td_negate_nice; [|exact E]; cbn [tp tn]; auto).
    destruct (is_nil (pp p) && is_nil (pn p)).
    { apply bind_ok_iff in Ht as (c & _ & Ht). injection Ht as <-. cbn [tp tn]. auto. }
    destruct (qeqb (pc p) qc0); auto.
    destruct (pp p) as [|x [|]], (pn p) as [|y [|]]; auto.
    - apply bind_ok_iff in Ht as (u & U & Ht). injection Ht as <-. inversion B; subst. apply td_negate_nice in U; cbn [tp tn]; auto.
    - inversion A; subst. eapply td_negate_nice; eauto.
  Qed.
  Lemma rep_term t n c : nicet t -> nicet (T c (srt (rep n (tp t))) (srt (rep n (tn t)))).
  Proof. intros [A B]. cbn [tp tn]. split; (eapply perm_F; [apply srt_perm|]); apply rep_F; auto. Qed.
  Lemma power_nice n a e : nice a -> power srt n a = Ok e -> nice e.
  Proof.
    intros D H. unfold power in H. apply bind_ok_iff in H as (p & P & H). injection H as <-.
    apply pm_nf_nice in P; auto. pose proof (pm_expr_nice _ P) as W. destruct P as [A B]. apply pm_simplify_nice.
    assert (WH : nicep (PM qc0 [T qc1 (rep n [pm_expr p]) []] [])).
    { split; cbn [pp pn]; auto. constructor; auto. cbn [tp tn]. split; auto. apply rep_F. auto. }
    destruct (qeqb (pc p) qc0); auto.
    destruct (pp p) as [|x [|]], (pn p) as [|y [|]]; auto.
    - inversion B; subst. pose proof (rep_term y n (qpow (tc y) n) H1). destruct (Nat.even n); split; cbn [pp pn]; auto.
    - inversion A; subst. pose proof (rep_term x n (qpow (tc x) n) H1). split; cbn [pp pn]; auto.
  Qed.
  Lemma neg_power_nice n a e : nice a -> neg_power srt n a = Ok e -> nice e.
  Proof.
    intros D H. unfold neg_power in H. apply bind_ok_iff in H as (p & P & H). apply bind_ok_iff in H as (r & Q & H). injection H as <-.
    apply pm_nf_nice in P; auto. pose proof (pm_expr_nice _ P) as W. destruct P as [A B]. apply pm_simplify_nice.
    assert (WH : Ok (PM qc0 [T qc1 [] (rep n [pm_expr p])] []) = Ok r -> nicep r).
    { intros E. injection E as <-. split; cbn [pp pn]; auto. constructor; auto. cbn [tp tn]. split; auto. apply rep_F. auto. }
    destruct (qeqb (pc p) qc0); auto.
    destruct (pp p) as [|x [|]], (pn p) as [|y [|]]; auto.
    - apply bind_ok_iff in Q as (c & _ & Q). injection Q as <-. inversion B; subst. destruct H1 as [H1 H1'].
      pose proof (rep_term (T c (tn y) (tp y)) n c (Logic.conj H1' H1)). cbn [tp tn] in H. destruct (Nat.even n); split; cbn [pp pn]; auto.
    - apply bind_ok_iff in Q as (c & _ & Q). injection Q as <-. inversion A; subst. destruct H1 as [H1 H1'].
      pose proof (rep_term (T c (tn x) (tp x)) n c (Logic.conj H1' H1)). cbn [tp tn] in H. split; cbn [pp pn]; auto.
  Qed.
  Lemma binary_nice o a b e : nice a -> nice b -> binary srt o a b = Ok e -> nice e.
  Proof.
    intros Da Db H.
    assert (G : match o with
        | OAdd => combine_simplify srt a b
        | OSub => subtract_simplify srt a b
        | OMul => distribute_simplify srt a b
        | ODiv => do r <- reciprocal b; distribute_simplify srt a r
        | OPow =>
            match b with
            | EConst c =>
                do q <- const_num c;
                match small_exponent q with
                | Some (true, n) => power srt n a
                | Some (false, n) => neg_power srt n a
                | None => Ok (ECall true "pow"%string [a; b])
                end
            | _ => Ok (ECall true "pow"%string [a; b])
            end
        | OFloorDiv => Ok (ECall true "numpy.floor_divide"%string [a; b])
        | OMod => Ok (ECall true "fmod"%string [a; b])
        | OXor => Ok (ECall true "xor"%string [a; b])
        | OBitAnd | OBitOr => Err NotImplementedError
        end = Ok e -> nice e).
    { clear H. intros H.
      assert (C : forall f, okf f -> Ok (ECall true f [a; b]) = Ok e -> nice e) by (intros f Hf E; injection E as <-; constructor; auto).
      destruct Fops as (F1 & F2 & F3 & F4).
      destruct o; try (refine (C _ _ H); assumption); try discriminate H.
      - unfold combine_simplify in H. apply bind_ok_iff in H as (p & P & H). apply bind_ok_iff in H as (q & Q & H).
        apply bind_ok_iff in H as (r & K & H). injection H as <-. apply pm_simplify_nice. exact (pm_combine_nice _ _ _ (pm_nf_nice _ _ Da P) (pm_nf_nice _ _ Db Q) K).
      - unfold subtract_simplify in H. apply bind_ok_iff in H as (p & P & H). apply bind_ok_iff in H as (q & Q & H).
        apply bind_ok_iff in H as (r & K & H). injection H as <-. apply pm_simplify_nice.
        unfold pm_negate in Q. apply bind_ok_iff in Q as (q' & Q & E). injection E as <-.
        eapply pm_combine_nice; [eapply pm_nf_nice; [|exact P]; auto| |exact K]. apply pm_nf_nice in Q as [? ?]; auto. split; cbn [pp pn]; auto.
      - unfold distribute_simplify in H. apply bind_ok_iff in H as (p & P & H). apply bind_ok_iff in H as (q & Q & H).
        apply bind_ok_iff in H as (r & K & H). injection H as <-. apply pm_simplify_nice. exact (pm_distribute_nice _ _ _ (pm_nf_nice _ _ Da P) (pm_nf_nice _ _ Db Q) K).
      - apply bind_ok_iff in H as (v & V & H). apply reciprocal_nice in V; auto.
        unfold distribute_simplify in H. apply bind_ok_iff in H as (p & P & H). apply bind_ok_iff in H as (q & Q & H).
        apply bind_ok_iff in H as (r & K & H). injection H as <-. apply pm_simplify_nice. exact (pm_distribute_nice _ _ _ (pm_nf_nice _ _ Da P) (pm_nf_nice _ _ V Q) K).
      - destruct b; try (refine (C _ _ H); assumption). apply bind_ok_iff in H as (q & Q & H).
        destruct (small_exponent q) as [[[] n]|]; [exact (power_nice _ _ _ Da H)|exact (neg_power_nice _ _ _ Da H)|refine (C _ _ H); assumption]. }
    destruct a; try (apply G; exact H). destruct b; try (apply G; exact H).
    clear - H. destruct o; simpl in H; try discriminate H;
      apply bind_ok_iff in H as (p & _ & H); apply bind_ok_iff in H as (q & _ & H); try (injection H as <-; constructor).
    apply bind_ok_iff in H as (r & _ & H); injection H as <-; constructor.
  Qed.
  Lemma minus_nice a e : nice a -> minus a = Ok e -> nice e.
  Proof.
    intros D H. assert (G : (do p <- pm_negate a; Ok (pm_simplify p)) = Ok e -> nice e).
    { intros K. apply bind_ok_iff in K as (p & P & K). injection K as <-. unfold pm_negate in P. apply bind_ok_iff in P as (q & Q & P).
      injection P as <-. apply pm_simplify_nice. apply pm_nf_nice in Q as [A B]; auto. split; auto. }
    destruct a; try (apply G; exact H). apply bind_ok_iff in H as (q & _ & H). injection H as <-. constructor.
  Qed.


  (** ** Logic *)
  Lemma sd_nice l : Forall nice l -> Forall nice (srt (dedup l)).
  Proof. apply sd_F; auto. Qed.
  Lemma mk_and_nice l : Forall nice l -> nice (mk_and srt l).
  Proof. intros H. constructor. apply sd_nice; auto. Qed.
  Lemma and_args_nice e : nice e -> Forall nice (and_args e).
  Proof. intros H. destruct e; simpl; auto. inversion H; auto. Qed.
  Lemma or_nf_nice e o : nice e -> or_nf e = Ok o -> Forall nice o.
  Proof.
    intros H E. destruct e; try discriminate E; injection E as <-; repeat constructor; auto; inversion H; subst; auto.
  Qed.
  Lemma or_combine_nice a b : Forall nice a -> Forall nice b -> Forall nice (or_combine srt a b).
  Proof. intros A B. apply sd_nice, Forall_app; auto. Qed.
  Lemma and_combine_nice a b : Forall nice a -> Forall nice b -> Forall nice (and_combine srt a b).
  Proof.
    intros A B. apply sd_nice, Forall_forall. intros z Hz. apply in_flat_map in Hz as (x & Hx & Hz). apply in_map_iff in Hz as (y & <- & Hy).
    rewrite Forall_forall in A, B. apply mk_and_nice, Forall_app. split; apply and_args_nice; auto.
  Qed.
  Lemma negate_lit_nice x y : nice x -> negate_lit x = Ok y -> nice y.
  Proof.
    intros H E. destruct x as [| | | |[] ? ?| | | |]; try discriminate E; inversion H; subst; injection E as <-; constructor; auto.
  Qed.
  Lemma or_negate_nice e o : nice e -> or_negate srt e = Ok o -> Forall nice o.
  Proof.
    intros H E. unfold or_negate in E. apply bind_ok_iff in E as (d & D & E). apply bind_ok_iff in E as (u & U & E). injection E as <-.
    apply or_nf_nice in D; auto.
    assert (G : Forall (Forall nice) u).
    { clear - U D srt_perm. apply mapM_Forall2 in U. induction U as [|x l d u X U IH]; auto. inversion D as [|? ? D1 D2]; subst.
      constructor; auto. apply and_args_nice in D1. apply mapM_Forall2 in X. revert D1. induction X as [|y z m l Y _ IHm]; intros D1; auto.
      inversion D1; subst. constructor; auto. eapply negate_lit_nice; eauto. }
    apply sd_nice, Forall_map, Forall_forall. intros c Hc. apply mk_and_nice.
    pose proof (choices_F _ _ G) as C. rewrite Forall_forall in C. auto.
  Qed.
  Lemma and_simplify_nice l : Forall nice l -> nice (and_simplify l).
  Proof.
    intros H. unfold and_simplify. destruct (forallb _ l); [constructor|]. destruct (existsb _ l); [constructor|].
    destruct l as [|x [|]]; try (constructor; auto; fail). inversion H; auto.
  Qed.
  Lemma or_simplify_nice o : Forall nice o -> nice (or_simplify o).
  Proof.
    intros H. unfold or_simplify. destruct (forallb _ o); [constructor|]. destruct (existsb _ o); [constructor|].
    destruct o as [|x [|]]; try (constructor; auto; fail). inversion H; subst. apply and_simplify_nice, and_args_nice; auto.
  Qed.
  Lemma all_nice f es e : (forall a b, Forall nice a -> Forall nice b -> Forall nice (f a b)) -> Forall nice es ->
    (do os <- mapM or_nf es; do o <- reduce1 f os; Ok (or_simplify o)) = Ok e -> nice e.
  Proof.
    intros Hf H E. apply bind_ok_iff in E as (os & Os & E). apply bind_ok_iff in E as (o & O & E). injection E as <-.
    assert (G : Forall (Forall nice) os).
    { apply mapM_Forall2 in Os. clear - Os H. induction Os; auto. inversion H; subst. constructor; auto. eapply or_nf_nice; eauto. }
    apply or_simplify_nice. destruct os as [|x os]; [discriminate|]. injection O as <-. inversion G as [|? ? Gx Gos]; subst.
    clear - Hf Gx Gos. revert x Gx. induction Gos; simpl; auto.
  Qed.
  Lemma negation_nice a e : nice a -> negation srt a = Ok e -> nice e.
  Proof.
    intros H E. assert (G : (do o <- or_negate srt a; Ok (or_simplify o)) = Ok e -> nice e).
    { intros K. apply bind_ok_iff in K as (o & O & K). injection K as <-. apply or_simplify_nice. eapply or_negate_nice; eauto. }
    destruct a; try (apply G; exact E). injection E as <-. inversion H; subst. constructor; auto.
  Qed.
  Lemma relation_nice o l r e : nice l -> nice r -> relation srt o l r = Ok e -> nice e.
  Proof.
    intros Dl Dr H.
    assert (S : forall a b, srt [l; r] = [a; b] -> nice a /\ nice b).
    { intros a b E. assert (F : Forall nice [a; b]) by (rewrite <- E; eapply perm_F; [apply srt_perm|auto]).
      inversion F as [|? ? F1 F2]; inversion F2; auto. }
    destruct o; simpl in H; try (injection H as <-; constructor; auto; fail).
    - destruct (srt [l; r]) as [|a [|b [|]]]; try discriminate. injection H as <-. destruct (S a b eq_refl). constructor; auto.
    - destruct (srt [l; r]) as [|a [|b [|]]]; try discriminate. injection H as <-. destruct (S a b eq_refl). constructor; auto.
    - destruct r as [[]| | | | | | | |]; try discriminate. injection H as <-. constructor; auto.
    - destruct r as [[]| | | | | | | |]; try discriminate. injection H as <-. constructor; auto.
  Qed.
  Lemma chain_nice rest : Forall (fun p => nice (snd p)) rest -> forall l es, nice l -> chain srt l rest = Ok es -> Forall nice es.
  Proof.
    induction 1 as [|[o r] rest Hr _ IH]; intros l es Dl E; simpl in E; [injection E as <-; auto|].
    apply bind_ok_iff in E as (x & X & E). apply bind_ok_iff in E as (xs & Xs & E). injection E as <-.
    constructor; [exact (relation_nice _ _ _ _ Dl Hr X)|exact (IH _ _ Hr Xs)].
  Qed.

  (** ** Parsing *)
  Notation parse_list rel := (fix go (l : list src) : res (list expr) :=
                    match l with
                    | [] => Ok []
                    | a :: l => do e <- parse rel a; do es <- go l; Ok (e :: es)
                    end).
  Definition uses (s : src) : Prop := (forall n, In n (reads s) -> okn n) /\ (forall f, In f (calls s) -> okf f).
  Notation keeps s := (uses s -> forall rel e, parse rel s = Ok e -> nice e).
  Lemma many_nice rel l : Forall (fun s => keeps s) l ->
    (forall n, In n (flat_map reads l) -> okn n) -> (forall f, In f (flat_map calls l) -> okf f) ->
    forall es, parse_list rel l = Ok es -> Forall nice es.
  Proof.
    induction 1 as [|x l Hx _ IH]; intros HN HF es E; [injection E as <-; auto|].
    apply bind_ok_iff in E as (y & Y & E). apply bind_ok_iff in E as (ys & Ys & E). injection E as <-.
    simpl in HN, HF. constructor.
    - eapply Hx; eauto. split; intros; [apply HN|apply HF]; apply in_app_iff; auto.
    - apply IH; auto; intros; [apply HN|apply HF]; apply in_app_iff; auto.
  Qed.
  Theorem parse_nice : forall s, keeps s.
  Proof.
    induction s as [c|l IH|s|l r IHl IHr|a IH|l IH|l IH|a IH|a IH|o a b IHa IHb|f l IH] using src_ind'; intros [HN HF] rel e H; simpl in HN, HF, H.
    - injection H as <-. constructor.
    - apply bind_ok_iff in H as (es & _ & H). apply bind_ok_iff in H as (ss & _ & H). injection H as <-. constructor.
    - destruct (defs s) as [d|] eqn:D; injection H as <-; [eauto|constructor; auto].
    - destruct rel; [|discriminate]. apply bind_ok_iff in H as (x & X & H). apply bind_ok_iff in H as (es & Es & H). apply bind_ok_iff in H as (rs & Rs & H).
      assert (Dx : nice x) by (eapply IHl; eauto; split; intros; [apply HN|apply HF]; apply in_app_iff; auto).
      assert (Des : Forall (fun p => nice (snd p)) es).
      { assert (HN' : forall n, In n (flat_map (fun p : cmpop * src => reads (snd p)) r) -> okn n) by (intros; apply HN, in_app_iff; auto).
        assert (HF' : forall n, In n (flat_map (fun p : cmpop * src => calls (snd p)) r) -> okf n) by (intros; apply HF, in_app_iff; auto).
        clear - IHr HN' HF' Es. revert es Es. induction r as [|[c y] r IH]; intros es Es; [injection Es as <-; auto|].
        apply bind_ok_iff in Es as (z & Z & Es). apply bind_ok_iff in Es as (zs & Zs & Es). injection Es as <-.
        simpl in HN', HF'. inversion IHr as [|? ? Hy Hr]; subst. constructor.
        - cbn [snd] in *. eapply Hy; eauto. split; intros; [apply HN'|apply HF']; apply in_app_iff; auto.
        - apply IH; auto; intros; [apply HN'|apply HF']; apply in_app_iff; auto. }
      pose proof (chain_nice _ Des _ _ Dx Rs) as L.
      assert (G : and_all srt rs = Ok e -> nice e) by (intros K; eapply all_nice; [apply and_combine_nice|exact L|exact K]).
      destruct rs as [|y [|]]; [discriminate| |auto]. injection H as <-. inversion L; auto.
    - destruct rel; [|discriminate]. apply bind_ok_iff in H as (x & X & H). eapply negation_nice; [|exact H]. eapply IH; eauto. split; auto.
    - destruct rel; [|discriminate]. apply bind_ok_iff in H as (es & Es & H). eapply all_nice; [apply and_combine_nice| |exact H]. eapply many_nice; eauto.
    - destruct rel; [|discriminate]. apply bind_ok_iff in H as (es & Es & H). eapply all_nice; [apply or_combine_nice| |exact H]. eapply many_nice; eauto.
    - apply bind_ok_iff in H as (x & X & H). eapply minus_nice; [|exact H]. eapply IH; eauto. split; auto.
    - eapply IH; eauto. split; auto.
    - apply bind_ok_iff in H as (x & X & H). apply bind_ok_iff in H as (y & Y & H).
      eapply binary_nice; [| |exact H]; [eapply IHa; eauto|eapply IHb; eauto]; split; intros; (apply HN || apply HF); apply in_app_iff; auto.
    - apply bind_ok_iff in H as (es & Es & H). injection H as <-. constructor; [auto|].
      destruct l as [|a l]; [injection Es as <-; auto|].
      apply bind_ok_iff in Es as (x & X & Es). apply bind_ok_iff in Es as (xs & Xs & Es). injection Es as <-.
      assert (E : forall l, (fix go (first : bool) (l : list src) : res (list expr) :=
                    match l with
                    | [] => Ok []
                    | a :: l => do e <- parse first a; do es <- go false l; Ok (e :: es)
                    end) false l = parse_list false l) by (clear; induction l as [|y m IHm]; auto; rewrite <- IHm; reflexivity).
      rewrite E in Xs. simpl in HN, HF. inversion IH as [|? ? H1 H2]; subst. constructor.
      + eapply H1; eauto. split; intros; [apply HN|apply HF; right]; apply in_app_iff; auto.
      + eapply many_nice; eauto; intros; [apply HN|apply HF; right]; apply in_app_iff; auto.
  Qed.
End Names.

(** ** Lowering *)
Section Lower.
  Variables okn okf : string -> Prop.
  Hypothesis Fop : forall f, In f operators -> okf f.
  Variable tsrt : list tree -> list tree.
  Hypothesis tsrt_perm : forall l, Permutation l (tsrt l).
  Notation totree := (totree tsrt).

  Inductive tnice : tree -> Prop :=
  | tn_const c : tnice (TConst c)
  | tn_name s : okn s -> tnice (TName s)
  | tn_pred s b : okn s -> tnice (TPred s b)
  | tn_call f l : okf f -> Forall tnice l -> tnice (TCall f l).

  Lemma reduce_nice f n : okf f -> forall l t, Forall tnice l -> reduce_fuel n f l = Ok t -> tnice t.
  Proof.
    intros Hf. induction n as [|n IH]; intros l t H E; [discriminate|]. destruct l as [|x [|y l]]; [discriminate| |].
    - injection E as <-. inversion H; auto.
    - change (reduce_fuel (S n) f (x :: y :: l)) with
        (do a <- reduce_fuel n f (firstn (Nat.div2 (length (x :: y :: l))) (x :: y :: l));
         do b <- reduce_fuel n f (skipn (Nat.div2 (length (x :: y :: l))) (x :: y :: l)); Ok (TCall f [a; b])) in E.
      apply bind_ok_iff in E as (a & A & E). apply bind_ok_iff in E as (b & B & E). injection E as <-.
      rewrite <- (firstn_skipn (Nat.div2 (length (x :: y :: l)))) in H. apply Forall_app in H as [H1 H2].
      constructor; auto. repeat constructor; eauto.
  Qed.
  Lemma tdedup_nice l : Forall tnice l -> Forall tnice (tdedup l).
  Proof. induction 1; simpl; auto. destruct (mem x l); auto. Qed.
  Lemma linear_nice f x n : okf f -> tnice x -> tnice (linear f x n).
  Proof.
    intros Hf Hx. induction n as [|[|n] IH]; simpl; auto.
    constructor; auto.
  Qed.
  Lemma duplicates_nice f l t : okf f -> Forall tnice l -> duplicates tsrt f l = Ok t -> tnice t.
  Proof.
    intros Hf H E. assert (G : (let u := tdedup l in
        if Nat.eqb (length u) (length l) then reduce f l
        else reduce f (map (fun x => linear f x (tcount x l)) (tsrt u))) = Ok t -> tnice t).
    { clear E. cbn zeta. destruct (Nat.eqb _ _); intros E; eapply reduce_nice; try exact E; auto.
      apply Forall_map, Forall_forall. intros x Hx. apply linear_nice; auto.
      apply (Permutation_in _ (Permutation_sym (tsrt_perm _))) in Hx.
      pose proof (tdedup_nice _ H) as D. rewrite Forall_forall in D. auto. }
    destruct l as [|x [|y l]]; [apply G; exact E|injection E as <-; inversion H; auto|apply G; exact E].
  Qed.
  Lemma ring_nice red unit op inv c pos neg t : okf op -> okf inv ->
    (forall l t, Forall tnice l -> red op l = Ok t -> tnice t) -> Forall tnice pos -> Forall tnice neg ->
    lower_ring red unit op inv c pos neg = Ok t -> tnice t.
  Proof.
    intros Ho Hi Hr P Q E. unfold lower_ring in E. apply bind_ok_iff in E as (o & O & E).
    assert (G : tnice (match o with None => t_num c | Some t => if qeqb c unit then t else TCall op [t; t_num c] end)).
    { destruct o as [x|]; [|constructor]. assert (X : tnice x).
      { destruct pos; [discriminate|]. apply bind_ok_iff in O as (y & Y & O). injection O as <-. eauto. }
      destruct (qeqb c unit); auto. constructor; auto. repeat constructor; auto. }
    cbn zeta in E. destruct neg; [injection E as <-; auto|]. apply bind_ok_iff in E as (x & X & E). injection E as <-.
    constructor; auto. repeat constructor; auto. eauto.
  Qed.
  Lemma mapM_nice {A} (f : A -> res tree) (P : A -> Prop) l ts : (forall a t, In a l -> P a -> f a = Ok t -> tnice t) -> Forall P l ->
    mapM f l = Ok ts -> Forall tnice ts.
  Proof.
    intros H. intros HP E. apply mapM_Forall2 in E. induction E as [|a t l ts X E IH]; auto. inversion HP; subst. constructor.
    - eapply H; eauto. left; auto.
    - apply IH; auto. intros; eapply H; eauto. right; auto.
  Qed.
  Theorem totree_nice : forall e t, nice okn okf e -> totree e = Ok t -> tnice t.
  Proof.
    assert (OP : forall f, In f operators -> okf f) by exact Fop.
    assert (TD : forall u, PT (fun e => forall t, nice okn okf e -> totree e = Ok t -> tnice t) u ->
               Forall (nice okn okf) (tp u) /\ Forall (nice okn okf) (tn u) -> forall t, totree (ETD u) = Ok t -> tnice t).
    { intros u [H1 H2] [N1 N2] t E. rewrite totree_td in E. apply bind_ok_iff in E as (ps & Ps & E). apply bind_ok_iff in E as (ns & Ns & E).
      rewrite Forall_forall in H1, H2.
      eapply ring_nice; try exact E; try (apply OP; simpl; tauto).
      - intros l x Hl Ex. eapply duplicates_nice; eauto. apply OP; simpl; tauto.
      - eapply mapM_nice; [|exact N1|exact Ps]. intros; eapply H1; eauto.
      - eapply mapM_nice; [|exact N2|exact Ns]. intros; eapply H2; eauto. }
    induction e as [c|s|s b|b f l IH|c l r IHl IHr|c p n Hp Hn|u Hu|l IH|l IH] using expr_ind'; intros t D E; inversion D; subst.
    - injection E as <-. constructor.
    - injection E as <-. constructor; auto.
    - injection E as <-. constructor; auto.
    - simpl in E. rewrite totree_many in E. apply bind_ok_iff in E as (ts & Ts & E). injection E as <-. constructor; auto.
      rewrite Forall_forall in IH. eapply mapM_nice; [|eassumption|exact Ts]. intros; eapply IH; eauto.
    - simpl in E. apply bind_ok_iff in E as (x & X & E). apply bind_ok_iff in E as (y & Y & E). injection E as <-.
      assert (tnice x) by eauto. assert (tnice y) by eauto.
      destruct c; repeat (constructor; auto); apply OP; simpl; tauto.
    - rewrite totree_pm in E. apply bind_ok_iff in E as (ps & Ps & E). apply bind_ok_iff in E as (ns & Ns & E).
      rewrite Forall_forall in Hp, Hn.
      eapply ring_nice; try exact E; try (apply OP; simpl; tauto).
      + intros l x Hl Ex. eapply reduce_nice; eauto. apply OP; simpl; tauto.
      + eapply mapM_nice; [|exact H1|exact Ps]. intros a t' Ha Na. apply TD; auto.
      + eapply mapM_nice; [|exact H3|exact Ns]. intros a t' Ha Na. apply TD; auto.
    - eapply TD; eauto.
    - simpl in E. rewrite totree_many in E. apply bind_ok_iff in E as (ts & Ts & E). eapply reduce_nice; try exact E; [apply OP; simpl; tauto|].
      rewrite Forall_forall in IH. eapply mapM_nice; [|eassumption|exact Ts]. intros; eapply IH; eauto.
    - simpl in E. rewrite totree_many in E. apply bind_ok_iff in E as (ts & Ts & E). eapply reduce_nice; try exact E; [apply OP; simpl; tauto|].
      rewrite Forall_forall in IH. eapply mapM_nice; [|eassumption|exact Ts]. intros; eapply IH; eauto.
  Qed.
End Lower.
