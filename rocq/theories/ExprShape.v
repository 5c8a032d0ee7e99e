(** The shape of parsed expressions: they can be lowered to function calls. *)
From Coq Require Import String Permutation.
From Verif Require Import Num NumFacts Base Tree Elem Order Expr ExprSpec ExprFacts ExprLower ExprAlg ExprLogic ExprMain.
Open Scope string_scope.
Local Open Scope list_scope.

Section Shape.
  Variable srt : list expr -> list expr.
  Hypothesis srt_perm : forall l, Permutation l (srt l).
  Notation parse := (parse srt (fun _ => None)).
  (** What holds of the predicates. *)
  Variable R : string -> bool -> Prop.

  Inductive deep : expr -> Prop :=
  | d_const c : deep (EConst c)
  | d_name s : deep (EName s)
  | d_pred s b : R s b -> deep (EPred s b)
  | d_call b f l : Forall deep l -> deep (ECall b f l)
  | d_rel c l r : deep l -> deep r -> deep (ERel c l r)
  | d_pm c p n : Forall (fun t => Forall deep (tp t) /\ Forall deep (tn t)) p ->
                 Forall (fun t => Forall deep (tp t) /\ Forall deep (tn t)) n -> deep (EPM c p n)
  | d_td t : Forall deep (tp t) -> Forall deep (tn t) -> deep (ETD t)
  | d_and l : l <> [] -> forallb bool_shape l = true -> Forall deep l -> deep (EAnd l)
  | d_or l : l <> [] -> forallb bool_shape l = true -> Forall deep l -> deep (EOr l).
  Notation deept t := (Forall deep (tp t) /\ Forall deep (tn t)).
  Notation deeps := (Forall (fun t => deept t)).
  Definition deepp (p : pm) : Prop := deeps (pp p) /\ deeps (pn p).

  (** ** Arithmetic *)
  Lemma perm_F {A} (P : A -> Prop) l m : Permutation l m -> Forall P l -> Forall P m.
  Proof. intros H. rewrite H. auto. Qed.
  Lemma td_nf_deep e t : deep e -> td_nf e = Ok t -> deept t.
  Proof.
    intros D H. destruct e; try (injection H as <-; cbn [tp tn]; auto; fail).
    - destruct c as [[[q| | |]| | |]| |]; try discriminate H. injection H as <-. cbn [tp tn]; auto.
    - injection H as <-. inversion D; auto.
  Qed.
  Lemma pm_nf_deep e p : deep e -> pm_nf e = Ok p -> deepp p.
  Proof.
    intros D H. assert (G : (do t <- td_nf e;
        Ok (if is_nil (tp t) && is_nil (tn t) then PM (tc t) [] []
            else if qltb (tc t) qc0 then PM qc0 [] [T (- tc t)%Qc (tp t) (tn t)]
            else PM qc0 [t] [])) = Ok p -> deepp p).
    { intros K. apply bind_ok_iff in K as (t & Ht & K). apply td_nf_deep in Ht as [A B]; auto. injection K as <-.
      destruct (is_nil (tp t) && is_nil (tn t)); [split; cbn [pp pn]; auto|].
      destruct (qltb (tc t) qc0); split; cbn [pp pn]; auto. }
    destruct e; try (apply G; exact H). injection H as <-. inversion D; subst. split; auto.
  Qed.
  Lemma del_nth_F (P : expr -> Prop) l : forall i m, del_nth i l = Ok m -> Forall P l -> Forall P m.
  Proof.
    induction l as [|x l IH]; intros [|i] m H F; try discriminate H; inversion F; subst.
    - injection H as <-. auto.
    - apply rmap_ok_iff in H as (k & K & ->). constructor; eauto.
  Qed.
  Lemma cancel_go_F (P : expr -> Prop) orig neg : forall pos r, cancel_go orig pos neg = Ok r -> Forall P pos -> Forall P neg ->
    Forall P (fst r) /\ Forall P (snd r).
  Proof.
    induction neg as [|y ys IH]; intros pos r H Fp Fn; simpl in H.
    - injection H as <-. auto.
    - inversion Fn; subst. destruct (find_index y orig) as [i|].
      + apply bind_ok_iff in H as (k & K & H). eapply IH; eauto. eapply del_nth_F; eauto.
      + apply bind_ok_iff in H as (k & K & H). injection H as <-. apply IH in K as [A B]; auto. cbn [fst snd]. auto.
  Qed.
  Lemma cancel_deep t u : deept t -> cancel t = Ok u -> deept u.
  Proof.
    intros [A B] H. unfold cancel in H. apply bind_ok_iff in H as (k & K & H). injection H as <-. cbn [tp tn].
    eapply cancel_go_F; eauto.
  Qed.
  Lemma merge_deep x l : deept x -> deeps l -> deeps (merge x l).
  Proof.
    intros D H. induction H as [|y l Hy Hl IH]; simpl; auto. destruct (similar x y); auto.
  Qed.
  Lemma gather_deep sgn l : deeps l -> forall st st', gather sgn l st = Ok st' -> deeps (snd st) -> deeps (snd st').
  Proof.
    induction 1 as [|x l Hx Hl IH]; intros st st' H Hs; simpl in H; [injection H as <-; auto|].
    apply bind_ok_iff in H as (y & Y & H). apply cancel_deep in Y; auto. eapply IH; [exact H|].
    destruct (qeqb (tc y) qc0); auto. destruct (is_nil (tp y) && is_nil (tn y)); auto. cbn [snd]. apply merge_deep; auto.
  Qed.
  Lemma filter_F {A} (P : A -> Prop) f l : Forall P l -> Forall P (filter f l).
  Proof. rewrite !Forall_forall. intros H x Hx. apply filter_In in Hx as [Hx _]. auto. Qed.
  Lemma collect_deep p q : deepp p -> collect srt p = Ok q -> deepp q.
  Proof.
    intros [A B] H. unfold collect in H. apply bind_ok_iff in H as (s1 & G1 & H). apply bind_ok_iff in H as (s2 & G2 & H).
    injection H as <-. apply gather_deep in G1; auto; [|constructor]. apply gather_deep in G2; auto.
    split; cbn [pp pn]; (eapply perm_F; [apply srt_t_perm; auto|]).
    - apply filter_F, filter_F; auto.
    - apply Forall_map. cbn [tp tn]. apply filter_F, filter_F; auto.
  Qed.
  Lemma td_combine_deep t u : deept t -> deept u -> deept (td_combine srt t u).
  Proof.
    intros [A1 A2] [B1 B2]. unfold td_combine. cbn [tp tn]. split; (eapply perm_F; [apply srt_perm|]); apply Forall_app; auto.
  Qed.
  Lemma td_const_deep c : deept (td_const c).
  Proof. split; constructor. Qed.
  Lemma products_deep l m : deeps l -> deeps m -> deeps (products srt l m).
  Proof.
    intros Hl Hm. apply Forall_forall. intros t Ht. unfold products in Ht. apply in_flat_map in Ht as (x & Hx & Ht).
    apply in_map_iff in Ht as (y & <- & Hy). rewrite Forall_forall in Hl, Hm. apply td_combine_deep; auto.
  Qed.
  Lemma pm_combine_deep a b r : deepp a -> deepp b -> pm_combine srt a b = Ok r -> deepp r.
  Proof.
    intros [A1 A2] [B1 B2] H. eapply collect_deep; [|exact H].
    split; cbn [pp pn]; (eapply perm_F; [apply srt_t_perm; auto|]); apply Forall_app; auto.
  Qed.
  Lemma pm_distribute_deep a b r : deepp a -> deepp b -> pm_distribute srt a b = Ok r -> deepp r.
  Proof.
    intros [A1 A2] [B1 B2] H. eapply collect_deep; [|exact H].
    assert (C1 : forall l c, deeps l -> deeps (map (fun x => td_combine srt x (td_const c)) l)).
    { intros l c Hl. apply Forall_map. eapply Forall_impl; [|exact Hl]. intros t Ht. apply td_combine_deep; auto. apply td_const_deep. }
    assert (C2 : forall l c, deeps l -> deeps (map (fun x => td_combine srt (td_const c) x) l)).
    { intros l c Hl. apply Forall_map. eapply Forall_impl; [|exact Hl]. intros t Ht. apply td_combine_deep; auto. apply td_const_deep. }
    split; cbn [pp pn]; repeat (apply Forall_app; split); auto using products_deep.
  Qed.
  Lemma td_simplify_deep t : deept t -> deep (td_simplify t).
  Proof.
    intros [A B]. assert (G : deep (ETD t)) by (constructor; auto). unfold td_simplify.
    destruct (is_nil (tp t) && is_nil (tn t)); [constructor|]. destruct (qeqb (tc t) qc1); auto.
    destruct (tp t) as [|x [|]]; auto. destruct (tn t); auto. inversion A; auto.
  Qed.
  Lemma pm_simplify_deep p : deepp p -> deep (pm_simplify p).
  Proof.
    intros [A B]. assert (G : deep (pm_expr p)) by (constructor; auto). unfold pm_simplify.
    destruct (is_nil (pp p) && is_nil (pn p)); [constructor|]. destruct (qeqb (pc p) qc0); auto.
    destruct (pp p) as [|t [|]], (pn p) as [|u [|]]; auto; apply td_simplify_deep.
    - inversion B; auto.
    - inversion A; auto.
  Qed.
  Lemma pm_expr_deep p : deepp p -> deep (pm_expr p).
  Proof. intros [A B]. constructor; auto. Qed.
  Lemma rep_F {A} (P : A -> Prop) n l : Forall P l -> Forall P (rep n l).
  Proof. rewrite !Forall_forall. intros H x Hx. apply H. eapply rep_In; eauto. Qed.
  Lemma td_negate_deep t u : deept t -> td_negate t = Ok u -> deept u.
  Proof. intros [A B] H. unfold td_negate in H. apply bind_ok_iff in H as (c & _ & H). injection H as <-. auto. Qed.
  Lemma reciprocal_deep b r : deep b -> reciprocal b = Ok r -> deep r.
  Proof.
    intros D H. unfold reciprocal in H. apply bind_ok_iff in H as (p & P & H). apply bind_ok_iff in H as (t & Ht & H). injection H as <-.
    apply pm_nf_deep in P; auto. pose proof (pm_expr_deep _ P) as W. destruct P as [A B].
    enough (deept t) by (constructor; tauto).
    assert (WH : td_negate (T qc1 [pm_expr p] []) = Ok t -> deept t) by (intros E; eapply td_negate_deep; [|exact E]; cbn [tp tn]; auto).
    destruct (is_nil (pp p) && is_nil (pn p)).
    { apply bind_ok_iff in Ht as (c & _ & Ht). injection Ht as <-. cbn [tp tn]. auto. }
    destruct (qeqb (pc p) qc0); auto.
    destruct (pp p) as [|x [|]], (pn p) as [|y [|]]; auto.
    - apply bind_ok_iff in Ht as (u & U & Ht). injection Ht as <-. inversion B; subst. apply td_negate_deep in U; cbn [tp tn]; auto.
    - inversion A; subst. eapply td_negate_deep; eauto.
  Qed.
  Lemma rep_term t n c : deept t -> deept (T c (srt (rep n (tp t))) (srt (rep n (tn t)))).
  Proof. intros [A B]. cbn [tp tn]. split; (eapply perm_F; [apply srt_perm|]); apply rep_F; auto. Qed.
  Lemma power_deep n a e : deep a -> power srt n a = Ok e -> deep e.
  Proof.
    intros D H. unfold power in H. apply bind_ok_iff in H as (p & P & H). injection H as <-.
    apply pm_nf_deep in P; auto. pose proof (pm_expr_deep _ P) as W. destruct P as [A B]. apply pm_simplify_deep.
    assert (WH : deepp (PM qc0 [T qc1 (rep n [pm_expr p]) []] [])).
    { split; cbn [pp pn]; auto. constructor; auto. cbn [tp tn]. split; auto. apply rep_F. auto. }
    destruct (qeqb (pc p) qc0); auto.
    destruct (pp p) as [|x [|]], (pn p) as [|y [|]]; auto.
    - inversion B; subst. pose proof (rep_term y n (qpow (tc y) n) H1). destruct (Nat.even n); split; cbn [pp pn]; auto.
    - inversion A; subst. pose proof (rep_term x n (qpow (tc x) n) H1). split; cbn [pp pn]; auto.
  Qed.
  Lemma neg_power_deep n a e : deep a -> neg_power srt n a = Ok e -> deep e.
  Proof.
    intros D H. unfold neg_power in H. apply bind_ok_iff in H as (p & P & H). apply bind_ok_iff in H as (r & Q & H). injection H as <-.
    apply pm_nf_deep in P; auto. pose proof (pm_expr_deep _ P) as W. destruct P as [A B]. apply pm_simplify_deep.
    assert (WH : Ok (PM qc0 [T qc1 [] (rep n [pm_expr p])] []) = Ok r -> deepp r).
    { intros E. injection E as <-. split; cbn [pp pn]; auto. constructor; auto. cbn [tp tn]. split; auto. apply rep_F. auto. }
    destruct (qeqb (pc p) qc0); auto.
    destruct (pp p) as [|x [|]], (pn p) as [|y [|]]; auto.
    - apply bind_ok_iff in Q as (c & _ & Q). injection Q as <-. inversion B; subst. destruct H1 as [H1 H1'].
      pose proof (rep_term (T c (tn y) (tp y)) n c (Logic.conj H1' H1)). cbn [tp tn] in H. destruct (Nat.even n); split; cbn [pp pn]; auto.
    - apply bind_ok_iff in Q as (c & _ & Q). injection Q as <-. inversion A; subst. destruct H1 as [H1 H1'].
      pose proof (rep_term (T c (tn x) (tp x)) n c (Logic.conj H1' H1)). cbn [tp tn] in H. split; cbn [pp pn]; auto.
  Qed.
  Lemma binary_deep o a b e : deep a -> deep b -> binary srt o a b = Ok e -> deep e.
  Proof.
    intros Da Db H.
    assert (G : match o with
        | OAdd => combine_simplify srt a b
        | OSub => subtract_simplify srt a b
        | OMul => distribute_simplify srt a b
        | ODiv => do r <- reciprocal b; distribute_simplify srt a r
        | OPow =>
            match b with
            | EConst c =>
                do q <- const_num c;
                match small_exponent q with
                | Some (true, n) => power srt n a
                | Some (false, n) => neg_power srt n a
                | None => Ok (ECall true "pow"%string [a; b])
                end
            | _ => Ok (ECall true "pow"%string [a; b])
            end
        | OFloorDiv => Ok (ECall true "numpy.floor_divide"%string [a; b])
        | OMod => Ok (ECall true "fmod"%string [a; b])
        | OXor => Ok (ECall true "xor"%string [a; b])
        | OBitAnd | OBitOr => Err NotImplementedError
        end = Ok e -> deep e).
    { clear H. intros H.
      assert (C : forall f, Ok (ECall true f [a; b]) = Ok e -> deep e) by (intros f E; injection E as <-; constructor; auto).
      destruct o; try (apply (C _ H)); try discriminate H.
      - unfold combine_simplify in H. apply bind_ok_iff in H as (p & P & H). apply bind_ok_iff in H as (q & Q & H).
        apply bind_ok_iff in H as (r & K & H). injection H as <-. apply pm_simplify_deep. exact (pm_combine_deep _ _ _ (pm_nf_deep _ _ Da P) (pm_nf_deep _ _ Db Q) K).
      - unfold subtract_simplify in H. apply bind_ok_iff in H as (p & P & H). apply bind_ok_iff in H as (q & Q & H).
        apply bind_ok_iff in H as (r & K & H). injection H as <-. apply pm_simplify_deep.
        unfold pm_negate in Q. apply bind_ok_iff in Q as (q' & Q & E). injection E as <-.
        eapply pm_combine_deep; [eapply pm_nf_deep; [|exact P]; auto| |exact K]. apply pm_nf_deep in Q as [? ?]; auto. split; cbn [pp pn]; auto.
      - unfold distribute_simplify in H. apply bind_ok_iff in H as (p & P & H). apply bind_ok_iff in H as (q & Q & H).
        apply bind_ok_iff in H as (r & K & H). injection H as <-. apply pm_simplify_deep. exact (pm_distribute_deep _ _ _ (pm_nf_deep _ _ Da P) (pm_nf_deep _ _ Db Q) K).
      - apply bind_ok_iff in H as (v & V & H). apply reciprocal_deep in V; auto.
        unfold distribute_simplify in H. apply bind_ok_iff in H as (p & P & H). apply bind_ok_iff in H as (q & Q & H).
        apply bind_ok_iff in H as (r & K & H). injection H as <-. apply pm_simplify_deep. exact (pm_distribute_deep _ _ _ (pm_nf_deep _ _ Da P) (pm_nf_deep _ _ V Q) K).
      - destruct b; try (apply (C _ H)). apply bind_ok_iff in H as (q & Q & H).
        destruct (small_exponent q) as [[[] n]|]; [exact (power_deep _ _ _ Da H)|exact (neg_power_deep _ _ _ Da H)|apply (C _ H)]. }
    destruct a; try (apply G; exact H). destruct b; try (apply G; exact H).
    clear - H. destruct o; simpl in H; try discriminate H;
      apply bind_ok_iff in H as (p & _ & H); apply bind_ok_iff in H as (q & _ & H); try (injection H as <-; constructor).
    apply bind_ok_iff in H as (r & _ & H); injection H as <-; constructor.
  Qed.
  Lemma minus_deep a e : deep a -> minus a = Ok e -> deep e.
  Proof.
    intros D H. assert (G : (do p <- pm_negate a; Ok (pm_simplify p)) = Ok e -> deep e).
    { intros K. apply bind_ok_iff in K as (p & P & K). injection K as <-. unfold pm_negate in P. apply bind_ok_iff in P as (q & Q & P).
      injection P as <-. apply pm_simplify_deep. apply pm_nf_deep in Q as [A B]; auto. split; auto. }
    destruct a; try (apply G; exact H). apply bind_ok_iff in H as (q & _ & H). injection H as <-. constructor.
  Qed.

  (** ** Logic *)
  Definition lt (Q : string -> bool -> Prop) (e : expr) : Prop :=
    match e with ERel _ l r => deep l /\ deep r | EPred s b => Q s b | _ => False end.
  Definition cj (Q : string -> bool -> Prop) (e : expr) : Prop := exists l, e = EAnd l /\ l <> [] /\ Forall (lt Q) l.
  Definition dj (Q : string -> bool -> Prop) (o : list expr) : Prop := o <> [] /\ Forall (cj Q) o.
  Definition lg (Q : string -> bool -> Prop) (e : expr) : Prop :=
    match e with
    | EPred _ _ | ERel _ _ _ => lt Q e
    | EAnd _ => cj Q e
    | EOr l => dj Q l
    | EName s => Q s true
    | _ => deep e
    end.
  Lemma lt_deep x : lt R x -> bool_shape x = true /\ deep x.
  Proof. destruct x; simpl; try tauto; intros H; split; auto; constructor; tauto. Qed.
  Lemma cj_deep x : cj R x -> bool_shape x = true /\ deep x.
  Proof.
    intros (l & -> & N & H). split; auto. constructor; auto.
    - apply forallb_forall. rewrite Forall_forall in H. intros y Hy. apply lt_deep; auto.
    - eapply Forall_impl; [|exact H]. intros y Hy. apply lt_deep; auto.
  Qed.
  Lemma lg_deep e : lg R e -> deep e.
  Proof.
    destruct e; simpl; auto; intros H.
    - constructor.
    - constructor; auto.
    - destruct H. constructor; auto.
    - apply cj_deep; auto.
    - destruct H as [N H]. constructor; auto.
      + apply forallb_forall. rewrite Forall_forall in H. intros y Hy. apply cj_deep; auto.
      + eapply Forall_impl; [|exact H]. intros y Hy. apply cj_deep; auto.
  Qed.
  Lemma sd_F (P : expr -> Prop) l : Forall P l -> Forall P (srt (dedup l)).
  Proof. rewrite !Forall_forall. intros H x Hx. apply H. eapply sd_In; eauto. Qed.
  Lemma sd_ne l : l <> [] -> srt (dedup l) <> [].
  Proof. apply sd_nil; auto. Qed.
  Lemma mk_and_cj Q l : l <> [] -> Forall (lt Q) l -> cj Q (mk_and srt l).
  Proof. intros N H. eexists. split; [reflexivity|]. split; [apply sd_ne; auto|apply sd_F; auto]. Qed.
  Lemma or_combine_dj Q a b : dj Q a -> dj Q b -> dj Q (or_combine srt a b).
  Proof.
    intros [A1 A2] [B1 B2]. split; [apply sd_ne, app_ne; auto|]. apply sd_F, Forall_app; auto.
  Qed.
  Lemma flat_map_ne {A B} (f : A -> list B) l : l <> [] -> (forall x, f x <> []) -> flat_map f l <> [].
  Proof. intros N H. destruct l; [congruence|]. simpl. apply app_ne; auto. Qed.
  Lemma map_ne {A B} (f : A -> B) l : l <> [] -> map f l <> [].
  Proof. destruct l; simpl; congruence. Qed.
  Lemma and_combine_dj Q a b : dj Q a -> dj Q b -> dj Q (and_combine srt a b).
  Proof.
    intros [A1 A2] [B1 B2]. split.
    - apply sd_ne, flat_map_ne; auto. intros x. apply map_ne; auto.
    - apply sd_F. apply Forall_forall. intros z Hz. apply in_flat_map in Hz as (x & Hx & Hz). apply in_map_iff in Hz as (y & <- & Hy).
      rewrite Forall_forall in A2, B2. destruct (A2 _ Hx) as (l & -> & L1 & L2), (B2 _ Hy) as (m & -> & M1 & M2).
      apply mk_and_cj; cbn [and_args]; [apply app_ne; auto|apply Forall_app; auto].
  Qed.
  Lemma or_nf_dj Q e o : lg Q e -> or_nf e = Ok o -> dj Q o.
  Proof.
    intros H E.
    assert (S : forall x, lt Q x -> dj Q [EAnd [x]]).
    { intros x Hx. split; [discriminate|]. constructor; auto. exists [x]. split; auto. split; auto. discriminate. }
    destruct e; try discriminate E; injection E as <-; auto.
    - split; [discriminate|]. constructor; auto.
  Qed.
  Lemma choices_F {A} (P : A -> Prop) ls : Forall (Forall P) ls -> Forall (Forall P) (choices ls).
  Proof.
    induction 1 as [|l ls H _ IH]; simpl; auto. apply Forall_forall. intros c Hc. apply in_flat_map in Hc as (x & Hx & Hc).
    apply in_map_iff in Hc as (d & <- & Hd). rewrite Forall_forall in H, IH. constructor; auto.
  Qed.
  Lemma or_negate_dj Q e o : lg Q e -> or_negate srt e = Ok o -> dj (fun s b => Q s (negb b)) o.
  Proof.
    intros H E. unfold or_negate in E. apply bind_ok_iff in E as (d & D & E). apply bind_ok_iff in E as (u & U & E). injection E as <-.
    apply or_nf_dj with (Q := Q) in D as [N D]; auto.
    assert (L : length u = length d) by (apply mapM_Forall2 in U; clear - U; induction U; simpl; auto).
    assert (G : Forall (fun l => l <> [] /\ Forall (lt (fun s b => Q s (negb b))) l) u).
    { clear - U D. apply mapM_Forall2 in U. induction U as [|x l d u X U IH]; auto. inversion D as [|? ? (m & -> & M1 & M2) D2]; subst.
      constructor; auto. cbn [and_args] in X. apply mapM_Forall2 in X. split.
      - destruct X; congruence.
      - clear - X M2. induction X as [|x y m l X _ IH]; auto. inversion M2; subst. constructor; auto.
        destruct x as [| | | |[] ? ?| | | |]; simpl in *; try tauto; injection X as <-; simpl; auto; try tauto.
        rewrite Bool.negb_involutive. auto. }
    assert (C : choices u <> []) by (apply choices_ne; eapply Forall_impl; [|exact G]; cbn; tauto).
    split; [apply sd_ne, map_ne; auto|]. apply sd_F, Forall_map. apply Forall_forall. intros c Hc. apply mk_and_cj.
    - intros ->. apply choices_len in Hc. destruct d; [congruence|]. simpl in *. lia.
    - assert (F : Forall (Forall (lt (fun s b => Q s (negb b)))) (choices u)) by (apply choices_F; eapply Forall_impl; [|exact G]; cbn; tauto).
      rewrite Forall_forall in F. auto.
  Qed.
  Lemma and_simplify_lg Q l : l <> [] -> Forall (lt Q) l -> lg Q (and_simplify l).
  Proof.
    intros N H. unfold and_simplify. destruct (forallb _ l); [constructor|]. destruct (existsb _ l); [constructor|].
    destruct l as [|x [|]]; [congruence| |].
    - inversion H; subst. destruct x; simpl in *; tauto.
    - eexists. split; [reflexivity|]. auto.
  Qed.
  Lemma or_simplify_lg Q o : dj Q o -> lg Q (or_simplify o).
  Proof.
    intros [N H]. unfold or_simplify. destruct (forallb _ o); [constructor|]. destruct (existsb _ o); [constructor|].
    destruct o as [|x [|]]; [congruence| |].
    - inversion H as [|? ? (l & -> & L1 & L2) _]; subst. apply and_simplify_lg; auto.
    - split; auto.
  Qed.
  Lemma fold_dj Q (f : list expr -> list expr -> list expr) os : (forall a b, dj Q a -> dj Q b -> dj Q (f a b)) ->
    Forall (dj Q) os -> forall x, dj Q x -> dj Q (fold_left f os x).
  Proof. intros Hf. induction 1; simpl; auto. Qed.
  Lemma all_lg Q f es e : (forall a b, dj Q a -> dj Q b -> dj Q (f a b)) -> Forall (lg Q) es ->
    (do os <- mapM or_nf es; do o <- reduce1 f os; Ok (or_simplify o)) = Ok e -> lg Q e.
  Proof.
    intros Hf H E. apply bind_ok_iff in E as (os & Os & E). apply bind_ok_iff in E as (o & O & E). injection E as <-.
    assert (G : Forall (dj Q) os).
    { apply mapM_Forall2 in Os. clear - Os H. induction Os; auto. inversion H; subst. constructor; auto. eapply or_nf_dj; eauto. }
    apply or_simplify_lg. destruct os as [|x os]; [discriminate|]. injection O as <-. inversion G; subst. apply fold_dj; auto.
  Qed.
  Lemma negation_lg Q a e : lg Q a -> negation srt a = Ok e -> lg (fun s b => Q s (negb b)) e.
  Proof.
    intros H E. assert (G : (do o <- or_negate srt a; Ok (or_simplify o)) = Ok e -> lg (fun s b => Q s (negb b)) e).
    { intros K. apply bind_ok_iff in K as (o & O & K). injection K as <-. apply or_simplify_lg. eapply or_negate_dj; eauto. }
    destruct a; try (apply G; exact E). injection E as <-. exact H.
  Qed.
  Lemma relation_lt Q o l r e : deep l -> deep r -> relation srt o l r = Ok e -> lt Q e.
  Proof.
    intros Dl Dr H.
    assert (S : forall a b, srt [l; r] = [a; b] -> deep a /\ deep b).
    { intros a b E. assert (F : Forall deep [a; b]) by (rewrite <- E; eapply perm_F; [apply srt_perm|auto]).
      inversion F as [|? ? F1 F2]; inversion F2; auto. }
    destruct o; simpl in H; try (injection H as <-; simpl; tauto).
    - destruct (srt [l; r]) as [|a [|b [|]]]; try discriminate. injection H as <-. simpl. auto.
    - destruct (srt [l; r]) as [|a [|b [|]]]; try discriminate. injection H as <-. simpl. auto.
    - destruct r as [[]| | | | | | | |]; try discriminate. injection H as <-. simpl. auto.
    - destruct r as [[]| | | | | | | |]; try discriminate. injection H as <-. simpl. auto.
  Qed.
  Lemma chain_lt Q rest : Forall (fun p => deep (snd p)) rest -> forall l es, deep l -> chain srt l rest = Ok es -> Forall (lt Q) es.
  Proof.
    induction 1 as [|[o r] rest Hr _ IH]; intros l es Dl E; simpl in E; [injection E as <-; auto|].
    apply bind_ok_iff in E as (x & X & E). apply bind_ok_iff in E as (xs & Xs & E). injection E as <-.
    constructor; [exact (relation_lt _ _ _ _ _ Dl Hr X)|exact (IH _ _ Hr Xs)].
  Qed.
  Lemma lt_lg Q x : lt Q x -> lg Q x.
  Proof. destruct x; simpl; tauto. Qed.

  (** ** Parsing *)
  Definition at_ctx (b : bool) (s : string) (c : bool) : Prop := R s (if b then c else negb c).
  Definition inside (l : list (string * bool)) : Prop := Forall (fun p => R (fst p) (snd p)) l.
  Lemma inside_flat {A} (f : A -> list (string * bool)) l : inside (flat_map f l) <-> Forall (fun a => inside (f a)) l.
  Proof.
    unfold inside. induction l as [|x l IH]; simpl; [split; auto|]. rewrite Forall_app, IH. split.
    - intros [? ?]; auto.
    - intros H; inversion H; auto.
  Qed.
  Lemma inside_app l m : inside (l ++ m) <-> inside l /\ inside m.
  Proof. apply Forall_app. Qed.
  Definition shaped (s : src) : Prop := typed s = true ->
    (inside (names_at None s) -> forall rel e, parse rel s = Ok e -> deep e)
    /\ (logical s = true -> forall b, inside (names_at (Some b) s) -> forall e, parse true s = Ok e -> lg (at_ctx b) e).

  Lemma list_deep rel l : Forall shaped l -> forallb typed l = true -> inside (flat_map (names_at None) l) ->
    forall es, mapM (parse rel) l = Ok es -> Forall deep es.
  Proof.
    intros H T I es E. apply mapM_Forall2 in E. rewrite inside_flat in I. rewrite forallb_forall in T.
    induction E as [|x e l es X E IH]; auto. inversion H as [|? ? H1 H2]; inversion I as [|? ? I1 I2]; subst. constructor; auto.
    - eapply H1; eauto. apply T. left; auto.
    - apply IH; auto. intros y Hy. apply T. right; auto.
  Qed.
  Lemma list_lg b l : Forall shaped l -> forallb logical l = true -> forallb typed l = true -> inside (flat_map (names_at (Some b)) l) ->
    forall es, mapM (parse true) l = Ok es -> Forall (lg (at_ctx b)) es.
  Proof.
    intros H L T I es E. apply mapM_Forall2 in E. rewrite inside_flat in I. rewrite forallb_forall in T, L.
    induction E as [|x e l es X E IH]; auto. inversion H as [|? ? H1 H2]; inversion I as [|? ? I1 I2]; subst. constructor; auto.
    - eapply H1; eauto. + apply T. left; auto. + apply L; left; auto.
    - apply IH; auto; intros y Hy; [apply L|apply T]; right; auto.
  Qed.
  Lemma lg_true e : lg (at_ctx true) e -> deep e.
  Proof. apply lg_deep. Qed.
  Lemma lg_impl (P Q : string -> bool -> Prop) e : (forall s b, P s b -> Q s b) -> lg P e -> lg Q e.
  Proof.
    intros H. assert (L : forall x, lt P x -> lt Q x) by (intros []; simpl; auto).
    assert (C : forall x, cj P x -> cj Q x) by (intros x (l & -> & N & F); exists l; split; auto; split; auto; eapply Forall_impl; eauto).
    destruct e; simpl; auto. intros [N F]. split; auto. eapply Forall_impl; eauto.
  Qed.

  Lemma cmp_lg Q l r e : shaped l -> Forall shaped (map snd r) -> typed (XCmp l r) = true -> inside (names_at None (XCmp l r)) ->
    parse true (XCmp l r) = Ok e -> lg Q e.
  Proof.
    intros Hl Hr TY I H. simpl in TY, I, H. rewrite cmp_list_parse in H. apply andb_true_iff in TY as [T1 T2]. apply inside_app in I as [I1 I2].
    apply bind_ok_iff in H as (x & X & H). apply bind_ok_iff in H as (es & Es & H). apply bind_ok_iff in H as (rs & Rs & H).
    assert (Dx : deep x) by (eapply Hl; eauto).
    assert (Des : Forall (fun p => deep (snd p)) es).
    { apply mapM_Forall2 in Es. rewrite inside_flat in I2. clear - Es Hr I2 T2.
      induction Es as [|[o y] e r es X E IH]; auto. cbn [map snd forallb] in *. inversion Hr; inversion I2; subst.
      apply andb_true_iff in T2 as [T T2]. apply bind_ok_iff in X as (z & Z & X). injection X as <-. constructor; auto. cbn [snd] in *.
      match goal with H : shaped y |- _ => eapply H; eauto end. }
    pose proof (chain_lt Q _ Des _ _ Dx Rs) as L.
    assert (G : and_all srt rs = Ok e -> lg Q e).
    { intros K. eapply all_lg; [apply and_combine_dj| |exact K]. eapply Forall_impl; [|exact L]. apply lt_lg. }
    destruct rs as [|y [|]]; [discriminate| |auto]. injection H as <-. inversion L; subst. apply lt_lg; auto.
  Qed.

  Theorem parse_shape : forall s, shaped s.
  Proof.
    induction s as [c|l IH|s|l r IHl IHr|a IH|l IH|l IH|a IH|a IH|o a b IHa IHb|f l IH] using src_ind'; intros TY; (split; [|intros LG; try discriminate LG]).
    - intros _ rel e H. injection H as <-. constructor.
    - intros _ rel e H. simpl in H. apply bind_ok_iff in H as (es & _ & H). apply bind_ok_iff in H as (ss & _ & H). injection H as <-. constructor.
    - intros _ rel e H. injection H as <-. constructor.
    - intros b I e H. injection H as <-. inversion I; subst. simpl. unfold at_ctx. destruct b; auto.
    - intros I rel e H. destruct rel; [|discriminate]. apply lg_true. eapply cmp_lg; eauto.
    - intros b I e H. eapply cmp_lg; eauto.
    - intros I rel e H. destruct rel; [|discriminate]. simpl in TY. apply andb_true_iff in TY as [L T]. simpl in H. apply bind_ok_iff in H as (x & X & H).
      pose proof (proj2 (IH T) L false I _ X) as G. apply negation_lg with (Q := at_ctx false) in H; auto. apply lg_true.
      eapply lg_impl; [|exact H]. intros s b K. unfold at_ctx in *. rewrite Bool.negb_involutive in K. exact K.
    - intros b I e H. simpl in TY. apply andb_true_iff in TY as [L T]. simpl in H. apply bind_ok_iff in H as (x & X & H).
      pose proof (proj2 (IH T) L _ I _ X) as G. apply negation_lg with (Q := at_ctx (negb b)) in H; auto.
      eapply lg_impl; [|exact H]. intros s c K. unfold at_ctx in *. destruct b; cbn in *; rewrite ?Bool.negb_involutive in K; auto.
    - intros I rel e H. destruct rel; [|discriminate]. simpl in TY. apply andb_true_iff in TY as [L T]. simpl in H. rewrite parse_list_eq in H.
      apply bind_ok_iff in H as (es & Es & H). apply lg_true. eapply all_lg; [|exact (list_lg true l IH L T I _ Es)|exact H]. apply and_combine_dj.
    - intros b I e H. simpl in TY. apply andb_true_iff in TY as [L T]. simpl in H. rewrite parse_list_eq in H.
      apply bind_ok_iff in H as (es & Es & H). eapply all_lg; [|exact (list_lg b l IH L T I _ Es)|exact H]. apply and_combine_dj.
    - intros I rel e H. destruct rel; [|discriminate]. simpl in TY. apply andb_true_iff in TY as [L T]. simpl in H. rewrite parse_list_eq in H.
      apply bind_ok_iff in H as (es & Es & H). apply lg_true. eapply all_lg; [|exact (list_lg true l IH L T I _ Es)|exact H]. apply or_combine_dj.
    - intros b I e H. simpl in TY. apply andb_true_iff in TY as [L T]. simpl in H. rewrite parse_list_eq in H.
      apply bind_ok_iff in H as (es & Es & H). eapply all_lg; [|exact (list_lg b l IH L T I _ Es)|exact H]. apply or_combine_dj.
    - intros I rel e H. simpl in H. apply bind_ok_iff in H as (x & X & H). eapply minus_deep; [|exact H]. eapply IH; eauto.
    - intros I rel e H. eapply IH; eauto.
    - intros I rel e H. simpl in TY, I, H. apply andb_true_iff in TY as [T1 T2]. apply inside_app in I as [I1 I2].
      apply bind_ok_iff in H as (x & X & H). apply bind_ok_iff in H as (y & Y & H).
      eapply binary_deep; [| |exact H]; [eapply IHa; eauto|eapply IHb; eauto].
    - intros I rel e H. simpl in TY, I, H. rewrite parse_args_eq in H. apply bind_ok_iff in H as (es & Es & H). injection H as <-.
      constructor. destruct l as [|a l]; [injection Es as <-; auto|].
      apply bind_ok_iff in Es as (x & X & Es). apply bind_ok_iff in Es as (xs & Xs & Es). injection Es as <-.
      simpl in TY, I. apply andb_true_iff in TY as [T1 T2]. apply inside_app in I as [I1 I2]. inversion IH as [|? ? H1 H2]; subst.
      constructor; [eapply H1; eauto|eapply list_deep; eauto].
  Qed.
End Shape.

Lemma deep_lowerable (R : string -> bool -> Prop) : (forall s b, R s b -> b = true) -> forall e, deep R e -> lowerable e.
Proof.
  intros HR. induction e as [c|s|s b|b f l IH|c l r IHl IHr|c p n Hp Hn|t Ht|l IH|l IH] using expr_ind'; intros D; inversion D; subst.
  - exact I.
  - exact I.
  - simpl. eauto.
  - simpl. rewrite lowerable_many, lowerable_all_In. rewrite Forall_forall in *. auto.
  - simpl. auto.
  - assert (G : forall l, Forall (PT (fun e => deep R e -> lowerable e)) l ->
              Forall (fun t => Forall (deep R) (tp t) /\ Forall (deep R) (tn t)) l -> Forall lowerable_t l).
    { clear. intros l H D. rewrite Forall_forall in *. intros t Ht. destruct (H _ Ht), (D _ Ht).
      split; rewrite lowerable_all_In; rewrite Forall_forall in *; auto. }
    rewrite lowerable_pm. auto.
  - destruct t as [c p n]. destruct Ht. simpl in *. rewrite !lowerable_many, !lowerable_all_In. rewrite Forall_forall in *. auto.
  - simpl. rewrite lowerable_many, lowerable_all_In. rewrite Forall_forall in *. auto.
  - simpl. rewrite lowerable_many, lowerable_all_In. rewrite Forall_forall in *. auto.
Qed.
Lemma deep_preds (R : string -> bool -> Prop) : forall e, deep R e -> forall s, In s (preds e) -> exists b, R s b.
Proof.
  assert (L : forall l, Forall (fun e => deep R e -> forall s, In s (preds e) -> exists b, R s b) l -> Forall (deep R) l ->
              forall s, In s (flat_map preds l) -> exists b, R s b).
  { intros l H D s Hs. apply in_flat_map in Hs as (x & Hx & Hs). rewrite Forall_forall in *. eauto. }
  assert (LT : forall l, Forall (PT (fun e => deep R e -> forall s, In s (preds e) -> exists b, R s b)) l ->
              Forall (fun t => Forall (deep R) (tp t) /\ Forall (deep R) (tn t)) l ->
              forall s, In s (flat_map (fun t => match t with T _ p n => flat_map preds p ++ flat_map preds n end) l) -> exists b, R s b).
  { intros l H D s Hs. apply in_flat_map in Hs as ([c p n] & Hx & Hs). rewrite Forall_forall in *. destruct (H _ Hx), (D _ Hx).
    apply in_app_iff in Hs as [Hs|Hs]; eauto. }
  induction e as [c|s|s b|b f l IH|c l r IHl IHr|c p n Hp Hn|t Ht|l IH|l IH] using expr_ind'; intros D s' Hs; inversion D; subst; simpl in Hs; try tauto; eauto.
  - destruct Hs as [<-|[]]. eauto.
  - apply in_app_iff in Hs as [Hs|Hs]; eauto.
  - apply in_app_iff in Hs as [Hs|Hs]; eauto.
  - destruct t as [c p n]. destruct Ht. simpl in *. apply in_app_iff in Hs as [Hs|Hs]; eauto.
Qed.
