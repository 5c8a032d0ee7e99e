(** Lemmas about books as trees: comparison, and the invariant of SystematicsBook. *)
From Coq Require Import String Permutation.
From Verif Require Import Base Num NumFacts Axis Calc Content Fill FillProofs2 HistAlg AlgSpec HistAlgProofs Json JsonProofs CompareProofs Props_Alg
  Glob Book BookTree BookTreeSpec BookTreeProofs BookTreeJson.
Local Open Scope string_scope.
Local Open Scope list_scope.
Notation node := BookTree.node.

(** ** alike is an equivalence *)
Lemma alike_refl b P x : proper P x -> alike b x x.
Proof.
  induction x as [h|c l a IH] using node_induct; intros H; [constructor; auto|]. inversion H as [|? ? ? ND F _]; subst.
  constructor; [auto|tauto|]. intros n y z Hy Hz. assert (y = z). { apply (sassoc_in n y l ND) in Hy. apply (sassoc_in n z l ND) in Hz. congruence. }
  subst z. rewrite Forall_forall in IH. apply (IH (n, y) Hy). apply (F n y Hy).
Qed.
Lemma alike_sym b x : forall y, alike b x y -> alike b y x.
Proof.
  induction x as [h|c l a IH] using node_induct; intros y H; inversion H as [? g E1 E2|? ? ? d m y' E1 E2 E3]; subst; [constructor; auto|].
  constructor.
  - intros Hb. symmetry. auto.
  - intros n. rewrite E2. tauto.
  - intros n u v Hu Hv. rewrite Forall_forall in IH. apply (IH (n, v) Hv). apply (E3 n v u Hv Hu).
Qed.
Lemma key_in {A} n (l : list (string * A)) : In n (map fst l) -> exists x, In (n, x) l.
Proof. intros H. apply in_map_iff in H. destruct H as ([k x] & <- & H). eauto. Qed.
Lemma in_key {A} n (x : A) (l : list (string * A)) : In (n, x) l -> In n (map fst l).
Proof. intros H. apply in_map_iff. exists (n, x). auto. Qed.
Lemma alike_trans b x : forall y z, alike b x y -> alike b y z -> alike b x z.
Proof.
  induction x as [h|c l a IH] using node_induct; intros y z H K; inversion H as [? g E1 E2|? ? ? d m y' E1 E2 E3]; subst;
    inversion K as [? g' F1 F2|? ? ? d' m' z' F1 F2 F3]; subst; [constructor; congruence|].
  constructor.
  - intros Hb. rewrite E1, F1; auto.
  - intros n. rewrite E2. auto.
  - intros n u w Hu Hw. destruct (key_in n m) as (v & Hv). { apply E2. eapply in_key; eauto. }
    rewrite Forall_forall in IH. apply (IH (n, u) Hu v w); [apply (E3 n u v Hu Hv)|apply (F3 n v w Hv Hw)].
Qed.

Lemma plain_sub c l a n x : NoDup (map fst l) -> plain_names (NBook c l a) -> In (n, x) l -> wild n = false /\ plain_names x.
Proof.
  intros ND H Hi. apply (sassoc_in n x l ND) in Hi. split.
  - apply (H [] n x). cbn [app]. rewrite node_at_cons, Hi. reflexivity.
  - intros p k y Hy. apply (H (n :: p) k y). cbn [app]. rewrite node_at_cons, Hi. exact Hy.
Qed.
Lemma kinds_sub c l a d m b n x y : NoDup (map fst l) -> NoDup (map fst m) -> same_kinds (NBook c l a) (NBook d m b) -> In (n, x) l -> In (n, y) m -> same_kinds x y.
Proof.
  intros N1 N2 H Hx Hy p u v Hu Hv. apply (sassoc_in n x l N1) in Hx. apply (sassoc_in n y m N2) in Hy. apply (H (n :: p) u v); rewrite node_at_cons.
  - rewrite Hx. auto.
  - rewrite Hy. auto.
Qed.
Lemma hist_compatible_total h g : plain_hist h -> exists b, hist_compatible h g = Some b.
Proof.
  intros (_ & C). unfold hist_compatible. destruct (_ && _)%bool; [|eauto]. revert C. generalize (o_group h ++ o_fixed h), (o_group g ++ o_fixed g).
  induction l as [|a l IH]; intros [|b m] C; cbn [compatible_zip]; eauto. inversion C as [|? ? C1 C2]; subst.
  rewrite (compatible_unnamed a b C1). destruct (axis_eqb (unnamed a) (unnamed b)); eauto.
Qed.

(** ** compatible *)
Section Compare.
  Notation good := (proper plain_hist).
  Lemma compatible_items_true f m l : compatible_items f m l = Ok true <->
    forall n x, In (n, x) l -> wild n = false /\ exists y, sassoc n m = Some y /\ f x y = Ok true.
  Proof.
    induction l as [|[n x] l IH]; cbn [compatible_items]; [split; [intros _ ? ? []|auto]|]. fold (compatible_items f m). split.
    - destruct (wild n) eqn:W; [discriminate|]. destruct (sassoc n m) as [y|] eqn:S; [|discriminate]. destruct (f x y) as [[]|] eqn:F; cbn [bind]; try discriminate.
      intros H k z [E|E]; [injection E as <- <-; eauto|]. apply IH; auto.
    - intros H. destruct (H n x (or_introl eq_refl)) as (-> & y & -> & ->). cbn [bind]. apply IH. intros k z Hk. apply H. right. auto.
  Qed.
  Lemma compatible_alike x : forall y, good x -> good y -> node_compatible x y = Ok true -> alike false x y.
  Proof.
    induction x as [h|c l a IH] using node_induct; intros y Hx Hy E; destruct y as [g|d m b]; cbn [node_compatible] in E; try discriminate.
    - inversion Hx; subst. destruct (hist_compatible h g) as [r|] eqn:C; [|discriminate]. injection E as ->. apply hist_compatible_iff in C; auto. destruct C. constructor; auto.
    - fold (compatible_items node_compatible m) in E. destruct (same_names l m) eqn:N; [|discriminate].
      inversion Hx as [|? ? ? ND F _]; subst. inversion Hy as [|? ? ? ND' F' _]; subst.
      constructor; [discriminate|apply same_names_iff; auto|]. intros n u v Hu Hv. destruct (proj1 (compatible_items_true _ _ _) E n u Hu) as (_ & v' & S & Ev).
      assert (v' = v) by (apply (sassoc_in n v m ND') in Hv; congruence). subst v'.
      rewrite Forall_forall in IH. apply (IH (n, u) Hu); auto; [apply (F n u Hu)|apply (F' n v Hv)].
  Qed.
  Lemma alike_compatible x : forall y, good x -> good y -> plain_names x -> alike false x y -> node_compatible x y = Ok true.
  Proof.
    induction x as [h|c l a IH] using node_induct; intros y Hx Hy Pn H; inversion H as [? g E1 E2|? ? ? d m y' E1 E2 E3]; subst; cbn [node_compatible].
    - inversion Hx; subst. rewrite (proj2 (hist_compatible_iff h g ltac:(assumption)) (conj E1 E2)). auto.
    - fold (compatible_items node_compatible m). rewrite (proj2 (same_names_iff l m) E2). apply compatible_items_true. intros n x Hi.
      inversion Hx as [|? ? ? ND F _]; subst. inversion Hy as [|? ? ? ND' F' _]; subst. destruct (plain_sub _ _ _ n x ND Pn Hi) as (W & Px). split; auto.
      destruct (key_in n m) as (v & Hv). { apply E2. eapply in_key; eauto. } exists v. split; [apply sassoc_in; auto|].
      rewrite Forall_forall in IH. apply (IH (n, x) Hi); auto; [apply (F n x Hi)|apply (F' n v Hv)|apply (E3 n x v Hi Hv)].
  Qed.
  Lemma compatible_total x : forall y, good x -> good y -> plain_names x -> same_kinds x y -> exists b, node_compatible x y = Ok b.
  Proof.
    induction x as [h|c l a IH] using node_induct; intros y Hx Hy Pn K; destruct y as [g|d m b]; cbn [node_compatible].
    - inversion Hx; subst. destruct (hist_compatible_total h g) as (r & ->); eauto.
    - specialize (K [] _ _ eq_refl eq_refl). discriminate.
    - specialize (K [] _ _ eq_refl eq_refl). discriminate.
    - fold (compatible_items node_compatible m). destruct (same_names l m) eqn:N; [|eauto]. assert (N' := proj1 (same_names_iff l m) N).
      inversion Hx as [|? ? ? ND F _]; subst. inversion Hy as [|? ? ? ND' F' _]; subst.
      assert (T : forall n x, In (n, x) l -> wild n = false /\ exists y b, sassoc n m = Some y /\ node_compatible x y = Ok b).
      { intros n x Hi. destruct (plain_sub _ _ _ n x ND Pn Hi) as (W & Px). split; auto. destruct (key_in n m) as (v & Hv). { apply N'. eapply in_key; eauto. }
        rewrite Forall_forall in IH. destruct (IH (n, x) Hi v (proj2 (F n x Hi)) (proj2 (F' n v Hv)) Px (kinds_sub _ _ _ _ _ _ n x v ND ND' K Hi Hv)) as (r & Er).
        exists v, r. split; auto. apply sassoc_in; auto. }
      clear - T. induction l as [|[n x] l IH]; cbn [compatible_items]; eauto. fold (compatible_items node_compatible m).
      destruct (T n x (or_introl eq_refl)) as (-> & y & r & -> & ->). cbn [bind]. destruct r; eauto. apply IH. intros k z Hk. apply T. right. auto.
  Qed.

  (** ** assertcompatible *)
  Lemma assert_items_none f m l : assert_items f m l = None <->
    forall n x, In (n, x) l -> wild n = false /\ exists y, sassoc n m = Some y /\ f x y = None.
  Proof.
    induction l as [|[n x] l IH]; cbn [assert_items]; [split; [intros _ ? ? []|auto]|]. fold (assert_items f m). split.
    - destruct (wild n) eqn:W; [discriminate|]. destruct (sassoc n m) as [y|] eqn:S; [|discriminate]. destruct (f x y) as [e|] eqn:F; [discriminate|].
      intros H k z [E|E]; [injection E as <- <-; eauto|]. apply IH; auto.
    - intros H. destruct (H n x (or_introl eq_refl)) as (-> & y & -> & ->). apply IH. intros k z Hk. apply H. right. auto.
  Qed.
  Lemma class_eqb_eq c d : class_eqb c d = true <-> c = d.
  Proof. destruct c, d; split; intros H; try reflexivity; discriminate. Qed.
  Lemma assert_alike x : forall y, good x -> good y -> node_assert x y = None -> alike true x y.
  Proof.
    induction x as [h|c l a IH] using node_induct; intros y Hx Hy E; destruct y as [g|d m b]; cbn [node_assert] in E; try discriminate.
    - inversion Hx; subst. destruct (hist_compatible h g) as [[]|] eqn:C; try discriminate. apply hist_compatible_iff in C; auto. destruct C. constructor; auto.
    - fold (assert_items node_assert m) in E. destruct (class_eqb c d) eqn:Cd; [|discriminate]. destruct (same_names l m) eqn:N; [|discriminate].
      inversion Hx as [|? ? ? ND F _]; subst. inversion Hy as [|? ? ? ND' F' _]; subst.
      constructor; [intros _; apply class_eqb_eq; auto|apply same_names_iff; auto|]. intros n u v Hu Hv. destruct (proj1 (assert_items_none _ _ _) E n u Hu) as (_ & v' & S & Ev).
      assert (v' = v) by (apply (sassoc_in n v m ND') in Hv; congruence). subst v'.
      rewrite Forall_forall in IH. apply (IH (n, u) Hu); auto; [apply (F n u Hu)|apply (F' n v Hv)].
  Qed.
  Lemma alike_assert x : forall y, good x -> good y -> plain_names x -> alike true x y -> node_assert x y = None.
  Proof.
    induction x as [h|c l a IH] using node_induct; intros y Hx Hy Pn H; inversion H as [? g E1 E2|? ? ? d m y' E1 E2 E3]; subst; cbn [node_assert].
    - inversion Hx; subst. rewrite (proj2 (hist_compatible_iff h g ltac:(assumption)) (conj E1 E2)). auto.
    - fold (assert_items node_assert m). rewrite (proj2 (class_eqb_eq c d) (E1 eq_refl)), (proj2 (same_names_iff l m) E2). apply assert_items_none. intros n x Hi.
      inversion Hx as [|? ? ? ND F _]; subst. inversion Hy as [|? ? ? ND' F' _]; subst. destruct (plain_sub _ _ _ n x ND Pn Hi) as (W & Px). split; auto.
      destruct (key_in n m) as (v & Hv). { apply E2. eapply in_key; eauto. } exists v. split; [apply sassoc_in; auto|].
      rewrite Forall_forall in IH. apply (IH (n, x) Hi); auto; [apply (F n x Hi)|apply (F' n v Hv)|apply (E3 n x v Hi Hv)].
  Qed.
  (** the only exceptions are ValueErrors *)
  Lemma assert_value x : forall y, good x -> good y -> node_assert x y = None \/ node_assert x y = Some ValueError.
  Proof.
    induction x as [h|c l a IH] using node_induct; intros y Hx Hy; destruct y as [g|d m b]; cbn [node_assert]; auto.
    - inversion Hx; subst. destruct (hist_compatible_total h g) as ([] & ->); auto.
    - fold (assert_items node_assert m). destruct (class_eqb c d); auto. destruct (same_names l m) eqn:N; auto. assert (N' := proj1 (same_names_iff l m) N).
      inversion Hx as [|? ? ? ND F _]; subst. inversion Hy as [|? ? ? ND' F' _]; subst.
      assert (T : forall n x, In (n, x) l -> exists y, sassoc n m = Some y /\ (node_assert x y = None \/ node_assert x y = Some ValueError)).
      { intros n x Hi. destruct (key_in n m) as (v & Hv). { apply N'. eapply in_key; eauto. } exists v. split; [apply sassoc_in; auto|].
        rewrite Forall_forall in IH. apply (IH (n, x) Hi); [apply (F n x Hi)|apply (F' n v Hv)]. }
      clear - T. induction l as [|[n x] l IH]; cbn [assert_items]; auto. fold (assert_items node_assert m).
      destruct (wild n); auto. destruct (T n x (or_introl eq_refl)) as (y & -> & [->| ->]); auto. apply IH. intros k z Hk. apply T. right. auto.
  Qed.

  Lemma chain_alike l : Forall good l -> assert_chain l = None -> forall x y, In x l -> In y l -> alike true x y.
  Proof.
    intros F. induction F as [|x l Hx F IH]; intros E; [intros ? ? []|].
    assert (H : forall y, In y l -> alike true x y).
    { destruct l as [|z l]; [intros ? []|]. cbn [assert_chain] in E. destruct (node_assert x z) eqn:A; [discriminate|]. inversion F as [|? ? Hz _]; subst.
      assert (Az := assert_alike x z Hx Hz A). intros y [<-|Hy]; auto. eapply alike_trans; [exact Az|]. apply IH; [exact E|left; auto|right; auto]. }
    assert (E' : assert_chain l = None). { destruct l as [|z l]; auto. cbn [assert_chain] in E. destruct (node_assert x z); [discriminate|auto]. }
    intros u v [<-|Hu] [<-|Hv]; auto.
    - eapply alike_refl; eauto.
    - apply alike_sym. auto.
  Qed.
  Lemma alike_chain l : Forall good l -> (forall x, In x l -> plain_names x) -> (forall x y, In x l -> In y l -> alike true x y) -> assert_chain l = None.
  Proof.
    intros F. induction F as [|x l Hx F IH]; intros Pn H; auto. cbn [assert_chain]. destruct l as [|z l]; auto. inversion F as [|? ? Hz _]; subst.
    rewrite (alike_assert x z); auto; [|apply Pn; left; auto|apply H; [left; auto|right; left; auto]].
    apply IH; intros; [apply Pn; right; auto|apply H; right; auto].
  Qed.
  Lemma chain_value l : Forall good l -> assert_chain l = None \/ assert_chain l = Some ValueError.
  Proof.
    intros F. induction F as [|x l Hx F IH]; auto. cbn [assert_chain]. destruct l as [|z l]; auto. inversion F as [|? ? Hz _]; subst.
    destruct (assert_value x z Hx Hz) as [->| ->]; auto.
  Qed.

  (** ** histograms anywhere in a book *)
  Lemma in_hists P x h : proper P x -> (In h (hists_of x) <-> exists p, node_at x p = Some (NHist h)).
  Proof.
    induction x as [g|c l a IH] using node_induct; intros H; cbn [hists_of].
    - split.
      + intros [->|[]]. exists []. reflexivity.
      + intros ([|k p] & E); cbn [node_at] in E; [injection E as ->; left; auto|discriminate].
    - inversion H as [|? ? ? ND F _]; subst. rewrite Forall_forall in IH. rewrite in_flat_map. split.
      + intros ([k x] & Hi & Hh). cbn [snd] in Hh. apply (IH (k, x) Hi) in Hh; [|apply (F k x Hi)]. destruct Hh as (p & Hp). exists (k :: p).
        rewrite node_at_cons, (sassoc_in k x l ND Hi). auto.
      + intros ([|k p] & E); [discriminate|]. rewrite node_at_cons in E. destruct (sassoc k l) as [x|] eqn:S; [|discriminate]. apply sassoc_some in S.
        exists (k, x). split; auto. cbn [snd]. apply (IH (k, x) S); [apply (F k x S)|eauto].
  Qed.
End Compare.
