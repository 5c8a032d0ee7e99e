(** Faulty arguments, equivalent arguments, and the list of fields. *)
From Coq Require Import String Permutation Sorted.
From Verif Require Import Num NumFacts Base Tree Instr InstrSpec InstrProofs Axis Calc Content Fill FillSpec Elem HistFill HistSpec HistFillProofs HistFillMain.

(** * The list of fields *)
Lemma sub_source t c : In (TBcast c) (sources1 t) -> subtree (TBcast c) t.
Proof.
  induction t as [k|s|s b|k|f args IH] using tree_ind'; simpl; intros H.
  - destruct H.
  - destruct H as [H|[]]; discriminate.
  - destruct H as [H|[]]; discriminate.
  - destruct H as [<-|[]]. constructor.
  - apply in_flat_map in H. destruct H as (a & Ha & H). rewrite Forall_forall in IH.
    econstructor; eauto. apply IH; auto. destruct (is_const a); [destruct H|auto].
Qed.

Lemma no_bcast_goals h c : no_bcast h -> ~ In (TBcast c) (sources (hist_goals h)).
Proof.
  intros N H. apply nodup_In, in_flat_map in H. destruct H as (g & Hg & H). apply sub_source in H.
  assert (S : exists t, In t (hist_exprs h) /\ subtree (TBcast c) t).
  { unfold hist_goals in Hg. rewrite !in_app_iff in Hg. destruct Hg as [Hg|[Hg|[Hg|Hg]]].
    - apply in_map_iff in Hg. destruct Hg as (p & <- & Hp). apply sub_axis in H; [|constructor].
      destruct H as [H|H]; [discriminate|]. exists (snd p). split; auto using group_expr.
    - apply in_map_iff in Hg. destruct Hg as (p & <- & Hp). apply sub_axis in H; [|constructor].
      destruct H as [H|H]; [discriminate|]. exists (snd p). split; auto using fixed_expr.
    - apply in_flat_map in Hg. destruct Hg as (t & Ht & Hg). exists t. split; auto using prof_expr.
      destruct Hg as [<-|[<-|[]]]; auto. apply sub_square in H. destruct H; [discriminate|auto].
    - destruct (h_weight h) as [[v|t]|] eqn:Ew; [|exists t; split; auto using weight_expr|destruct Hg].
      + exfalso. destruct Hg as [<-|[<-|[]]].
        * apply sub_const in H. discriminate.
        * apply sub_square in H. destruct H as [H|H]; [discriminate|]. apply sub_const in H. discriminate.
      + destruct Hg as [<-|[<-|[]]]; auto. apply sub_square in H. destruct H; [discriminate|auto]. }
  destruct S as (t & Ht & S). exact (N t c Ht S).
Qed.

Lemma consts_nil srcs : (forall c, ~ In (TBcast c) srcs) -> consts_of srcs = [].
Proof.
  induction srcs as [|t srcs IH]; intros H; auto. simpl. rewrite IH by (intros c Hc; apply (H c); right; auto).
  destruct t; auto. destruct (H c). left; auto.
Qed.

Lemma insert_in x y l : In y (insert_str x l) <-> y = x \/ In y l.
Proof.
  induction l as [|z l IH]; simpl; [intuition congruence|].
  destruct (String.ltb z x); simpl; [rewrite IH|]; intuition congruence.
Qed.
Lemma sort_in y l : In y (sort_str l) <-> In y l.
Proof.
  induction l as [|x l IH]; simpl; [tauto|]. rewrite insert_in, IH. intuition congruence.
Qed.
Lemma names_in srcs s : In s (names_of srcs) <-> exists t, In t srcs /\ field_name t = Some s.
Proof.
  unfold names_of. rewrite in_flat_map. split.
  - intros (t & Ht & H). exists t. split; auto. destruct (field_name t); simpl in H; intuition congruence.
  - intros (t & Ht & E). exists t. split; auto. rewrite E. left; auto.
Qed.

Definition str_le (a b : string) : Prop := String.ltb b a = false.
Lemma ascii_compare_lt a b : Ascii.compare a b = Lt -> Ascii.compare b a = Gt.
Proof. intros H. rewrite Ascii.compare_antisym, H. reflexivity. Qed.
Lemma ltb_asym a b : String.ltb a b = true -> String.ltb b a = false.
Proof.
  unfold String.ltb. intros H. rewrite String.compare_antisym. destruct (String.compare a b); try discriminate; auto.
Qed.
Lemma insert_sorted x l : Sorted str_le l -> Sorted str_le (insert_str x l).
Proof.
  induction 1 as [|y l S IH H]; simpl; [repeat constructor|].
  destruct (String.ltb y x) eqn:E.
  - constructor; auto. destruct l as [|z l]; simpl.
    + constructor. unfold str_le. apply ltb_asym; auto.
    + inversion H; subst. destruct (String.ltb z x); constructor; auto. unfold str_le. apply ltb_asym; auto.
  - constructor; [constructor; auto|]. constructor. exact E.
Qed.
Lemma sort_sorted l : Sorted str_le (sort_str l).
Proof. induction l; simpl; [constructor|]. apply insert_sorted; auto. Qed.

Lemma fields_spec h srcs : Permutation srcs (sources (hist_goals h)) -> no_bcast h ->
  exists ns, fields srcs = Ok (ns, []) /\ Sorted str_le ns /\ forall s, In s ns <-> hist_mentions h s.
Proof.
  intros Hp N. unfold fields. rewrite consts_nil.
  - eexists. split; [reflexivity|]. split; [apply sort_sorted|].
    intros s. rewrite sort_in, names_in. rewrite <- goals_mention, <- sources_mentions.
    split; intros (t & Ht & E); exists t; split; auto.
    + eapply Permutation_in; eauto.
    + eapply Permutation_in; [apply Permutation_sym|]; eauto.
  - intros c Hc. apply (no_bcast_goals h c N). eapply Permutation_in; eauto.
Qed.

(** * Arguments that cannot be told apart *)
Lemma run_ext V0 cv lb p p' is : (forall n t, In (Param n t) is -> p t = p' t) ->
  forall s out, run V0 cv lb p is s out = run V0 cv lb p' is s out.
Proof.
  induction is as [|i is IH]; intros H s out; simpl; auto.
  assert (IH' : forall s out, run V0 cv lb p is s out = run V0 cv lb p' is s out).
  { intros. apply IH. intros n t Hin. apply (H n). right; auto. }
  destruct i as [n t|n e|n g|n].
  - rewrite (H n t) by (left; auto). destruct (p' t); simpl; auto.
  - destruct (calculate V0 cv lb s e); simpl; auto.
  - destruct (lookup V0 n s); auto.
  - destruct (lookup V0 n s); auto.
Qed.

Section Args.
  Variable cast : Num -> Z.
  Variable rnd : Qc -> Num.
  Variable user : string -> list arg -> res val.
  Variable order : tree -> list tree -> list tree.
  Variable h : hist.
  Variable srcs : list tree.
  Hypothesis Ho : is_order order.
  Hypothesis Hp : Permutation srcs (sources (hist_goals h)).

  Notation fillh := (hist_fill cast rnd user order srcs h).

  Lemma params_mentioned is n t s :
    instructions order srcs (hist_goals h) = Ok is -> In (Param n t) is -> field_name t = Some s -> hist_mentions h s.
  Proof.
    intros E Hin Et. apply goals_mention, sources_mentions. exists t. split; auto.
    apply (instructions_params order srcs _ is Ho Hp E). eauto.
  Qed.

  Lemma fill_same A A' c :
    (forall is, instructions order srcs (hist_goals h) = Ok is ->
       scan_length A is = scan_length A' is /\
       forall len n t, scan_length A is = Ok len -> In (Param n t) is -> param A len t = param A' len t) ->
    fillh A c = fillh A' c.
  Proof.
    intros H. unfold hist_fill. destruct (instructions order srcs (hist_goals h)) as [is|e]; cbn [bind]; auto.
    destruct (fields srcs); cbn [bind]; auto.
    destruct (H is eq_refl) as (H1 & H2).
    assert (E : fill_arrays cast rnd user A is = fill_arrays cast rnd user A' is).
    { unfold fill_arrays. rewrite <- H1. destruct (scan_length A is) as [len|] eqn:Es; cbn [bind]; auto.
      rewrite (run_ext _ _ _ (param A len) (param A' len)); auto. intros n t. apply H2; auto. }
    rewrite E. reflexivity.
  Qed.

  Lemma scan_ext A A' is :
    (forall n t s, In (Param n t) is -> field_name t = Some s ->
       match A s, A' s with
       | Some (IAr l), Some (IAr l') => l = l'
       | Some (IAr _), _ | _, Some (IAr _) => False
       | Some (ISc _), Some (ISc _) => True
       | None, None => True
       | None, Some (ISc _) | Some (ISc _), None => lib_find s maybeconstants <> None
       end) -> scan_length A is = scan_length A' is.
  Proof.
    induction is as [|i is IH]; intros H; cbn [scan_length]; auto.
    assert (IH' : scan_length A is = scan_length A' is).
    { apply IH. intros n t s Hin. apply H with (n := n). right; auto. }
    destruct i as [n t|n e|n g|n]; auto. destruct (field_name t) as [s|] eqn:Et; auto.
    specialize (H n t s (or_introl eq_refl) Et).
    destruct (A s) as [[v|l]|], (A' s) as [[v'|l']|]; try contradiction; auto.
    - destruct (lib_find s maybeconstants); [auto|congruence].
    - congruence.
    - destruct (lib_find s maybeconstants); [auto|congruence].
    - rewrite IH'. reflexivity.
  Qed.

  Lemma param_fields A A' len t :
    (forall s, field_name t = Some s -> param A len (TName s) = param A' len (TName s)) ->
    param A len t = param A' len t.
  Proof. destruct t; intros H; auto; apply (H _ eq_refl). Qed.

  Lemma fill_agree A A' c : (forall s, hist_mentions h s -> A s = A' s) -> fillh A c = fillh A' c.
  Proof.
    intros H. apply fill_same. intros is E. split.
    - apply scan_ext. intros n t s Hin Et. rewrite <- (H s) by (eapply params_mentioned; eauto).
      destruct (A s) as [[v|l]|]; auto.
    - intros len n t _ Hin. apply param_fields. intros s Et.
      unfold param. rewrite <- (H s) by (eapply params_mentioned; eauto). reflexivity.
  Qed.

  (** [A] with field [s] replaced. *)
  Definition set_field (A : arrays) (s : string) (a : inarr) : arrays :=
    fun n => if String.eqb n s then Some a else A n.

  Lemma fill_named_constant A s v c : A s = None -> lib_find s maybeconstants = Some v ->
    fillh A c = fillh (set_field A s (ISc v)) c.
  Proof.
    intros E Ev. apply fill_same. intros is Ei. split.
    - apply scan_ext. intros n t s' Hin Et. unfold set_field. destruct (String.eqb_spec s' s) as [->|].
      + rewrite E. congruence.
      + destruct (A s') as [[?|?]|]; auto.
    - intros len n t _ Hin. apply param_fields. intros s' Et. unfold param, set_field.
      destruct (String.eqb_spec s' s) as [->|]; auto. rewrite E, Ev. reflexivity.
  Qed.

  Lemma fill_scalar A s v len c : args_ok h A len -> A s = Some (ISc v) ->
    fillh A c = fillh (set_field A s (IAr (repeat v len))) c.
  Proof.
    intros (H1 & H2) E. apply fill_same. intros is Ei.
    assert (Hpar := instructions_params order srcs _ is Ho Hp Ei).
    assert (S1 : scan_length A is = Ok len).
    { apply scan_ok.
      - intros n t s' Hin Et. apply H1. eapply params_mentioned; eauto.
      - destruct H2 as [(s' & Hm & Ha)| ->]; auto. left. apply goals_mention, sources_mentions in Hm.
        destruct Hm as (t & Ht & Et). apply Hpar in Ht. destruct Ht as (n & Hn). exists n, t, s'. auto. }
    assert (S2 : scan_length (set_field A s (IAr (repeat v len))) is = Ok len).
    { apply scan_ok.
      - intros n t s' Hin Et. assert (M := params_mentioned is n t s' Ei Hin Et). destruct (H1 s' M) as (M1 & M2).
        unfold available, right_length, set_field. destruct (String.eqb_spec s' s) as [->|]; [|auto].
        split; [left; discriminate|]. intros l El. injection El as <-. apply repeat_length.
      - destruct H2 as [(s' & Hm & Ha)| ->]; auto. left. apply goals_mention, sources_mentions in Hm.
        destruct Hm as (t & Ht & Et). apply Hpar in Ht. destruct Ht as (n & Hn). exists n, t, s'. split; auto. split; auto.
        unfold is_array, set_field. destruct (String.eqb_spec s' s) as [->|]; [eauto|auto]. }
    split; [congruence|]. intros len' n t El Hin. assert (len' = len) by congruence. subst len'.
    apply param_fields. intros s' Et. unfold param, set_field.
    destruct (String.eqb_spec s' s) as [->|]; auto. rewrite E, repeat_length, Nat.eqb_refl. reflexivity.
  Qed.

  Lemma fill_keywords one one' two c : (forall s, two s = None -> one s = one' s) ->
    fillh (chained one two) c = fillh (chained one' two) c.
  Proof.
    intros H. apply fill_agree. intros s _. unfold chained. destruct (two s) eqn:E; auto.
  Qed.

  (** * Faulty arguments *)
  Lemma run_params V0 cv lb p is : forall s out r, run V0 cv lb p is s out = Ok r ->
    forall n t, In (Param n t) is -> exists v, p t = Ok v.
  Proof.
    induction is as [|i is IH]; intros s out r E n t Hin; [destruct Hin|]. simpl in E.
    destruct i as [m u|m e|m g|m].
    - apply bind_ok in E. destruct E as (v & Ev & E). destruct Hin as [Hin|Hin]; [injection Hin as <- <-; eauto|eauto].
    - apply bind_ok in E. destruct E as (v & Ev & E). destruct Hin as [Hin|Hin]; [discriminate|eauto].
    - destruct (lookup V0 m s); [|discriminate]. destruct Hin as [Hin|Hin]; [discriminate|eauto].
    - destruct (lookup V0 m s); [|discriminate]. destruct Hin as [Hin|Hin]; [discriminate|eauto].
  Qed.

  Lemma fill_faulty A c :
    (forall len, exists s, hist_mentions h s /\ exists e, param A len (TName s) = Err e) ->
    exists e, fillh A c = (prefill (hist_layout h) (length (h_group h)) c, Some e).
  Proof.
    intros H. unfold hist_fill.
    destruct (instructions order srcs (hist_goals h)) as [is|e] eqn:Ei; cbn [bind]; [|eauto].
    destruct (fields srcs); cbn [bind]; [|eauto].
    unfold fill_arrays. destruct (scan_length A is) as [len|]; cbn [bind]; [|eauto].
    destruct (run _ _ _ (param A len) is [] []) as [r|e] eqn:Er; cbn [bind]; [|eauto].
    exfalso. destruct (H len) as (s & Hm & e & Ee).
    apply goals_mention, sources_mentions in Hm. destruct Hm as (t & Ht & Et).
    apply (instructions_params order srcs _ is Ho Hp Ei) in Ht. destruct Ht as (n & Hn).
    destruct (run_params _ _ _ _ _ _ _ _ Er n t Hn) as (v & Ev).
    destruct t; simpl in Et; try discriminate; injection Et as ->; simpl in Ev, Ee; congruence.
  Qed.

  Lemma fill_missing A s c : hist_mentions h s -> ~ available A s ->
    exists e, fillh A c = (prefill (hist_layout h) (length (h_group h)) c, Some e).
  Proof.
    intros Hm Ha. apply fill_faulty. intros len. exists s. split; auto. unfold param.
    destruct (A s) eqn:E; [exfalso; apply Ha; left; congruence|].
    destruct (lib_find s maybeconstants) eqn:E'; [exfalso; apply Ha; right; congruence|]. eauto.
  Qed.

  Lemma fill_lengths A s s' l l' c : hist_mentions h s -> hist_mentions h s' ->
    A s = Some (IAr l) -> A s' = Some (IAr l') -> length l <> length l' ->
    exists e, fillh A c = (prefill (hist_layout h) (length (h_group h)) c, Some e).
  Proof.
    intros Hm Hm' E E' Hl. apply fill_faulty. intros len.
    destruct (Nat.eqb len (length l)) eqn:El.
    - exists s'. split; auto. unfold param. rewrite E'. apply Nat.eqb_eq in El.
      rewrite (proj2 (Nat.eqb_neq len (length l'))) by congruence. eauto.
    - exists s. split; auto. unfold param. rewrite E, El. eauto.
  Qed.

  Lemma fill_prefilled A c : fillh A (prefill (hist_layout h) (length (h_group h)) c) = fillh A c.
  Proof.
    unfold hist_fill.
    assert (E : forall L n d, prefill L n (prefill L n d) = prefill L n d).
    { intros L n [| |]; simpl; auto. destruct (Nat.eqb n 0); reflexivity. }
    rewrite E. reflexivity.
  Qed.
End Args.

Lemma prefill_cells L ng c : same_cells L (prefill L ng c) c.
Proof.
  intros ks ss j. destruct c; simpl; auto. unfold cell.
  destruct (Nat.eqb ng 0); simpl.
  - destruct ks; simpl; auto. unfold zeros. destruct (Nat.lt_ge_cases (ravel (l_tots L) ss * l_last L + j) (l_size L)).
    + apply nth_repeat.
    + rewrite nth_overflow; auto. rewrite repeat_length; auto.
  - destruct ks; reflexivity.
Qed.
