(** Corollaries: separate programs, untouched variables, derivations. *)
From Coq Require Import String.
From Verif Require Import Base Num NumFacts Axis Calc Content Fill FillSpec FillProofs FillMain HistFill HistFillProofs HistAlg HistAlgProofs AlgSpec HistAlgMain
  Heap HeapSpec HeapProofs HeapAdd HeapMain.
Local Open Scope list_scope.

(** ** All classes different *)
Definition distinct (vals : list hobj) (g : ghost) : Prop :=
  length (g_classes g) = length vals /\ NoDup (g_classes g) /\ ~ In None (g_classes g).
Lemma distinct_alone vals g i : distinct vals g -> i < length vals -> alone g i.
Proof.
  intros (L & N & NN) Hi. rewrite <- L in Hi. destruct (nth_error (g_classes g) i) as [[k|]|] eqn:E.
  - exists k. split; auto. intros j Nj Ej. rewrite NoDup_nth_error in N. apply Nj. apply N; [|congruence]. apply nth_error_Some. congruence.
  - destruct NN. eapply nth_error_In; eauto.
  - apply nth_error_None in E. lia.
Qed.
Lemma fresh_not_in cs : ~ In (Some (no_class cs)) cs.
Proof. intros H. apply In_nth_error in H. destruct H as (i & E). apply (no_class_fresh cs i). auto. Qed.
Lemma nodup_set {A} (l : list A) i x : NoDup l -> ~ In x l -> NoDup (set_nth l i x).
Proof.
  unfold set_nth. intros N. revert i. induction N as [|a l Ha N IH]; intros [|i] Hx; cbn [upd]; try constructor; auto.
  - intros H. apply Hx. right. auto.
  - intros H. assert (Q : forall l i y, In y (upd (fun _ => x) i l) -> y = x \/ In y l).
    { clear. induction l as [|b l IH]; intros [|i] y; cbn [upd In]; intuition auto; destruct (IH i y); auto. }
    apply Q in H. destruct H as [->|H]; auto. apply Hx. left. auto.
  - apply IH. intros H. apply Hx. right. auto.
Qed.
Lemma in_set {A} (l : list A) i x y : In y (set_nth l i x) -> y = x \/ In y l.
Proof. unfold set_nth. revert i. induction l as [|b l IH]; intros [|i]; cbn [upd In]; intuition auto; destruct (IH i); auto. Qed.
Lemma distinct_set vals vals' g flags i : distinct vals g -> length vals' = length vals ->
  distinct vals' {| g_flags := flags; g_classes := set_nth (g_classes g) i (Some (no_class (g_classes g))) |}.
Proof.
  intros (L & N & NN) E. split; cbn [g_classes]; [rewrite set_nth_length; lia|]. split; [apply nodup_set; auto; apply fresh_not_in|].
  intros H. apply in_set in H. destruct H; [discriminate|auto].
Qed.
Lemma distinct_new vals vals' g flags : distinct vals g -> length vals' = S (length vals) ->
  distinct vals' {| g_flags := flags; g_classes := g_classes g ++ [Some (no_class (g_classes g))] |}.
Proof.
  intros (L & N & NN) E. split; cbn [g_classes]; [rewrite app_length; cbn [length]; lia|]. split.
  - apply NoDup_rev in N. apply NoDup_rev in N. rewrite rev_involutive in N. clear - N.
    assert (F := fresh_not_in (g_classes g)). revert F. generalize (Some (no_class (g_classes g))). intros x F.
    induction N as [|a l Ha N IH]; cbn [app]; constructor; auto; [constructor| |].
    + rewrite in_app_iff. cbn [In]. intros [H|[H|[]]]; auto. apply F. left. auto.
    + apply IH. intros H. apply F. right. auto.
  - rewrite in_app_iff. cbn [In]. intros [H|[H|[]]]; auto. discriminate.
Qed.
Lemma on_length vals i f : length (fst (on vals i f)) = length vals.
Proof. unfold on. destruct (nth_error vals i) as [h|]; auto. destruct (f h). cbn [fst]. apply set_nth_length. Qed.
Lemma distinct_created vals g flags (r : res hobj) : distinct vals g ->
  distinct (fst (new vals r)) (if match snd (new vals r) with None => true | Some _ => false end
    then {| g_flags := flags; g_classes := g_classes g ++ [Some (no_class (g_classes g))] |} else g).
Proof. intros D. unfold new. destruct r as [h|e]; cbn [fst snd]; auto. apply distinct_new with (vals := vals); auto. rewrite app_length. cbn [length]. lia. Qed.

Lemma separate_step vals g o : distinct vals g -> separate vals o -> allowed vals g o /\ distinct (fst (value_step vals o)) (ghost_step vals g o).
Proof.
  intros D S. destruct o as [i f|i j|i x|i|i|i|i|i j|i x|by_ hs|i f|i f|i p b]; cbn [separate allowed ghost_step] in *; try contradiction.
  - split.
    + destruct (nth_error vals i) as [h|] eqn:E; auto. split; auto. right. right. eapply distinct_alone; eauto. apply nth_error_Some. congruence.
    + apply distinct_set with (vals := vals); auto. cbn [value_step]. apply on_length.
  - split; [intros L; right; eapply distinct_alone; eauto|]. apply distinct_set with (vals := vals); auto. cbn [value_step]. destruct (get_var vals j); auto. apply on_length.
  - split; [intros L; right; eapply distinct_alone; eauto|]. apply distinct_set with (vals := vals); auto. cbn [value_step]. apply on_length.
  - split; auto. apply distinct_set with (vals := vals); auto. cbn [value_step]. apply on_length.
  - split; auto. cbn [value_step]. apply distinct_created. auto.
  - split; auto. cbn [value_step]. apply distinct_created. auto.
  - split; auto. destruct (nth_error vals i) as [h|] eqn:E1; [|cbn [value_step]; unfold get_var; rewrite E1; cbn [bind new fst]; auto].
    destruct (nth_error vals j) as [k|] eqn:E2; [|cbn [value_step]; unfold get_var; rewrite E1, E2; cbn [bind new fst]; auto].
    rewrite S. cbn [value_step]. apply distinct_created. auto.
  - split; auto. cbn [value_step]. apply distinct_created. auto.
  - split; auto. cbn [value_step]. apply distinct_created. auto.
  - split.
    + destruct (nth_error vals i) as [h|] eqn:E; auto. split; auto. right. eapply distinct_alone; eauto. apply nth_error_Some. congruence.
    + apply distinct_set with (vals := vals); auto. cbn [value_step]. apply on_length.
  - split; auto. cbn [value_step]. apply distinct_created. auto.
Qed.
Lemma fresh_distinct hs : distinct hs (fresh_ghost hs).
Proof.
  split; cbn [fresh_ghost g_classes]; [rewrite map_length, seq_length; auto|]. split.
  - apply FinFun.Injective_map_NoDup; [intros a b; congruence|apply seq_NoDup].
  - rewrite in_map_iff. intros (x & E & _). discriminate.
Qed.

(** States with values [vals] in which nothing is shared. *)
Definition apart (s : state) (vals : list hobj) : Prop := exists g, Inv s vals g /\ distinct vals g.
Lemma apart_fresh hs : Forall fresh_hist hs -> apart (fresh_state hs) hs.
Proof. intros F. exists (fresh_ghost hs). split; [apply inv_fresh_state; auto|apply fresh_distinct]. Qed.
Lemma apart_values s vals : apart s vals -> values s = vals.
Proof. intros (g & I & _). apply (inv_vals _ _ _ I). Qed.
Lemma apart_step s vals o : apart s vals -> separate vals o ->
  snd (step s o) = snd (value_step vals o) /\ apart (fst (step s o)) (fst (value_step vals o)).
Proof.
  intros (g & I & D) S. destruct (separate_step vals g o D S) as (A & D'). destruct (inv_step s vals g o I A) as (E & I'). split; auto.
  exists (ghost_step vals g o). auto.
Qed.
Lemma run_app s a b : run s (a ++ b) = let '(s1, e1) := run s a in let '(s2, e2) := run s1 b in (s2, e1 ++ e2).
Proof.
  revert s. induction a as [|o a IH]; intros s; cbn [app run]; [destruct (run s b); auto|].
  destruct (step s o) as [s1 e]. rewrite IH. destruct (run s1 a) as [s2 es]. destruct (run s2 b). auto.
Qed.
Lemma value_run_app s a b : value_run s (a ++ b) = let '(s1, e1) := value_run s a in let '(s2, e2) := value_run s1 b in (s2, e1 ++ e2).
Proof.
  revert s. induction a as [|o a IH]; intros s; cbn [app value_run]; [destruct (value_run s b); auto|].
  destruct (value_step s o) as [s1 e]. rewrite IH. destruct (value_run s1 a) as [s2 es]. destruct (value_run s2 b). auto.
Qed.
Lemma separate_app vals a b : separate_run vals (a ++ b) <-> separate_run vals a /\ separate_run (fst (value_run vals a)) b.
Proof.
  revert vals. induction a as [|o a IH]; intros vals; cbn [app separate_run value_run fst]; [tauto|]. rewrite IH.
  destruct (value_step vals o) as [v1 e]. cbn [fst]. destruct (value_run v1 a) as [v2 es]. cbn [fst]. tauto.
Qed.
Lemma apart_run os : forall s vals, apart s vals -> separate_run vals os ->
  snd (run s os) = snd (value_run vals os) /\ apart (fst (run s os)) (fst (value_run vals os)).
Proof.
  induction os as [|o os IH]; intros s vals A S; cbn [run value_run]; auto. destruct S as (S1 & S2).
  destruct (apart_step s vals o A S1) as (E & A'). destruct (step s o) as [s1 e]. destruct (value_step vals o) as [v1 e']. cbn [fst snd] in *. subst e'.
  destruct (IH s1 v1 A' S2) as (E2 & A2). destruct (run s1 os) as [s2 es]. destruct (value_run v1 os) as [v2 es']. cbn [fst snd] in *. subst. auto.
Qed.

(** ** What an operation leaves alone, on values *)
Lemma value_step_keeps vals o k h : target o <> Some k -> nth_error vals k = Some h -> nth_error (fst (value_step vals o)) k = Some h.
Proof.
  intros T E.
  assert (ON : forall i f, i <> k -> nth_error (fst (on vals i f)) k = Some h).
  { intros i f Ni. unfold on. destruct (nth_error vals i) as [x|]; auto. destruct (f x). cbn [fst]. rewrite nth_set_other; auto. }
  assert (NW : forall r, nth_error (fst (new vals r)) k = Some h).
  { intros [x|e]; cbn [new fst]; auto. rewrite nth_error_app1; auto. apply nth_error_Some. congruence. }
  destruct o as [i f|i j|i x|i|i|i|i|i j|i x|by_ hs|i f|i f|i p b]; cbn [value_step target] in *; try apply NW; try (apply ON; congruence).
  destruct (get_var vals j); auto; apply ON; congruence.
Qed.
Lemma value_run_keeps os : forall vals k h, leaves k os -> nth_error vals k = Some h -> nth_error (fst (value_run vals os)) k = Some h.
Proof.
  induction os as [|o os IH]; intros vals k h L E; cbn [value_run]; auto. inversion L as [|? ? T L']; subst.
  assert (K := value_step_keeps vals o k h T E). destruct (value_step vals o) as [v1 e]. cbn [fst] in K. specialize (IH v1 k h L' K).
  destruct (value_run v1 os). auto.
Qed.

(** ** Operations that create histograms change no existing object *)
Lemma alloc_tree_grows c : forall H H' r, alloc_tree H c = (H', r) -> exists X, H' = H ++ X.
Proof.
  induction c as [|d|l IH] using content_ind'; intros H H' r E.
  - injection E as <- <-. exists []. symmetry. apply app_nil_r.
  - injection E as <- <-. eauto.
  - rewrite alloc_tree_dict in E. destruct (alloc_items alloc_tree H l) as [H1 items] eqn:A. injection E as <- <-.
    assert (K : exists X, H1 = H ++ X).
    { revert H H1 items A. induction IH as [|[k c] l Hc IH IHl]; intros H H1 items A; cbn [alloc_items] in A.
      - injection A as <- <-. exists []. symmetry. apply app_nil_r.
      - fold (alloc_items alloc_tree) in A. destruct (alloc_tree H c) as [Ha ra] eqn:Ea. destruct (alloc_items alloc_tree Ha l) as [Hb rb] eqn:Eb.
        injection A as <- <-. destruct (Hc _ _ _ Ea) as (X & ->). destruct (IHl _ _ _ Eb) as (Y & ->). exists (X ++ Y). rewrite app_assoc. auto. }
    destruct K as (X & ->). exists (X ++ [ODict items]). rewrite app_assoc. auto.
Qed.
Lemma add_ref_grows k1 k2 : forall n H r s H' x, add_ref k1 k2 n H r s = (H', x) -> exists X, H' = H ++ X.
Proof.
  assert (NIL : forall H : heap, exists X, H = H ++ X) by (intros H; exists []; symmetry; apply app_nil_r).
  assert (CP : forall n H r H' q, copy_ref n H r = (H', q) -> exists X, H' = H ++ X) by (intros; eapply alloc_tree_grows; eauto).
  induction n as [|n IH]; intros H [|l] [|m] H' x E.
  1,5: cbn in E; injection E as <- <-; auto.
  1,4: unfold add_ref in E; match type of E with (let '(_, _) := ?c in _) = _ => destruct c as [Ha y] eqn:C end; injection E as <- <-; eauto.
  1,3: unfold add_ref in E; match type of E with (let '(_, _) := ?c in _) = _ => destruct c as [Ha y] eqn:C end; injection E as <- <-; eauto.
  - cbn [add_ref] in E. destruct (get H l) as [[d|a]|]; destruct (get H m) as [[e|b]|]; try (injection E as <- <-; auto; fail).
    destruct (arr_add k1 k2 d e); injection E as <- <-; auto. eauto.
  - cbn [add_ref] in E. destruct (get H l) as [[d|a]|]; destruct (get H m) as [[e|b]|]; try (injection E as <- <-; auto; fail).
    + destruct (arr_add k1 k2 d e); injection E as <- <-; auto. eauto.
    + destruct (add_refs (add_ref k1 k2 n) b H a) as [Ha y] eqn:Ea.
      assert (K : exists X, Ha = H ++ X).
      { clear E. revert H Ha y Ea. induction a as [|[k z] a IHa]; intros H Ha y Ea; cbn [add_refs] in Ea; [injection Ea as <- <-; auto|].
        fold (add_refs (add_ref k1 k2 n)) in Ea.
        destruct (match assoc k b with Some x' => add_ref k1 k2 n H z x' | None => (H, Ok z) end) as [Hb w] eqn:Ew.
        assert (Kb : exists X, Hb = H ++ X) by (destruct (assoc k b); [eapply IH; eauto|injection Ew as <- <-; auto]).
        destruct w as [w|e]; [|injection Ea as <- <-; auto]. destruct (add_refs (add_ref k1 k2 n) b Hb a) as [Hc t] eqn:Et.
        destruct (IHa _ _ _ Et) as (Y & EY). destruct Kb as (X & ->). assert (Kc : exists Z, Hc = H ++ Z) by (exists (X ++ Y); rewrite app_assoc; auto).
        destruct t; injection Ea as <- <-; auto. }
      destruct y as [items|e]; injection E as <- <-; auto. destruct K as (X & ->). eexists. rewrite <- app_assoc. reflexivity.
Qed.
Lemma sel_ref_grows b : forall p H r H' x, sel_ref p b H r = (H', x) -> exists X, H' = H ++ X.
Proof.
  assert (NIL : forall H : heap, exists X, H = H ++ X) by (intros H; exists []; symmetry; apply app_nil_r).
  induction p as [|p IH]; intros H [|l] H' x E; cbn [sel_ref] in E; try (injection E as <- <-; auto; fail).
  - destruct (get H l) as [[d|items]|]; injection E as <- <-; auto. eauto.
  - destruct (get H l) as [[d|items]|]; try (injection E as <- <-; auto; fail).
    destruct (sel_refs (sel_ref p b) H items) as [Ha y] eqn:Ea.
    assert (K : exists X, Ha = H ++ X).
    { clear E. revert H Ha y Ea. induction items as [|[k z] items IHa]; intros H Ha y Ea; cbn [sel_refs] in Ea; [injection Ea as <- <-; auto|].
      fold (sel_refs (sel_ref p b)) in Ea. destruct (sel_ref p b H z) as [Hb w] eqn:Ew. destruct (IH _ _ _ _ Ew) as (X & ->).
      destruct (sel_refs (sel_ref p b) (H ++ X) items) as [Hc t] eqn:Et. destruct (IHa _ _ _ Et) as (Y & EY). injection Ea as <- <-.
      exists (X ++ Y). rewrite app_assoc. auto. }
    injection E as <- <-. destruct K as (X & ->). exists (X ++ [ODict y]). rewrite app_assoc. auto.
Qed.
Lemma create_grows s o : creates o = true -> exists X Y, s_heap (fst (step s o)) = s_heap s ++ X /\ s_vars (fst (step s o)) = s_vars s ++ Y.
Proof.
  assert (NIL : exists X Y, s_heap s = s_heap s ++ X /\ s_vars s = s_vars s ++ Y) by (exists [], []; rewrite !app_nil_r; auto).
  assert (GR : forall H' h r fl X, H' = s_heap s ++ X -> exists X Y, s_heap (new_var H' (s_vars s) h r fl) = s_heap s ++ X /\ s_vars (new_var H' (s_vars s) h r fl) = s_vars s ++ Y).
  { intros H' h r fl X ->. eexists. eexists. split; reflexivity. }
  destruct o as [i f|i j|i x|i|i|i|i|i j|i x|by_ hs|i f|i f|i p b]; cbn [creates target]; intros C; try discriminate; cbn [step].
  - destruct (nth_error (s_vars s) i) as [v|]; auto. destruct (copy_ref (ngroups (v_obj v)) (s_heap s) (v_ref v)) as [H1 r] eqn:E. cbn [fst].
    destruct (alloc_tree_grows _ _ _ _ E) as (X & Q). eapply GR; eauto.
  - destruct (nth_error (s_vars s) i) as [v|]; auto. cbn [fst]. apply GR with (X := []). symmetry. apply app_nil_r.
  - destruct (nth_error (s_vars s) i) as [v|]; auto. cbn [fst]. apply GR with (X := []). symmetry. apply app_nil_r.
  - destruct (nth_error (s_vars s) i) as [v|]; auto. destruct (nth_error (s_vars s) j) as [w|]; auto.
    destruct (axes_eqb (o_axes (v_obj v)) (o_axes (v_obj w))); auto.
    destruct (add_ref _ _ _ (s_heap s) (v_ref v) (v_ref w)) as [H1 q] eqn:E. destruct (add_ref_grows _ _ _ _ _ _ _ _ E) as (X & Q).
    destruct q; cbn [fst]; [eapply GR; eauto|]. exists X, []. rewrite app_nil_r. auto.
  - destruct (nth_error (s_vars s) i) as [v|]; auto. destruct (content_mul x (var_view (s_heap s) v)) as [c|]; auto.
    destruct (alloc_tree (s_heap s) c) as [H1 r] eqn:E. cbn [fst]. destruct (alloc_tree_grows _ _ _ _ E) as (X & Q). eapply GR; eauto.
  - destruct (mapM _ hs) as [l|]; auto. destruct (group_hists by_ l) as [g|]; auto.
    destruct (alloc_tree (s_heap s) (o_content g)) as [H1 r] eqn:E. cbn [fst]. destruct (alloc_tree_grows _ _ _ _ E) as (X & Q). eapply GR; eauto.
  - destruct (nth_error (s_vars s) i) as [v|]; auto. destruct (f (var_value (s_heap s) v)) as [g|]; auto.
    destruct (alloc_tree (s_heap s) (o_content g)) as [H1 r] eqn:E. cbn [fst]. destruct (alloc_tree_grows _ _ _ _ E) as (X & Q). eapply GR; eauto.
  - destruct (nth_error (s_vars s) i) as [v|]; auto. destruct (Nat.ltb p (ngroups (v_obj v))); auto.
    destruct (sel_ref p b (s_heap s) (v_ref v)) as [H1 r] eqn:E. cbn [fst]. destruct (sel_ref_grows _ _ _ _ _ _ E) as (X & Q). eapply GR; eauto.
Qed.

(** ** Writes to the first variables do not look at the others *)
Lemma nth_app_some {A} (l m : list A) i x : nth_error l i = Some x -> nth_error (l ++ m) i = Some x.
Proof. intros E. rewrite nth_error_app1; auto. apply nth_error_Some. congruence. Qed.
Lemma set_nth_app {A} (l m : list A) i x y : nth_error l i = Some y -> set_nth (l ++ m) i x = set_nth l i x ++ m.
Proof. unfold set_nth. revert i. induction l as [|a l IH]; intros [|i]; cbn [nth_error app upd]; try discriminate; intros E; auto. rewrite IH; auto. Qed.
Lemma step_within H vs extra vals o : values {| s_heap := H; s_vars := vs |} = vals -> writes_within vals o ->
  step {| s_heap := H; s_vars := vs ++ extra |} o =
  let '(s', e) := step {| s_heap := H; s_vars := vs |} o in ({| s_heap := s_heap s'; s_vars := s_vars s' ++ extra |}, e).
Proof.
  intros V W.
  assert (EX : forall i, i < length vals -> exists v, nth_error vs i = Some v).
  { intros i Hi. rewrite <- V in Hi. unfold values in Hi. cbn [s_vars] in Hi. rewrite map_length in Hi.
    destruct (nth_error vs i) eqn:E; eauto. apply nth_error_None in E. lia. }
  assert (EX' : forall i h, nth_error vals i = Some h -> exists v, nth_error vs i = Some v) by (intros i h E; apply EX; apply nth_error_Some; congruence).
  destruct o as [i f|i j|i x|i|i|i|i|i j|i x|by_ hs|i f|i f|i p b]; cbn [writes_within] in W; try contradiction; cbn [step s_heap s_vars].
  - destruct W as (h & Eh & _). destruct (EX' _ _ Eh) as (v & Ev). rewrite (nth_app_some _ _ _ _ Ev), Ev.
    destruct (if v_flag v then copy_ref (ngroups (v_obj v)) H (v_ref v) else (H, v_ref v)) as [H1 r1].
    destruct (f (view (ngroups (v_obj v)) H1 r1)) as [c e]. destruct (store (ngroups (v_obj v)) H1 r1 c) as [H2 r2]. cbn [s_heap s_vars].
    rewrite (set_nth_app _ _ _ _ _ Ev). auto.
  - destruct W as (W1 & W2). destruct (EX _ W1) as (v & Ev). destruct (EX _ W2) as (w & Ew).
    rewrite (nth_app_some _ _ _ _ Ev), Ev, (nth_app_some _ _ _ _ Ew), Ew. destruct (axes_eqb (o_axes (v_obj v)) (o_axes (v_obj w))); auto.
    destruct (content_iadd _ _ (var_view H v) (var_view H w)) as [c e]. destruct (store (ngroups (v_obj v)) H (v_ref v) c) as [H2 r2]. cbn [s_heap s_vars].
    rewrite (set_nth_app _ _ _ _ _ Ev). auto.
  - destruct (EX _ W) as (v & Ev). rewrite (nth_app_some _ _ _ _ Ev), Ev. destruct (content_imul x (var_view H v)) as [c e].
    destruct (store (ngroups (v_obj v)) H (v_ref v) c) as [H2 r2]. cbn [s_heap s_vars]. rewrite (set_nth_app _ _ _ _ _ Ev). auto.
  - destruct (EX _ W) as (v & Ev). rewrite (nth_app_some _ _ _ _ Ev), Ev. cbn [s_heap s_vars]. rewrite (set_nth_app _ _ _ _ _ Ev). auto.
  - destruct W as (h & Eh & _). destruct (EX' _ _ Eh) as (v & Ev). rewrite (nth_app_some _ _ _ _ Ev), Ev.
    destruct (f (var_view H v)) as [c e]. destruct (store (ngroups (v_obj v)) H (v_ref v) c) as [H2 r2]. cbn [s_heap s_vars].
    rewrite (set_nth_app _ _ _ _ _ Ev). auto.
Qed.
Lemma writes_separate vals o : writes_within vals o -> separate vals o.
Proof. destruct o; cbn; auto; try contradiction; intros (h & -> & F); auto. Qed.

(** The first variables of a state with further ones. *)
Definition originals (s : state) (vals : list hobj) : Prop :=
  exists vs extra, s_vars s = vs ++ extra /\ apart {| s_heap := s_heap s; s_vars := vs |} vals.
Lemma originals_run os : forall s vals, originals s vals -> derivations vals os ->
  originals (fst (run s os)) (fst (value_run vals (filter (fun o => negb (creates o)) os))).
Proof.
  induction os as [|o os IH]; intros s vals O D; cbn [run value_run filter fst]; auto.
  destruct D as [(C & D)|(W & D)].
  - rewrite C. cbn [negb]. destruct (create_grows s o C) as (X & Y & EH & EV). destruct (step s o) as [s1 e]. cbn [fst] in *.
    assert (O1 : originals s1 vals).
    { destruct O as (vs & extra & Es & (g & I & Dg)). exists vs, (extra ++ Y). split; [rewrite EV, Es, app_assoc; auto|].
      exists g. split; auto. rewrite EH. apply (inv_heap _ _ _ X I). }
    specialize (IH s1 vals O1 D). destruct (run s1 os). auto.
  - assert (C : creates o = false) by (destruct o; cbn in W; try contradiction; auto). rewrite C. cbn [negb value_run].
    destruct O as (vs & extra & Es & A). assert (V := apart_values _ _ A).
    assert (E := step_within (s_heap s) vs extra vals o V W). rewrite <- Es, state_eta in E.
    destruct (apart_step _ _ o A (writes_separate _ _ W)) as (_ & A'). rewrite E.
    destruct (step {| s_heap := s_heap s; s_vars := vs |} o) as [s' e]. destruct (value_step vals o) as [v1 e']. cbn [fst] in *.
    assert (O1 : originals {| s_heap := s_heap s'; s_vars := s_vars s' ++ extra |} v1).
    { exists (s_vars s'), extra. split; auto. cbn [s_heap]. rewrite state_eta. auto. }
    specialize (IH _ v1 O1 D). destruct (run {| s_heap := s_heap s'; s_vars := s_vars s' ++ extra |} os). destruct (value_run v1 _). auto.
Qed.
Lemma originals_values s vals : originals s vals -> firstn (length vals) (values s) = vals.
Proof.
  intros (vs & extra & Es & A). assert (V := apart_values _ _ A). unfold values in *. cbn [s_heap s_vars] in V. rewrite Es, map_app, V.
  rewrite firstn_app, firstn_all, Nat.sub_diag, firstn_O, app_nil_r. auto.
Qed.
