(** Programs on shared arrays do what they do on values, as long as no shared array is written. *)
From Coq Require Import String.
From Verif Require Import Base Num NumFacts Axis Calc Content Fill FillSpec FillProofs FillMain HistFill HistFillProofs HistAlg HistAlgProofs AlgSpec HistAlgMain
  Heap HeapSpec HeapProofs HeapAdd.
Local Open Scope list_scope.

(** ** Lists *)
Lemma nth_set {A} (l : list A) i x j : nth_error (set_nth l i x) j = if Nat.eqb i j then option_map (fun _ => x) (nth_error l j) else nth_error l j.
Proof.
  unfold set_nth. revert i j. induction l as [|a l IH]; intros [|i] [|j]; cbn [upd nth_error Nat.eqb option_map]; auto.
  - destruct (Nat.eqb i j); auto.
Qed.
Lemma nth_set_same {A} (l : list A) i x y : nth_error l i = Some y -> nth_error (set_nth l i x) i = Some x.
Proof. intros E. rewrite nth_set, Nat.eqb_refl, E. auto. Qed.
Lemma nth_set_other {A} (l : list A) i x j : i <> j -> nth_error (set_nth l i x) j = nth_error l j.
Proof. intros N. rewrite nth_set. apply Nat.eqb_neq in N. rewrite N. auto. Qed.
Lemma set_nth_length {A} (l : list A) i x : length (set_nth l i x) = length l.
Proof. unfold set_nth. revert i. induction l; intros [|i]; cbn [upd length]; auto. Qed.
Lemma set_nth_none {A} (l : list A) i x : nth_error l i = None -> set_nth l i x = l.
Proof. unfold set_nth. revert i. induction l as [|a l IH]; intros [|i]; cbn [upd nth_error]; auto; try discriminate. intros E. rewrite IH; auto. Qed.
Lemma set_nth_id {A} (l : list A) i x : nth_error l i = Some x -> set_nth l i x = l.
Proof. unfold set_nth. revert i. induction l as [|a l IH]; intros [|i]; cbn [upd nth_error]; auto; try discriminate; intros E; [congruence|]. rewrite IH; auto. Qed.
Lemma map_set {A B} (f : A -> B) l i x : map f (set_nth l i x) = set_nth (map f l) i (f x).
Proof. unfold set_nth. revert i. induction l as [|a l IH]; intros [|i]; cbn [upd map]; auto. rewrite IH; auto. Qed.
Lemma nth_app {A} (l : list A) x j : nth_error (l ++ [x]) j = if Nat.eqb j (length l) then Some x else nth_error l j.
Proof.
  destruct (Nat.eqb j (length l)) eqn:E.
  - apply Nat.eqb_eq in E. subst. rewrite nth_error_app2, Nat.sub_diag; auto.
  - apply Nat.eqb_neq in E. destruct (Nat.lt_ge_cases j (length l)); [apply nth_error_app1; auto|].
    rewrite nth_error_app2 by lia. rewrite (proj2 (nth_error_None l j)) by lia. destruct (j - length l) as [|q] eqn:Q; [lia|]. destruct q; auto.
Qed.
Lemma nth_error_ext {A} (l m : list A) : (forall j, nth_error l j = nth_error m j) -> l = m.
Proof.
  revert m. induction l as [|x l IH]; intros [|y m] E; auto; try (specialize (E 0); discriminate).
  assert (E0 := E 0). injection E0 as ->. f_equal. apply IH. intros j. apply (E (S j)).
Qed.
Lemma no_class_fresh cs i : nth_error cs i <> Some (Some (no_class cs)).
Proof.
  unfold no_class. assert (K : forall i k, nth_error cs i = Some (Some k) -> k <= fold_right (fun c m => match c with Some k => Nat.max k m | None => m end) 0 cs).
  { induction cs as [|c cs IH]; intros [|j] k; cbn [nth_error fold_right]; try discriminate; intros E.
    - injection E as ->. lia.
    - specialize (IH j k E). destruct c; lia. }
  intros E. apply K in E. lia.
Qed.

(** ** The invariant *)
Definition kinds (h : hobj) : Prop :=
  Forall (fun a => is_group a = true) (o_group h) /\ Forall (fun a => is_fixed a = true) (o_fixed h) /\
  Forall (fun a => is_profile a = true) (o_prof h).
Definition vreach (H : heap) (v : var) : list loc := reach (ngroups (v_obj v)) H (v_ref v).
Definition vwt (H : heap) (v : var) : Prop := wt (ngroups (v_obj v)) H (v_ref v).
Record Inv (s : state) (vals : list hobj) (g : ghost) : Prop := {
  inv_vals : values s = vals;
  inv_flags : map v_flag (s_vars s) = g_flags g;
  inv_len : length (g_classes g) = length (s_vars s);
  inv_var : forall i v, nth_error (s_vars s) i = Some v -> kinds (v_obj v) /\ vwt (s_heap s) v;
  inv_disj : forall i j v w, nth_error (s_vars s) i = Some v -> nth_error (s_vars s) j = Some w ->
    nth_error (g_classes g) i <> nth_error (g_classes g) j -> disjoint (vreach (s_heap s) v) (vreach (s_heap s) w);
  inv_nodup : forall i v k, nth_error (s_vars s) i = Some v -> nth_error (g_classes g) i = Some (Some k) ->
    NoDup (vreach (s_heap s) v) }.

Lemma inv_value s vals g i : Inv s vals g -> nth_error vals i = option_map (var_value (s_heap s)) (nth_error (s_vars s) i).
Proof. intros I. rewrite <- (inv_vals _ _ _ I). unfold values. rewrite nth_error_map. auto. Qed.
Lemma inv_flag s vals g i : Inv s vals g -> nth_error (g_flags g) i = option_map v_flag (nth_error (s_vars s) i).
Proof. intros I. rewrite <- (inv_flags _ _ _ I). rewrite nth_error_map. auto. Qed.
Lemma inv_class s vals g i v : Inv s vals g -> nth_error (s_vars s) i = Some v -> exists c, nth_error (g_classes g) i = Some c.
Proof.
  intros I E. destruct (nth_error (g_classes g) i) eqn:C; eauto. apply nth_error_None in C. rewrite (inv_len _ _ _ I) in C.
  assert (nth_error (s_vars s) i <> None) by congruence. apply nth_error_Some in H. lia.
Qed.

(** writing through variable [i] *)
Lemma inv_write s vals g i v H' r' c fl old :
  Inv s vals g -> nth_error (s_vars s) i = Some v ->
  view (ngroups (v_obj v)) H' r' = c -> wt (ngroups (v_obj v)) H' r' ->
  stored (s_heap s) H' old (reach (ngroups (v_obj v)) H' r') ->
  old = [] \/ (alone g i /\ incl old (vreach (s_heap s) v)) ->
  Inv {| s_heap := H'; s_vars := set_nth (s_vars s) i {| v_obj := v_obj v; v_ref := r'; v_flag := fl |} |}
      (set_nth vals i (with_content (v_obj v) c))
      {| g_flags := set_nth (g_flags g) i fl; g_classes := set_nth (g_classes g) i (Some (no_class (g_classes g))) |}.
Proof.
  intros I Ev Vc Wc (L & K & N & B) Own.
  (* the other variables do not change *)
  assert (OLD : forall j w, j <> i -> nth_error (s_vars s) j = Some w -> disjoint old (vreach (s_heap s) w)).
  { intros j w Nj Ew l Hl. destruct Own as [->|((k & Ck & Alone) & Inc)]; [destruct Hl|].
    apply (inv_disj _ _ _ I i j v w Ev Ew); auto. rewrite Ck. intros Q. apply (Alone j Nj). auto. }
  assert (FR : forall j w, j <> i -> nth_error (s_vars s) j = Some w ->
    var_view H' w = var_view (s_heap s) w /\ vreach H' w = vreach (s_heap s) w /\ vwt H' w).
  { intros j w Nj Ew. destruct (inv_var _ _ _ I j w Ew) as (_ & W). destruct (frame (ngroups (v_obj w)) (s_heap s) H' (v_ref w)) as (A1 & A2 & A3).
    - intros l Hl. apply K; [eapply wt_reach; eauto|]. intros Hl'. apply (OLD j w Nj Ew l); auto.
    - split; [exact A1|]. split; [exact A2|]. apply A3. exact W. }
  assert (NEW : forall j w, j <> i -> nth_error (s_vars s) j = Some w -> disjoint (reach (ngroups (v_obj v)) H' r') (vreach (s_heap s) w)).
  { intros j w Nj Ew l Hl Hl'. destruct (B l Hl) as [Hl2|Hl2]; [apply (OLD j w Nj Ew l); auto|].
    destruct (inv_var _ _ _ I j w Ew) as (_ & W). assert (Bd := wt_reach _ _ _ W l Hl'). lia. }
  destruct (inv_class _ _ _ i v I Ev) as (ci & Ci).
  split; cbn [s_heap s_vars g_flags g_classes].
  - rewrite <- (inv_vals _ _ _ I). unfold values. cbn [s_heap s_vars]. rewrite map_set.
    unfold var_value at 2. unfold var_view. cbn [v_obj v_ref]. rewrite Vc.
    apply nth_error_ext. intros j. rewrite !nth_set. destruct (Nat.eqb i j) eqn:Q; rewrite !nth_error_map; destruct (nth_error (s_vars s) j) as [w|] eqn:Ew; auto.
    cbn [option_map]. apply Nat.eqb_neq in Q. destruct (FR j w) as (A & _); auto. unfold var_value. rewrite A. auto.
  - rewrite map_set. rewrite (inv_flags _ _ _ I). auto.
  - rewrite !set_nth_length. apply (inv_len _ _ _ I).
  - intros j w Ew. rewrite nth_set in Ew. destruct (Nat.eqb i j) eqn:Q.
    + apply Nat.eqb_eq in Q. subst j. rewrite Ev in Ew. injection Ew as <-. cbn [v_obj]. split; [apply (inv_var _ _ _ I i v Ev)|]. exact Wc.
    + apply Nat.eqb_neq in Q. split; [apply (inv_var _ _ _ I j w Ew)|]. apply (FR j w); auto.
  - intros j1 j2 w1 w2 E1 E2 NC. rewrite nth_set in E1; rewrite nth_set in E2. rewrite !nth_set in NC.
    destruct (Nat.eqb i j1) eqn:Q1; destruct (Nat.eqb i j2) eqn:Q2.
    + apply Nat.eqb_eq in Q1, Q2. subst. congruence.
    + apply Nat.eqb_eq in Q1. apply Nat.eqb_neq in Q2. subst j1. rewrite Ev in E1. injection E1 as <-. unfold vreach at 1. cbn [v_obj v_ref].
      destruct (FR j2 w2) as (_ & -> & _); auto. apply (NEW j2); auto.
    + apply Nat.eqb_eq in Q2. apply Nat.eqb_neq in Q1. subst j2. rewrite Ev in E2. injection E2 as <-. unfold vreach at 2. cbn [v_obj v_ref].
      destruct (FR j1 w1) as (_ & -> & _); auto. intros l Hl Hl'. apply (NEW j1 w1) with (l := l); auto.
    + apply Nat.eqb_neq in Q1, Q2. destruct (FR j1 w1) as (_ & -> & _); auto. destruct (FR j2 w2) as (_ & -> & _); auto.
      apply (inv_disj _ _ _ I j1 j2); auto.
  - intros j w k Ew Ck. rewrite nth_set in Ew; rewrite nth_set in Ck. destruct (Nat.eqb i j) eqn:Q.
    + apply Nat.eqb_eq in Q. subst j. rewrite Ev in Ew. injection Ew as <-. exact N.
    + apply Nat.eqb_neq in Q. destruct (FR j w) as (_ & -> & _); auto. apply (inv_nodup _ _ _ I j w k); auto.
Qed.

(** a new variable *)
Lemma inv_new s vals g X h r fl classes cl :
  Inv s vals g -> kinds h -> wt (ngroups h) (s_heap s ++ X) r ->
  length classes = length (g_classes g) ->
  (forall i k, nth_error classes i = Some (Some k) -> nth_error (g_classes g) i = Some (Some k)) ->
  (forall i j, nth_error classes i <> nth_error classes j -> nth_error (g_classes g) i <> nth_error (g_classes g) j) ->
  (forall j w, nth_error (s_vars s) j = Some w -> nth_error classes j <> Some cl ->
     disjoint (reach (ngroups h) (s_heap s ++ X) r) (vreach (s_heap s) w)) ->
  (forall k, cl = Some k -> NoDup (reach (ngroups h) (s_heap s ++ X) r)) ->
  Inv (new_var (s_heap s ++ X) (s_vars s) h r fl) (vals ++ [with_content h (view (ngroups h) (s_heap s ++ X) r)])
      {| g_flags := g_flags g ++ [fl]; g_classes := classes ++ [cl] |}.
Proof.
  intros I Kh Wr Lc CS CD DJ ND. unfold new_var.
  assert (FR : forall j w, nth_error (s_vars s) j = Some w ->
    var_view (s_heap s ++ X) w = var_view (s_heap s) w /\ vreach (s_heap s ++ X) w = vreach (s_heap s) w /\ vwt (s_heap s ++ X) w).
  { intros j w Ew. destruct (inv_var _ _ _ I j w Ew) as (_ & W). apply frame_app. auto. }
  assert (LL := inv_len _ _ _ I).
  assert (OUT : forall j w, nth_error (s_vars s) j = Some w -> nth_error (classes ++ [cl]) j = nth_error classes j).
  { intros j w Ew. apply nth_error_app1. rewrite Lc, LL. apply nth_error_Some. congruence. }
  assert (LAST : nth_error (classes ++ [cl]) (length (s_vars s)) = Some cl).
  { rewrite nth_app, Lc, LL, Nat.eqb_refl. auto. }
  split; cbn [s_heap s_vars g_flags g_classes].
  - rewrite <- (inv_vals _ _ _ I). unfold values. cbn [s_heap s_vars]. rewrite map_app. cbn [map]. f_equal.
    apply map_ext_in. intros w Hw. apply In_nth_error in Hw. destruct Hw as (j & Ew). destruct (FR j w Ew) as (A & _). unfold var_value. rewrite A. auto.
  - rewrite map_app, (inv_flags _ _ _ I). auto.
  - rewrite !app_length, Lc, LL. auto.
  - intros j w Ew. rewrite nth_app in Ew. destruct (Nat.eqb j (length (s_vars s))).
    + injection Ew as <-. split; auto.
    + split; [apply (inv_var _ _ _ I j w Ew)|]. apply (FR j w Ew).
  - intros j1 j2 w1 w2 E1 E2 NC. rewrite nth_app in E1; rewrite nth_app in E2.
    destruct (Nat.eqb j1 (length (s_vars s))) eqn:Q1; destruct (Nat.eqb j2 (length (s_vars s))) eqn:Q2.
    + apply Nat.eqb_eq in Q1, Q2. subst. congruence.
    + apply Nat.eqb_eq in Q1. subst j1. injection E1 as <-. unfold vreach at 1. cbn [v_obj v_ref].
      destruct (FR j2 w2 E2) as (_ & -> & _). apply (DJ j2 w2 E2). rewrite LAST, (OUT j2 w2 E2) in NC. congruence.
    + apply Nat.eqb_eq in Q2. subst j2. injection E2 as <-. unfold vreach at 2. cbn [v_obj v_ref].
      destruct (FR j1 w1 E1) as (_ & -> & _). rewrite LAST, (OUT j1 w1 E1) in NC. intros l Hl Hl'. apply (DJ j1 w1 E1 NC l); auto.
    + destruct (FR j1 w1 E1) as (_ & -> & _). destruct (FR j2 w2 E2) as (_ & -> & _). rewrite (OUT j1 w1 E1), (OUT j2 w2 E2) in NC.
      apply (inv_disj _ _ _ I j1 j2); auto.
  - intros j w k Ew Ck. rewrite nth_app in Ew. destruct (Nat.eqb j (length (s_vars s))) eqn:Q.
    + apply Nat.eqb_eq in Q. subst j. injection Ew as <-. unfold vreach. cbn [v_obj v_ref]. rewrite LAST in Ck. injection Ck as ->. apply (ND k); auto.
    + destruct (FR j w Ew) as (_ & -> & _). rewrite (OUT j w Ew) in Ck. apply (inv_nodup _ _ _ I j w k); auto.
Qed.
(** ... made of new objects *)
Lemma inv_fresh s vals g H' h r fl c :
  Inv s vals g -> kinds h -> fresh_tree (ngroups h) (s_heap s) H' r c ->
  Inv (new_var H' (s_vars s) h r fl) (vals ++ [with_content h c])
      {| g_flags := g_flags g ++ [fl]; g_classes := g_classes g ++ [Some (no_class (g_classes g))] |}.
Proof.
  intros I Kh ((X & ->) & V & W & N & B). rewrite <- V. apply inv_new; auto.
  - intros j w Ew _ l Hl Hl'. apply B in Hl. destruct (inv_var _ _ _ I j w Ew) as (_ & Ww). assert (Q := wt_reach _ _ _ Ww l Hl'). lia.
Qed.
(** only the heap grows *)
Lemma inv_heap s vals g X : Inv s vals g -> Inv {| s_heap := s_heap s ++ X; s_vars := s_vars s |} vals g.
Proof.
  intros I.
  assert (FR : forall j w, nth_error (s_vars s) j = Some w ->
    var_view (s_heap s ++ X) w = var_view (s_heap s) w /\ vreach (s_heap s ++ X) w = vreach (s_heap s) w /\ vwt (s_heap s ++ X) w).
  { intros j w Ew. destruct (inv_var _ _ _ I j w Ew) as (_ & W). apply frame_app. auto. }
  split; cbn [s_heap s_vars].
  - rewrite <- (inv_vals _ _ _ I). unfold values. cbn [s_heap s_vars]. apply map_ext_in. intros w Hw. apply In_nth_error in Hw.
    destruct Hw as (j & Ew). destruct (FR j w Ew) as (A & _). unfold var_value. rewrite A. auto.
  - apply (inv_flags _ _ _ I).
  - apply (inv_len _ _ _ I).
  - intros j w Ew. split; [apply (inv_var _ _ _ I j w Ew)|apply (FR j w Ew)].
  - intros j1 j2 w1 w2 E1 E2 NC. destruct (FR j1 w1 E1) as (_ & -> & _). destruct (FR j2 w2 E2) as (_ & -> & _). apply (inv_disj _ _ _ I j1 j2); auto.
  - intros j w k Ew Ck. destruct (FR j w Ew) as (_ & -> & _). apply (inv_nodup _ _ _ I j w k); auto.
Qed.

Lemma unfilled_ref H v : vwt H v -> o_content (var_value H v) = CNone -> v_ref v = RNone.
Proof.
  unfold vwt, var_value, var_view. cbn [with_content o_content]. destruct (v_ref v) as [|l]; auto.
  destruct (ngroups (v_obj v)); cbn [wt view]; destruct (get H l) as [[d|items]|]; try contradiction; discriminate.
Qed.
Lemma reach_none n H : reach n H RNone = [].
Proof. destruct n; reflexivity. Qed.
Lemma store_none n H c : store n H RNone c = alloc_tree H c.
Proof. destruct n; reflexivity. Qed.

(** in-place writing, through a variable that shares nothing *)
Lemma inv_store s vals g i v c H' r' fl :
  Inv s vals g -> nth_error (s_vars s) i = Some v -> unfilled vals i \/ alone g i ->
  extends (var_view (s_heap s) v) c -> depth_ok (ngroups (v_obj v)) c ->
  store (ngroups (v_obj v)) (s_heap s) (v_ref v) c = (H', r') ->
  Inv {| s_heap := H'; s_vars := set_nth (s_vars s) i {| v_obj := v_obj v; v_ref := r'; v_flag := fl |} |}
      (set_nth vals i (with_content (v_obj v) c))
      {| g_flags := set_nth (g_flags g) i fl; g_classes := set_nth (g_classes g) i (Some (no_class (g_classes g))) |}.
Proof.
  intros I Ev Own Ex D S. destruct (inv_var _ _ _ I i v Ev) as (_ & W).
  assert (ND : NoDup (reach (ngroups (v_obj v)) (s_heap s) (v_ref v)) /\ (reach (ngroups (v_obj v)) (s_heap s) (v_ref v) = [] \/ alone g i)).
  { destruct Own as [U|(k & Ck & Al)].
    - unfold unfilled in U. rewrite (inv_value _ _ _ i I), Ev in U. cbn [option_map] in U. rewrite (unfilled_ref _ _ W U), reach_none. split; [constructor|auto].
    - split; [apply (inv_nodup _ _ _ I i v k); auto|]. right. exists k. auto. }
  destruct ND as (ND & Own').
  destruct (store_ok _ _ _ _ _ _ W ND Ex D S) as (V & W' & St).
  eapply inv_write; eauto. destruct Own' as [E|Al]; [left; auto|]. right. split; auto. apply incl_refl.
Qed.
(** a refused operation on such a variable *)
Lemma inv_touch s vals g i : Inv s vals g -> (i < length vals -> unfilled vals i \/ alone g i) ->
  Inv s vals {| g_flags := g_flags g; g_classes := set_nth (g_classes g) i (Some (no_class (g_classes g))) |}.
Proof.
  intros I Own. destruct (nth_error (s_vars s) i) as [v|] eqn:Ev.
  - assert (Lt : i < length vals).
    { rewrite <- (inv_vals _ _ _ I). unfold values. rewrite map_length. apply nth_error_Some. congruence. }
    specialize (Own Lt). destruct (inv_var _ _ _ I i v Ev) as (_ & W).
    assert (ND : NoDup (vreach (s_heap s) v) /\ exists old, stored (s_heap s) (s_heap s) old (vreach (s_heap s) v) /\ (old = [] \/ (alone g i /\ incl old (vreach (s_heap s) v)))).
    { destruct Own as [U|(k & Ck & Al)].
      - unfold unfilled in U. rewrite (inv_value _ _ _ i I), Ev in U. cbn [option_map] in U. unfold vreach. rewrite (unfilled_ref _ _ W U), reach_none. split; [constructor|].
        exists []. split; auto. split; auto. split; auto. split; [constructor|]. intros l [].
      - assert (N := inv_nodup _ _ _ I i v k Ev Ck). split; auto. exists (vreach (s_heap s) v). split.
        + split; auto.
        + right. split; [exists k; auto|apply incl_refl]. }
    destruct ND as (_ & old & St & Ow).
    assert (K := inv_write s vals g i v (s_heap s) (v_ref v) (var_view (s_heap s) v) (v_flag v) old I Ev eq_refl W St Ow).
    assert (E1 : set_nth (s_vars s) i {| v_obj := v_obj v; v_ref := v_ref v; v_flag := v_flag v |} = s_vars s) by (apply set_nth_id; rewrite Ev; destruct v; auto).
    assert (E2 : set_nth vals i (with_content (v_obj v) (var_view (s_heap s) v)) = vals) by (apply set_nth_id; rewrite (inv_value _ _ _ i I), Ev; auto).
    assert (E3 : set_nth (g_flags g) i (v_flag v) = g_flags g) by (apply set_nth_id; rewrite (inv_flag _ _ _ i I), Ev; auto).
    rewrite E1, E2, E3 in K. destruct s. exact K.
  - rewrite set_nth_none; [destruct g; auto|]. apply nth_error_None. rewrite (inv_len _ _ _ I). apply nth_error_None. auto.
Qed.

Lemma kinds_groups h g : kinds h -> kinds g -> axes_eqb (o_axes h) (o_axes g) = true -> ngroups h = ngroups g.
Proof.
  intros (G1 & F1 & P1) (G2 & F2 & P2) E. apply axes_eqb_eq in E. unfold o_axes in E.
  assert (M : forall f p, Forall (fun a => is_fixed a = true) f -> Forall (fun a => is_profile a = true) p ->
    Forall (fun a => is_group a = false) (f ++ p)%list).
  { intros f p Hf Hp. apply Forall_app. split; (eapply Forall_impl; [|eassumption]); intros []; cbn; congruence. }
  destruct (app_kinds _ _ _ _ is_group G1 G2 (M _ _ F1 P1) (M _ _ F2 P2) E) as (E1 & _). unfold ngroups. rewrite E1. auto.
Qed.
Lemma kinds_with h c : kinds h -> kinds (with_content h c).
Proof. auto. Qed.
Lemma with_with h c d : with_content (with_content h c) d = with_content h d.
Proof. reflexivity. Qed.

(** The value of a group is again made of contents of the right depth. *)
Lemma group_ok by_ l g : group_hists by_ l = Ok g ->
  Forall (fun nx => kinds (snd nx) /\ depth_ok (ngroups (snd nx)) (o_content (snd nx))) l ->
  kinds g /\ depth_ok (ngroups g) (o_content g).
Proof.
  intros E F. unfold group_hists in E. destruct l as [|[nm h0] rest]; [discriminate|].
  destruct (forallb (fun nx => axes_eqb (o_axes h0) (o_axes (snd nx))) rest) eqn:AX; cbn [negb] in E; [|discriminate].
  destruct (existsb (axis_eqb (AGroupby by_)) (o_axes h0)); [discriminate|]. apply bind_ok in E. destruct E as (w & _ & E).
  match type of E with Ok ?x = Ok _ => assert (Eg : g = x) by congruence; clear E; subst g end.
  set (lst := last ((nm, h0) :: rest) (""%string, h0)).
  assert (IN : In lst ((nm, h0) :: rest)).
  { unfold lst. clear. generalize (nm, h0). intros p. revert p. induction rest as [|q rest IH]; intros p; [left; auto|].
    right. change (In (last (q :: rest) (""%string, h0)) (q :: rest)). apply IH. }
  assert (SAME : forall nx, In nx ((nm, h0) :: rest) -> kinds (snd nx) /\ ngroups (snd nx) = ngroups h0 /\ depth_ok (ngroups (snd nx)) (o_content (snd nx))).
  { rewrite Forall_forall in F. rewrite forallb_forall in AX. intros nx Hnx. destruct (F nx Hnx) as (K & D). split; auto. split; auto.
    destruct Hnx as [<-|Hnx]; auto. symmetry. apply kinds_groups; auto. apply (F (nm, h0)). left. auto. }
  destruct (SAME lst IN) as ((K1 & K2 & K3) & NG & _). split.
  - split; [|split; auto]. cbn [o_group]. constructor; auto.
  - unfold ngroups in *. cbn [o_group o_content length]. fold lst. cbn [depth_ok]. rewrite Forall_map. apply Forall_forall. intros nx Hnx.
    cbn [snd]. rewrite copycontent_id. destruct (SAME nx Hnx) as (_ & NG' & D). rewrite NG, <- NG'. auto.
Qed.

Lemma merge_length cs a b : length (merge cs a b) = length cs.
Proof. apply map_length. Qed.
Definition mgd (a b : option (option nat)) (k : nat) : bool :=
  match a with Some (Some k') => Nat.eqb k k' | _ => false end || match b with Some (Some k') => Nat.eqb k k' | _ => false end.
Lemma nth_merge cs a b i : nth_error (merge cs a b) i =
  option_map (fun c => match c with Some k => if mgd a b k then None else Some k | None => None end) (nth_error cs i).
Proof. unfold merge. rewrite nth_error_map. reflexivity. Qed.

Lemma var_value_eq s vals g i h : Inv s vals g -> nth_error vals i = Some h -> exists v, nth_error (s_vars s) i = Some v /\
  h = with_content (v_obj v) (var_view (s_heap s) v) /\ kinds (v_obj v) /\ vwt (s_heap s) v.
Proof.
  intros I E. rewrite (inv_value _ _ _ i I) in E. destruct (nth_error (s_vars s) i) as [v|] eqn:Ev; [|discriminate]. injection E as <-.
  exists v. split; auto. split; auto. apply (inv_var _ _ _ I i v Ev).
Qed.
Lemma no_var s vals g i : Inv s vals g -> nth_error vals i = None -> nth_error (s_vars s) i = None.
Proof. intros I E. rewrite (inv_value _ _ _ i I) in E. destruct (nth_error (s_vars s) i); [discriminate|auto]. Qed.
Lemma no_class_var s vals g i : Inv s vals g -> nth_error (s_vars s) i = None -> nth_error (g_classes g) i = None /\ nth_error (g_flags g) i = None.
Proof.
  intros I E. split.
  - apply nth_error_None. rewrite (inv_len _ _ _ I). apply nth_error_None. auto.
  - rewrite (inv_flag _ _ _ i I), E. auto.
Qed.
Lemma nth_of_error {A} (l : list A) i d x : nth_error l i = Some x -> nth i l d = x.
Proof. intros E. apply nth_error_nth. auto. Qed.
Lemma ghost_eta g : {| g_flags := g_flags g; g_classes := g_classes g |} = g.
Proof. destruct g; auto. Qed.
Lemma state_eta s : {| s_heap := s_heap s; s_vars := s_vars s |} = s.
Proof. destruct s; auto. Qed.

Theorem inv_step s vals g o : Inv s vals g -> allowed vals g o ->
  snd (step s o) = snd (value_step vals o) /\
  Inv (fst (step s o)) (fst (value_step vals o)) (ghost_step vals g o).
Proof.
  intros I Al. destruct o as [i f|i j|i x|i|i|i|i|i j|i x|by_ hs|i f|i f|i p b].
  - (* fill *)
    cbn [step value_step ghost_step allowed] in *. unfold on.
    destruct (nth_error vals i) as [h|] eqn:Eh.
    2:{ rewrite (no_var _ _ _ i I Eh). cbn [fst snd]. split; auto. destruct (no_class_var _ _ _ i I (no_var _ _ _ i I Eh)) as (C1 & C2).
        rewrite !set_nth_none by auto. rewrite ghost_eta. auto. }
    destruct (var_value_eq _ _ _ _ _ I Eh) as (v & Ev & -> & Kv & Wv). rewrite Ev. destruct Al as (Fil & Own).
    change (ngroups (with_content (v_obj v) (var_view (s_heap s) v))) with (ngroups (v_obj v)) in Fil.
    cbn [with_content o_content]. set (n := ngroups (v_obj v)) in *.
    destruct (v_flag v) eqn:Fl.
    + (* copy first *)
      destruct (copy_ref n (s_heap s) (v_ref v)) as [H1 r1] eqn:CP.
      assert (FT := alloc_tree_ok _ n _ _ _ (view_depth n (s_heap s) (v_ref v)) CP). destruct FT as ((X & ->) & V1 & W1 & N1 & B1).
      rewrite V1. change (view n (s_heap s) (v_ref v)) with (var_view (s_heap s) v) in *.
      assert (D0 : depth_ok n (var_view (s_heap s) v)) by apply view_depth.
      destruct (Fil _ D0) as (Ex & D). destruct (f (var_view (s_heap s) v)) as [c e]. cbn [fst] in *.
      destruct (store n (s_heap s ++ X) r1 c) as [H2 r2] eqn:St. cbn [fst snd]. split; auto.
      rewrite <- V1 in Ex. destruct (store_ok _ _ _ _ _ _ W1 N1 Ex D St) as (V2 & W2 & L2 & K2 & N2 & B2).
      change (with_content (with_content (v_obj v) (var_view (s_heap s) v)) c) with (with_content (v_obj v) c).
      eapply inv_write with (old := []); eauto. rewrite app_length in L2. split; [lia|]. split; [|split; auto].
      * intros l Hl _. rewrite K2; [apply get_app_old; auto|rewrite app_length; lia|]. intros Hl'. apply B1 in Hl'. lia.
      * intros l Hl. right. apply B2 in Hl. rewrite app_length in Hl. destruct Hl as [Hl|Hl]; [apply B1 in Hl; rewrite app_length in Hl|]; lia.
    + change (view n (s_heap s) (v_ref v)) with (var_view (s_heap s) v).
      assert (D0 : depth_ok n (var_view (s_heap s) v)) by apply view_depth.
      destruct (Fil _ D0) as (Ex & D). destruct (f (var_view (s_heap s) v)) as [c e]. cbn [fst] in *.
      destruct (store n (s_heap s) (v_ref v) c) as [H2 r2] eqn:St. cbn [fst snd]. split; auto.
      change (with_content (with_content (v_obj v) (var_view (s_heap s) v)) c) with (with_content (v_obj v) c).
      eapply inv_store; eauto. destruct Own as [Q|Own]; auto. rewrite (inv_flag _ _ _ i I), Ev in Q. cbn [option_map] in Q. congruence.
  - (* += *)
    cbn [step value_step ghost_step allowed] in *. unfold on, get_var.
    destruct (nth_error vals i) as [h|] eqn:Eh.
    2:{ rewrite (no_var _ _ _ i I Eh). assert (T := inv_touch _ _ _ i I Al). destruct (nth_error vals j); cbn [fst snd]; auto. }
    destruct (var_value_eq _ _ _ _ _ I Eh) as (v & Ev & -> & Kv & Wv). rewrite Ev.
    destruct (nth_error vals j) as [k|] eqn:Ek.
    2:{ rewrite (no_var _ _ _ j I Ek). assert (T := inv_touch _ _ _ i I Al). cbn [fst snd]; auto. }
    destruct (var_value_eq _ _ _ _ _ I Ek) as (w & Ew & -> & Kw & Ww). rewrite Ew.
    unfold hist_iadd. change (o_axes (with_content (v_obj v) (var_view (s_heap s) v))) with (o_axes (v_obj v)).
    change (o_axes (with_content (v_obj w) (var_view (s_heap s) w))) with (o_axes (v_obj w)).
    destruct (axes_eqb (o_axes (v_obj v)) (o_axes (v_obj w))) eqn:AX.
    2:{ assert (T := inv_touch _ _ _ i I Al). cbn [fst snd]. split; auto. rewrite set_nth_id; auto. }
    rewrite !layout_with. cbn [with_content o_content].
    assert (Lt : i < length vals) by (apply nth_error_Some; congruence).
    assert (Dv : depth_ok (ngroups (v_obj v)) (var_view (s_heap s) v)) by apply view_depth.
    assert (Dw : depth_ok (ngroups (v_obj v)) (var_view (s_heap s) w)) by (rewrite (kinds_groups _ _ Kv Kw AX); apply view_depth).
    destruct (iadd_ok (l_last (o_layout (v_obj v))) (l_last (o_layout (v_obj w))) _ _ _ Dv Dw) as (Ex & D).
    destruct (content_iadd (l_last (o_layout (v_obj v))) (l_last (o_layout (v_obj w))) (var_view (s_heap s) v) (var_view (s_heap s) w)) as [c e]. cbn [fst] in *.
    destruct (store (ngroups (v_obj v)) (s_heap s) (v_ref v) c) as [H2 r2] eqn:St. cbn [fst snd]. split; auto.
    assert (K := inv_store _ _ _ i v c H2 r2 (v_flag v) I Ev (Al Lt) Ex D St).
    rewrite (set_nth_id (g_flags g)) in K; auto. rewrite (inv_flag _ _ _ i I), Ev. auto.
  - (* *= *)
    cbn [step value_step ghost_step allowed] in *. unfold on.
    destruct (nth_error vals i) as [h|] eqn:Eh.
    2:{ rewrite (no_var _ _ _ i I Eh). assert (T := inv_touch _ _ _ i I Al). cbn [fst snd]; auto. }
    destruct (var_value_eq _ _ _ _ _ I Eh) as (v & Ev & -> & Kv & Wv). rewrite Ev. unfold hist_imul. cbn [with_content o_content].
    assert (Lt : i < length vals) by (apply nth_error_Some; congruence).
    assert (Dv : depth_ok (ngroups (v_obj v)) (var_view (s_heap s) v)) by apply view_depth.
    destruct (imul_ok x _ _ Dv) as (Ex & D). destruct (content_imul x (var_view (s_heap s) v)) as [c e]. cbn [fst] in *.
    destruct (store (ngroups (v_obj v)) (s_heap s) (v_ref v) c) as [H2 r2] eqn:St. cbn [fst snd]. split; auto.
    assert (K := inv_store _ _ _ i v c H2 r2 (v_flag v) I Ev (Al Lt) Ex D St).
    rewrite (set_nth_id (g_flags g)) in K; auto. rewrite (inv_flag _ _ _ i I), Ev. auto.
  - (* clear *)
    cbn [step value_step ghost_step] in *. unfold on.
    destruct (nth_error vals i) as [h|] eqn:Eh.
    2:{ rewrite (no_var _ _ _ i I Eh). cbn [fst snd]. split; auto. destruct (no_class_var _ _ _ i I (no_var _ _ _ i I Eh)) as (C1 & C2).
        rewrite set_nth_none by auto. rewrite ghost_eta. auto. }
    destruct (var_value_eq _ _ _ _ _ I Eh) as (v & Ev & -> & Kv & Wv). rewrite Ev. cbn [fst snd]. split; auto.
    assert (K := inv_write s vals g i v (s_heap s) RNone CNone (v_flag v) [] I Ev).
    rewrite (set_nth_id (g_flags g)) in K by (rewrite (inv_flag _ _ _ i I), Ev; auto).
    apply K; auto.
    + destruct (ngroups (v_obj v)); auto.
    + destruct (ngroups (v_obj v)); exact Logic.I.
    + rewrite reach_none. split; auto. split; auto. split; [constructor|intros l []].
  - (* copy *)
    cbn [step ghost_step]. cbn [value_step]. unfold get_var.
    destruct (nth_error vals i) as [h|] eqn:Eh; cbn [rmap new].
    2:{ rewrite (no_var _ _ _ i I Eh). cbn [fst snd]. auto. }
    destruct (var_value_eq _ _ _ _ _ I Eh) as (v & Ev & -> & Kv & Wv). rewrite Ev.
    destruct (copy_ref (ngroups (v_obj v)) (s_heap s) (v_ref v)) as [H1 r] eqn:CP. cbn [fst snd]. split; auto.
    unfold hist_copy. rewrite copycontent_id. rewrite with_with. apply inv_fresh; auto. eapply alloc_tree_ok; eauto. apply view_depth.
  - (* copyonfill *)
    cbn [step ghost_step]. cbn [value_step]. unfold get_var.
    destruct (nth_error vals i) as [h|] eqn:Eh; cbn [rmap new].
    2:{ rewrite (no_var _ _ _ i I Eh). cbn [fst snd]. auto. }
    destruct (var_value_eq _ _ _ _ _ I Eh) as (v & Ev & -> & Kv & Wv). rewrite Ev. cbn [fst snd]. split; auto.
    unfold hist_copy. rewrite copycontent_id. rewrite with_with. cbn [with_content o_content].
    destruct (inv_class _ _ _ i v I Ev) as (c & Cc). rewrite (nth_of_error _ _ _ _ Cc).
    assert (K := inv_new s vals g [] (v_obj v) (v_ref v) true (g_classes g) c I Kv). rewrite app_nil_r in K. apply K; auto.
    + intros j w Ew NC. apply (inv_disj _ _ _ I i j); auto. congruence.
    + intros k ->. apply (inv_nodup _ _ _ I i v k); auto.
  - (* cleared *)
    cbn [step ghost_step]. cbn [value_step]. unfold get_var.
    destruct (nth_error vals i) as [h|] eqn:Eh; cbn [rmap new].
    2:{ rewrite (no_var _ _ _ i I Eh). cbn [fst snd]. auto. }
    destruct (var_value_eq _ _ _ _ _ I Eh) as (v & Ev & -> & Kv & Wv). rewrite Ev. cbn [fst snd]. split; auto.
    unfold hist_cleared. rewrite with_with. apply inv_fresh; auto. apply fresh_none.
  - (* + *)
    cbn [step ghost_step value_step]. unfold get_var.
    destruct (nth_error vals i) as [h|] eqn:Eh; cbn [bind].
    2:{ rewrite (no_var _ _ _ i I Eh). cbn [new fst snd]. auto. }
    destruct (var_value_eq _ _ _ _ _ I Eh) as (v & Ev & -> & Kv & Wv). rewrite Ev.
    destruct (nth_error vals j) as [k|] eqn:Ek; cbn [bind].
    2:{ rewrite (no_var _ _ _ j I Ek). cbn [new fst snd]. auto. }
    destruct (var_value_eq _ _ _ _ _ I Ek) as (w & Ew & -> & Kw & Ww). rewrite Ew.
    unfold hist_add. change (o_axes (with_content (v_obj v) (var_view (s_heap s) v))) with (o_axes (v_obj v)).
    change (o_axes (with_content (v_obj w) (var_view (s_heap s) w))) with (o_axes (v_obj w)). rewrite !layout_with. cbn [with_content o_content].
    destruct (axes_eqb (o_axes (v_obj v)) (o_axes (v_obj w))) eqn:AX.
    2:{ cbn [new fst snd]. destruct (same_groups (var_view (s_heap s) v) (var_view (s_heap s) w)); auto. }
    set (k1 := l_last (o_layout (v_obj v))) in *. set (k2 := l_last (o_layout (v_obj w))) in *.
    set (n := ngroups (v_obj v)) in *.
    assert (NW : ngroups (v_obj w) = n) by (symmetry; apply kinds_groups; auto).
    assert (Wv' : wt n (s_heap s) (v_ref v)) by exact Wv.
    assert (Ww' : wt n (s_heap s) (v_ref w)) by (rewrite <- NW; exact Ww).
    destruct (add_ref k1 k2 n (s_heap s) (v_ref v) (v_ref w)) as [H1 q] eqn:EA.
    destruct (add_ref_ok k1 k2 n _ _ _ _ _ Wv' Ww' EA) as ((X & ->) & C).
    unfold var_view in *. rewrite NW. fold n.
    destruct (content_add k1 k2 (view n (s_heap s) (v_ref v)) (view n (s_heap s) (v_ref w))) as [c|e]; cbn [bind new fst snd].
    2:{ subst q. cbn [fst snd]. split; auto. destruct (same_groups (view n (s_heap s) (v_ref v)) (view n (s_heap s) (v_ref w))); apply inv_heap; auto. }
    destruct C as (r & -> & Vr & Wr & Br & Fr). cbn [fst snd]. split; auto.
    assert (FLAG : nth i (g_flags g) false = v_flag v) by (apply nth_of_error; rewrite (inv_flag _ _ _ i I), Ev; auto). rewrite FLAG.
    rewrite with_with. rewrite <- Vr.
    destruct (same_groups (view n (s_heap s) (v_ref v)) (view n (s_heap s) (v_ref w))).
    + rewrite Vr. apply inv_fresh; auto.
    + apply inv_new; auto.
      * apply merge_length.
      * intros m kk. rewrite nth_merge. destruct (nth_error (g_classes g) m) as [[k0|]|]; cbn [option_map]; try discriminate.
        destruct (mgd _ _ k0); congruence.
      * intros m1 m2. rewrite !nth_merge. congruence.
      * intros m u Eu NC l Hl Hl'. rewrite nth_merge in NC. apply Br in Hl. destruct (inv_var _ _ _ I m u Eu) as (_ & Wu).
        assert (Bu := wt_reach _ _ _ Wu l Hl'). destruct Hl as [Hl|Hl]; [|lia].
        destruct (inv_class _ _ _ m u I Eu) as (cm & Cm). rewrite Cm in NC. cbn [option_map] in NC.
        destruct cm as [km|]; [|congruence]. destruct (mgd (nth_error (g_classes g) i) (nth_error (g_classes g) j) km) eqn:MG; [congruence|].
        unfold mgd in MG. apply orb_false_elim in MG. destruct MG as (M1 & M2).
        apply in_app_or in Hl. destruct Hl as [Hl|Hl].
        -- apply (inv_disj _ _ _ I i m v u Ev Eu) with (l := l); auto. rewrite Cm. intros Q. rewrite Q in M1. rewrite Nat.eqb_refl in M1. discriminate.
        -- apply (inv_disj _ _ _ I j m w u Ew Eu) with (l := l); auto; [|unfold vreach; rewrite NW; auto]. rewrite Cm. intros Q. rewrite Q in M2. rewrite Nat.eqb_refl in M2. discriminate.
      * discriminate.
  - (* * *)
    cbn [step ghost_step value_step]. unfold get_var.
    destruct (nth_error vals i) as [h|] eqn:Eh; cbn [bind new].
    2:{ rewrite (no_var _ _ _ i I Eh). cbn [fst snd]. auto. }
    destruct (var_value_eq _ _ _ _ _ I Eh) as (v & Ev & -> & Kv & Wv). rewrite Ev. unfold hist_mul. cbn [with_content o_content].
    assert (FLAG : nth i (g_flags g) false = v_flag v) by (apply nth_of_error; rewrite (inv_flag _ _ _ i I), Ev; auto). rewrite FLAG.
    destruct (content_mul x (var_view (s_heap s) v)) as [c|e] eqn:M; cbn [rmap new fst snd]; auto.
    destruct (alloc_tree (s_heap s) c) as [H1 r] eqn:A. cbn [fst snd]. split; auto. rewrite with_with. apply inv_fresh; auto.
    eapply alloc_tree_ok; eauto. eapply mul_depth; eauto. apply view_depth.
  - (* group *)
    cbn [step ghost_step value_step].
    assert (EQ : mapM (fun ni : string * nat => match nth_error (s_vars s) (snd ni) with Some v => Ok (fst ni, var_value (s_heap s) v) | None => Err NameError end) hs =
                 mapM (fun ni : string * nat => do h <- get_var vals (snd ni); Ok (fst ni, h)) hs).
    { induction hs as [|[nm i] hs IH]; cbn [mapM fst snd]; auto. rewrite IH by exact Logic.I. unfold get_var. rewrite (inv_value _ _ _ i I).
      destruct (nth_error (s_vars s) i); reflexivity. }
    rewrite EQ.
    assert (F : forall l, mapM (fun ni : string * nat => do h <- get_var vals (snd ni); Ok (fst ni, h)) hs = Ok l ->
       Forall (fun nx => kinds (snd nx) /\ depth_ok (ngroups (snd nx)) (o_content (snd nx))) l).
    { clear EQ Al. induction hs as [|[nm i] hs IH]; cbn [mapM fst snd]; intros l E; [injection E as <-; constructor|].
      apply bind_ok in E. destruct E as (nx & E1 & E). apply bind_ok in E. destruct E as (t & E2 & E). injection E as <-. constructor; [|apply IH; auto].
      apply bind_ok in E1. destruct E1 as (h & E1 & E3). injection E3 as <-. cbn [snd]. unfold get_var in E1. destruct (nth_error vals i) as [h'|] eqn:Eh; [|discriminate].
      injection E1 as ->. destruct (var_value_eq _ _ _ _ _ I Eh) as (v & Ev & -> & Kv & Wv). split; auto. apply view_depth. }
    destruct (mapM (fun ni : string * nat => do h <- get_var vals (snd ni); Ok (fst ni, h)) hs) as [l|e]; cbn [bind new fst snd]; auto.
    specialize (F l eq_refl). destruct (group_hists by_ l) as [gr|e] eqn:G; cbn [new fst snd]; auto.
    destruct (group_ok by_ l gr G F) as (Kg & Dg).
    destruct (alloc_tree (s_heap s) (o_content gr)) as [H1 r] eqn:A. cbn [fst snd]. split; auto.
    assert (K := inv_fresh s vals g H1 (with_content gr CNone) r false (o_content gr) I Kg). rewrite with_with in K.
    assert (E : with_content gr (o_content gr) = gr) by (destruct gr; auto). rewrite E in K. apply K. eapply alloc_tree_ok; eauto.
  - (* part of a fill of a book *)
    cbn [step value_step ghost_step allowed] in *. unfold on.
    destruct (nth_error vals i) as [h|] eqn:Eh.
    2:{ rewrite (no_var _ _ _ i I Eh). cbn [fst snd]. split; auto. destruct (no_class_var _ _ _ i I (no_var _ _ _ i I Eh)) as (C1 & C2).
        rewrite !set_nth_none by auto. rewrite ghost_eta. auto. }
    destruct (var_value_eq _ _ _ _ _ I Eh) as (v & Ev & -> & Kv & Wv). rewrite Ev. destruct Al as (Fil & Own).
    change (ngroups (with_content (v_obj v) (var_view (s_heap s) v))) with (ngroups (v_obj v)) in Fil.
    cbn [with_content o_content]. set (n := ngroups (v_obj v)) in *.
    assert (D0 : depth_ok n (var_view (s_heap s) v)) by apply view_depth.
    destruct (Fil _ D0) as (Ex & D). destruct (f (var_view (s_heap s) v)) as [c e]. cbn [fst] in *.
    destruct (store n (s_heap s) (v_ref v) c) as [H2 r2] eqn:St. cbn [fst snd]. split; auto.
    change (with_content (with_content (v_obj v) (var_view (s_heap s) v)) c) with (with_content (v_obj v) c).
    assert (E3 : set_nth (g_flags g) i (v_flag v) = g_flags g) by (apply set_nth_id; rewrite (inv_flag _ _ _ i I), Ev; auto).
    rewrite <- E3. eapply inv_store; eauto.
  - (* project, drop, rebin, select on a fixed axis *)
    cbn [step ghost_step value_step allowed] in *. unfold get_var.
    destruct (nth_error vals i) as [h|] eqn:Eh; cbn [bind new].
    2:{ rewrite (no_var _ _ _ i I Eh). cbn [fst snd]. auto. }
    destruct (var_value_eq _ _ _ _ _ I Eh) as (v & Ev & -> & Kv & Wv). rewrite Ev.
    change (with_content (v_obj v) (var_view (s_heap s) v)) with (var_value (s_heap s) v).
    destruct (f (var_value (s_heap s) v)) as [gr|e] eqn:F; cbn [new fst snd]; auto.
    assert (WM : well_made (var_value (s_heap s) v)) by (split; [exact Kv|apply view_depth]).
    destruct (Al _ _ WM F) as (Kg & Dg).
    destruct (alloc_tree (s_heap s) (o_content gr)) as [H1 r] eqn:A. cbn [fst snd]. split; auto.
    assert (K := inv_fresh s vals g H1 (with_content gr CNone) r false (o_content gr) I Kg). rewrite with_with in K.
    assert (E : with_content gr (o_content gr) = gr) by (destruct gr; auto). rewrite E in K. apply K. eapply alloc_tree_ok; eauto.
  - (* select on a group axis *)
    cbn [step ghost_step value_step]. unfold get_var.
    destruct (nth_error vals i) as [h|] eqn:Eh; cbn [bind new].
    2:{ rewrite (no_var _ _ _ i I Eh). cbn [fst snd]. auto. }
    destruct (var_value_eq _ _ _ _ _ I Eh) as (v & Ev & -> & Kv & Wv). rewrite Ev.
    change (ngroups (with_content (v_obj v) (var_view (s_heap s) v))) with (ngroups (v_obj v)).
    destruct (Nat.ltb_spec p (ngroups (v_obj v))) as [Hp|Hp]; cbn [new fst snd]; auto.
    set (n := ngroups (v_obj v)) in *.
    destruct (sel_ref p b (s_heap s) (v_ref v)) as [H1 r] eqn:ES. cbn [fst snd]. split; auto.
    destruct (sel_ref_ok b p n _ _ _ _ Hp Wv ES) as ((X & ->) & Vr & Wr & Br).
    cbn [with_content o_content]. unfold var_view. fold n. rewrite <- Vr. rewrite with_with.
    apply inv_new; auto.
    + apply merge_length.
    + intros m kk. rewrite nth_merge. destruct (nth_error (g_classes g) m) as [[k0|]|]; cbn [option_map]; try discriminate.
      destruct (mgd _ _ k0); congruence.
    + intros m1 m2. rewrite !nth_merge. congruence.
    + intros m u Eu NC l Hl Hl'. rewrite nth_merge in NC. apply Br in Hl. destruct (inv_var _ _ _ I m u Eu) as (_ & Wu).
      assert (Bu := wt_reach _ _ _ Wu l Hl'). destruct Hl as [Hl|Hl]; [|lia].
      destruct (inv_class _ _ _ m u I Eu) as (cm & Cm). rewrite Cm in NC. cbn [option_map] in NC.
      destruct cm as [km|]; [|congruence]. destruct (mgd (nth_error (g_classes g) i) (nth_error (g_classes g) i) km) eqn:MG; [congruence|].
      unfold mgd in MG. apply orb_false_elim in MG. destruct MG as (M1 & M2).
      apply (inv_disj _ _ _ I i m v u Ev Eu) with (l := l); auto. rewrite Cm. intros Q. rewrite Q in M1. rewrite Nat.eqb_refl in M1. discriminate.
    + discriminate.
Qed.

Theorem inv_run os : forall s vals g, Inv s vals g -> allowed_run vals g os ->
  snd (run s os) = snd (value_run vals os) /\ values (fst (run s os)) = fst (value_run vals os).
Proof.
  induction os as [|o os IH]; intros s vals g I Al; cbn [run value_run].
  - cbn [fst snd]. split; auto. apply (inv_vals _ _ _ I).
  - cbn [allowed_run] in Al. destruct Al as (A1 & A2). destruct (inv_step s vals g o I A1) as (E & I').
    destruct (step s o) as [s1 e]. destruct (value_step vals o) as [v1 e']. cbn [fst snd] in *. subst e'.
    destruct (IH s1 v1 _ I' A2) as (E2 & V2). destruct (run s1 os) as [s2 es]. destruct (value_run v1 os) as [v2 es']. cbn [fst snd] in *. subst. auto.
Qed.

Lemma inv_fresh_state hs : Forall fresh_hist hs -> Inv (fresh_state hs) hs (fresh_ghost hs).
Proof.
  intros F. unfold fresh_state, fresh_ghost. split; cbn [s_heap s_vars g_flags g_classes].
  - unfold values. cbn [s_heap s_vars]. rewrite map_map. rewrite <- (map_id hs) at 2. apply map_ext_in. intros h Hh. rewrite Forall_forall in F.
    destruct (F h Hh) as (C & _). unfold var_value, var_view. cbn [v_obj v_ref]. destruct (ngroups h); cbn [view]; destruct h; cbn in *; subst; auto.
  - rewrite map_map. auto.
  - rewrite !map_length, seq_length. auto.
  - intros i v Ev. rewrite nth_error_map in Ev. destruct (nth_error hs i) as [h|] eqn:Eh; [|discriminate]. injection Ev as <-. rewrite Forall_forall in F.
    destruct (F h (nth_error_In _ _ Eh)) as (_ & K). split; [exact K|]. unfold vwt. cbn [v_obj v_ref]. destruct (ngroups h); exact I.
  - intros i j v w Ev _ _. rewrite nth_error_map in Ev. destruct (nth_error hs i) as [h|]; [|discriminate]. injection Ev as <-. unfold vreach. cbn [v_obj v_ref].
    rewrite reach_none. intros l [].
  - intros i v k Ev _. rewrite nth_error_map in Ev. destruct (nth_error hs i) as [h|]; [|discriminate]. injection Ev as <-. unfold vreach. cbn [v_obj v_ref].
    rewrite reach_none. constructor.
Qed.
