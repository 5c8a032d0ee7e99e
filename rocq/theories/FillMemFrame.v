(** Which arrays a fill can write into, whatever the expressions. *)
From Coq Require Import String Permutation.
From Verif Require Import Num Base Tree Instr InstrSpec InstrProofs Axis Calc Content Fill FillProofs Elem HistFill HistSpec Book BookFill Lib FillMem FillMemSpec FillMemProofs FillMemMain.
Local Open Scope list_scope.

Lemma removelast_last_app {A} (l : list A) d n : List.length l = S n -> l = removelast l ++ [last l d] /\ List.length (removelast l) = n.
Proof.
  intros H. assert (N : l <> []) by (destruct l; discriminate). assert (E := app_removelast_last d N). split; auto.
  apply (f_equal (@List.length A)) in E. rewrite app_length in E. cbn in E. lia.
Qed.
Lemma Forall2_app_last {A B} (R : A -> B -> Prop) l l' d d' n : Forall2 R l l' -> List.length l = S n -> R (last l d) (last l' d').
Proof.
  intros H. revert n. induction H as [|x y l l' E H IH]; intros n L; [discriminate|]. inversion H as [|x2 y2 l2 l2' E2 H2]; subst; auto.
  cbn in L. change (R (last (x2 :: l2) d) (last (y2 :: l2') d')). apply (IH (List.length l2)). auto.
Qed.
Lemma Forall2_len {A B} (R : A -> B -> Prop) l l' : Forall2 R l l' -> List.length l = List.length l'.
Proof. induction 1; cbn; auto. Qed.
Lemma nth_error_upd {A} (f : A -> A) l i j : i <> j -> nth_error (upd f i l) j = nth_error l j.
Proof. revert i j. induction l as [|x l IH]; intros [|i] [|j] H; cbn; auto; try congruence. Qed.

Section Frame.
  Variable cast : Num -> Z.
  Variable rnd : Qc -> Num.
  Variable user : string -> list arg -> res val.
  Variable int32 : nat -> bool.
  Variable A : margs.
  Variable base : nat.
  (** The calls that are computed. *)
  Variable computed : tree -> Prop.
  Hypothesis computed_sub : forall f args a, computed (TCall f args) -> In a args -> computed a.

  Definition written (l : nat) : Prop :=
    exists f args a s, computed (TCall f (args ++ [a])) /\ assoc f ufuncs = Some (List.length args) /\ handed a s /\ A s = Some (MAr l).
  Definition kept (m m' : memory) : Prop :=
    List.length m <= List.length m' /\
    forall l, l < base -> l < List.length m -> ~ written l -> nth_error m' l = nth_error m l.
  Lemma kept_refl m : kept m m.
  Proof. split; auto. Qed.
  Lemma kept_trans a b c : kept a b -> kept b c -> kept a c.
  Proof. intros (L1 & K1) (L2 & K2). split; [lia|]. intros l B H W. rewrite K2 by (auto; lia). auto. Qed.
  Lemma kept_alloc m v : kept m (m ++ [v]).
  Proof. split; [rewrite app_length; lia|]. intros l _ H _. rewrite nth_error_app1; auto. Qed.
  Lemma kept_upd m f i : base <= i \/ written i -> kept m (upd f i m).
  Proof.
    intros H. split; [rewrite upd_length; auto|]. intros l B L W. apply nth_error_upd. destruct H as [H|H]; [lia|]. intros ->. contradiction.
  Qed.

  Definition owned (r : ref) (t : tree) : Prop :=
    match r with
    | RLit _ => True
    | RArr l | RCut l => base <= l \/ exists s, handed t s /\ A s = Some (MAr l)
    end.
  Lemma owned_new (m : memory) t : base <= List.length m -> owned (RArr (List.length m)) t.
  Proof. intros H. left. auto. Qed.

  Lemma call_frame f rs args m : computed (TCall f args) -> base <= List.length m -> Forall2 owned rs args ->
    let (m', r) := call_m cast rnd user int32 f rs m in
    kept m m' /\ match r with Ok r => owned r (TCall f args) | Err _ => True end.
  Proof.
    intros C B H. unfold call_m. assert (L := Forall2_len _ _ _ H). destruct (takes_out f (List.length rs)) eqn:T.
    - unfold takes_out in T. destruct (assoc f ufuncs) as [k|] eqn:E; [|discriminate]. apply Nat.eqb_eq in T.
      destruct (lib cast rnd user f _) as [v|e]; [|split; [apply kept_refl|auto]].
      assert (O := Forall2_app_last owned rs args (RLit (KS SNone)) (TConst (KS SNone)) k H T).
      rewrite T in L. symmetry in L. destruct (removelast_last_app args (TConst (KS SNone)) k L) as (Ea & La).
      set (o := last rs (RLit (KS SNone))) in *. set (a := last args (TConst (KS SNone))) in *.
      assert (W : forall l, base <= l \/ (exists s, handed a s /\ A s = Some (MAr l)) -> base <= l \/ written l).
      { intros l [X|(s & X & Y)]; auto. right. exists f, (removelast args), a, s. rewrite <- Ea, La. auto. }
      assert (W2 : forall l, base <= l \/ (exists s, handed a s /\ A s = Some (MAr l)) -> base <= l \/ exists s, handed (TCall f args) s /\ A s = Some (MAr l)).
      { intros l [X|(s & X & Y)]; auto. right. exists s. split; auto. rewrite Ea. apply handed_out; auto. rewrite La. auto. }
      destruct o as [c|l|l]; cbn [mwrite]; [split; [apply kept_refl|auto]| |]; (split; [apply kept_upd, W; exact O|apply W2; exact O]).
    - destruct (lib cast rnd user f _) as [v|e]; [|split; [apply kept_refl|auto]].
      assert (G : kept m (fst (alloc m v)) /\ owned (snd (alloc m v)) (TCall f args)) by (split; [apply kept_alloc|apply owned_new; auto]).
      cbn in G. destruct rs as [|r rs]; [exact G|]. destruct r as [c|l|l]; try exact G. destruct rs as [|r' rs]; [|exact G].
      destruct (String.eqb f "histbook.cut" && int32 l) eqn:X; [|exact G]. apply andb_true_iff in X. destruct X as (X & _). apply String.eqb_eq in X. subst f.
      split; [apply kept_refl|]. inversion H as [|r0 a ? args' O H']; subst. inversion H'; subst. destruct O as [O|(s & O & Y)]; [left; auto|]. right. exists s. split; auto. apply handed_cut; auto.
  Qed.

  Definition named (names : list (tree * nat)) (s : symtab ref) : Prop :=
    forall t n r, In (t, n) names -> lookup ref n s = Some r -> owned r t.
  Lemma find_name_in t names n : find_name t names = Some n -> In (t, n) names.
  Proof.
    induction names as [|(u, k) names IH]; cbn; [discriminate|]. destruct (tree_eq_dec t u) as [->|]; [|auto]. intros E; injection E as ->. auto.
  Qed.

  Lemma var_frame names s t m e : named names s -> is_const t = false ->
    match find_name t names with Some n => Ok (RVar n) | None => Err AssertionError end = Ok e ->
    let (m', r) := calc_m cast rnd user int32 s e m in kept m m' /\ match r with Ok r => owned r t | Err _ => True end.
  Proof.
    intros N _ H. destruct (find_name t names) as [n|] eqn:E; [|discriminate]. injection H as <-. cbn. split; [apply kept_refl|].
    destruct (lookup ref n s) eqn:L; auto. eapply N; eauto. apply find_name_in; auto.
  Qed.
  Lemma calc_frame names s t : named names s -> computed t -> forall e m, base <= List.length m -> rename names t = Ok e ->
    let (m', r) := calc_m cast rnd user int32 s e m in kept m m' /\ match r with Ok r => owned r t | Err _ => True end.
  Proof.
    intros N. induction t as [c|x|x b|c|f args IH] using tree_ind'; intros C e m B H.
    - cbn in H. injection H as <-. cbn. split; [apply kept_refl|exact I].
    - cbn [rename] in H. eapply var_frame; eauto.
    - cbn [rename] in H. eapply var_frame; eauto.
    - cbn [rename] in H. eapply var_frame; eauto.
    - destruct (find_name (TCall f args) names) as [n|] eqn:E.
      { cbn [rename] in H. rewrite E in H. eapply var_frame; eauto. rewrite E. auto. }
      rewrite rename_call in H by auto. destruct (mapM (rename names) args) as [es|] eqn:M; [|discriminate]. cbn in H. injection H as <-.
      cbn [calc_m]. set (go := fix go (l : list rtree) (m : memory) : memory * res (list ref) := _).
      assert (G : forall m, base <= List.length m -> let (m', rs) := go es m in kept m m' /\ match rs with Ok rs => Forall2 owned rs args | Err _ => True end).
      { apply mapM_two in M. assert (Q : forall a, In a args -> computed a) by (intros a; apply computed_sub with (f := f); auto).
        clear C E m B. induction M as [|a e args es E M IHM]; intros m B.
        - cbn. split; [apply kept_refl|constructor].
        - cbn [go]. inversion IH as [|? ? I1 I2]; subst. assert (H1 := I1 (Q a (or_introl eq_refl)) e m B E).
          destruct (calc_m cast rnd user int32 s e m) as (m1, r). destruct H1 as (K1 & O1). destruct r as [r|er]; [|split; auto].
          fold go. assert (H2 := IHM I2 (fun b Hb => Q b (or_intror Hb)) m1). assert (B1 : base <= List.length m1) by (destruct K1; lia). specialize (H2 B1).
          destruct (go es m1) as (m2, rs). destruct H2 as (K2 & O2). destruct rs as [rs|er]; (split; [eapply kept_trans; eauto|]); auto. }
      specialize (G m B). destruct (go es m) as (m1, rs). destruct G as (K1 & O1). destruct rs as [rs|er]; [|split; auto].
      assert (B1 : base <= List.length m1) by (destruct K1; lia). assert (CF := call_frame f rs args m1 C B1 O1).
      destruct (call_m cast rnd user int32 f rs m1) as (m2, r). destruct CF as (K2 & O2). split; auto. eapply kept_trans; eauto.
  Qed.

  Lemma param_frame len t m : base <= List.length m ->
    let (m', r) := param_m A len t m in kept m m' /\ match r with Ok r => owned r t | Err _ => True end.
  Proof.
    intros B. unfold param_m. destruct (param (seen A m) len t) as [v|e]; [|split; [apply kept_refl|auto]].
    assert (G : kept m (fst (alloc m v)) /\ owned (snd (alloc m v)) t) by (split; [apply kept_alloc|apply owned_new; auto]).
    cbn in G. destruct (field_name t) as [s|] eqn:N; [|exact G]. destruct (A s) as [[x|l]|] eqn:X; try exact G.
    split; [apply kept_refl|]. right. exists s. split; auto. destruct t; cbn in N; try discriminate; injection N as ->; constructor.
  Qed.

  Lemma lookup_gone n k s r : lookup ref n (remove ref k s) = Some r -> lookup ref n s = Some r.
  Proof. rewrite lookup_remove. destruct (Nat.eqb n k); auto. discriminate. Qed.
  Lemma deletes_frame len d rest : forall names s o m, named names s ->
    (forall s, named names s -> kept m (fst (run_m cast rnd user int32 A len rest s o m))) ->
    kept m (fst (run_m cast rnd user int32 A len (map Delete d ++ rest) s o m)).
  Proof.
    induction d as [|n d IH]; intros names s o m N H; cbn [map app]; auto. cbn [run_m].
    destruct (lookup ref n s) as [r|]; [|apply kept_refl]. apply (IH names); auto.
    intros t k q I L. eapply N; eauto. eapply lookup_gone; eauto.
  Qed.
  Lemma run_frame goals len nodes : forall k names live is s o m, (forall x, In x nodes -> computed x) ->
    (forall t n, In (t, n) names -> n < k) -> named names s -> base <= List.length m ->
    emit goals nodes k names live = Ok is -> kept m (fst (run_m cast rnd user int32 A len is s o m)).
  Proof.
    induction nodes as [|x nodes IH]; intros k names live is s o m Q F N B H; [cbn in H; injection H as <-; apply kept_refl|].
    cbn [emit] in H. apply bind_ok in H. destruct H as (first & Fi & H). apply bind_ok in H. destruct H as (rest & R & H). injection H as <-.
    assert (G : forall r m1, kept m m1 -> owned r x ->
      kept m (fst (run_m cast rnd user int32 A len ((if mem x goals then [Export k x] else []) ++
        map Delete (dead nodes (live ++ [(k, x)])) ++ rest) ((k, r) :: s) o m1))).
    { intros r m1 K O. assert (B1 : base <= List.length m1) by (destruct K; lia). eapply kept_trans; [exact K|].
      assert (N1 : named ((x, k) :: names) ((k, r) :: s)).
      { intros t n q [E|I] L; cbn [lookup] in L.
        - injection E as <- <-. rewrite Nat.eqb_refl in L. injection L as <-. auto.
        - assert (n < k) by (eapply F; eauto). destruct (Nat.eqb_spec n k); [lia|]. eapply N; eauto. }
      assert (D : forall o, kept m1 (fst (run_m cast rnd user int32 A len (map Delete (dead nodes (live ++ [(k, x)])) ++ rest) ((k, r) :: s) o m1))).
      { intros o'. apply deletes_frame with (names := (x, k) :: names); auto. intros s' N'. eapply IH; [|  |exact N'|exact B1|exact R].
        - intros y Hy. apply Q. right; auto.
        - intros t n [E|I]; [injection E as <- <-; lia|]. assert (n < k) by (eapply F; eauto). lia. }
      destruct (mem x goals); cbn [app]; auto. cbn [run_m lookup]. rewrite Nat.eqb_refl. auto. }
    assert (P : kept m (fst (run_m cast rnd user int32 A len ((Param k x) :: (if mem x goals then [Export k x] else []) ++
        map Delete (dead nodes (live ++ [(k, x)])) ++ rest) s o m))).
    { cbn [run_m]. assert (PF := param_frame len x m B). destruct (param_m A len x m) as (m1, r). destruct PF as (K & O). destruct r as [r|e]; auto. }
    destruct x as [c|z|z b|c|f args]; [discriminate|injection Fi as <-; exact P|injection Fi as <-; exact P|injection Fi as <-; exact P|].
    apply bind_ok in Fi. destruct Fi as (e & E & Fi). injection Fi as <-. cbn [run_m].
    assert (CF := calc_frame names s (TCall f args) N (Q _ (or_introl eq_refl)) e m B E).
    destruct (calc_m cast rnd user int32 s e m) as (m1, r). destruct CF as (K & O). destruct r as [r|er]; auto.
  Qed.
End Frame.

(** _postfill writes only into arrays that it made. *)
Definition below (m m' : memory) : Prop := forall l, l < List.length m -> nth_error m' l = nth_error m l.
Lemma below_app m e : below m (m ++ e).
Proof. intros l H. apply nth_error_app1; auto. Qed.
Lemma below_trans a b c : List.length a <= List.length b -> below a b -> below b c -> below a c.
Proof. intros L H1 H2 l H. rewrite H2 by lia. auto. Qed.

Section Post.
  Variable cast : Num -> Z.
  Variable rnd : Qc -> Num.
  Variable user : string -> list arg -> res val.

  Lemma step_below t d m0 m : List.length m0 <= List.length m -> below m0 m ->
    List.length m0 <= List.length (fst (flat_step cast rnd user t (RArr (List.length m0)) d m)) /\ below m0 (fst (flat_step cast rnd user t (RArr (List.length m0)) d m)).
  Proof.
    intros L H. unfold flat_step. destruct (mread cast rnd user m (RArr (List.length m0))) as [c|x|a|u i]; cbn [fst]; auto.
    assert (W : forall m v, List.length m0 <= List.length m -> below m0 m ->
      List.length m0 <= List.length (mwrite m (RArr (List.length m0)) v) /\ below m0 (mwrite m (RArr (List.length m0)) v)).
    { intros m' v L' H'. cbn. rewrite upd_length. split; auto. intros l Hl. rewrite nth_error_upd by lia. auto. }
    destruct (W m (VIdx (map (mul_elem t) a)) L H) as (L1 & H1). destruct d as [d|]; auto.
    destruct (mread cast rnd user (mwrite m _ _) (RArr _)); auto. destruct (mread cast rnd user (mwrite m _ _) d); auto.
    destruct (Nat.eqb _ _); auto. apply W; auto.
  Qed.
  Lemma loop_below m0 axes : forall m, List.length m0 <= List.length m -> below m0 m ->
    List.length m0 <= List.length (fst (flat_loop_m cast rnd user (RArr (List.length m0)) axes m)) /\ below m0 (fst (flat_loop_m cast rnd user (RArr (List.length m0)) axes m)).
  Proof.
    induction axes as [|(t, d) axes IH]; intros m L H; cbn [flat_loop_m]; auto.
    assert (S := step_below t d m0 m L H). destruct (flat_step cast rnd user t (RArr (List.length m0)) d m) as (m1, [e|]); auto. apply IH; tauto.
  Qed.
  Lemma flat_below axes m : List.length m <= List.length (fst (flat_indexes_m cast rnd user axes m)) /\ below m (fst (flat_indexes_m cast rnd user axes m)).
  Proof.
    assert (R : List.length m <= List.length m /\ below m m) by (split; [auto|intros l _; auto]).
    destruct axes as [|(t, d) axes]; auto. destruct axes as [|a axes]; auto. cbn [flat_indexes_m]. destruct d as [d|]; auto. unfold alloc.
    assert (S := loop_below m (a :: axes) (m ++ [mread cast rnd user m d])). rewrite app_length in S. specialize (S ltac:(lia) (below_app _ _)).
    destruct (flat_loop_m cast rnd user _ (a :: axes) _) as (m1, [e|]); auto.
  Qed.
  Lemma clean_below w w2 m : List.length m <= List.length (fst (clean_weights cast rnd user w w2 m)) /\ below m (fst (clean_weights cast rnd user w w2 m)).
  Proof.
    unfold clean_weights. assert (R : List.length m <= List.length m /\ below m m) by (split; [auto|intros l _; auto]).
    destruct (as_nums _) as [x|e]; auto. destruct (existsb _ _); auto. unfold alloc. cbn [fst mwrite]. split.
    - rewrite !upd_length, !app_length. lia.
    - intros l Hl. rewrite !nth_error_upd; [|lia|rewrite app_length; lia]. rewrite !nth_error_app1; auto. rewrite app_length. lia.
  Qed.
  Lemma post_below h len o c m : List.length m <= List.length (fst (postfill_m cast rnd user h len o c m)) /\ below m (fst (postfill_m cast rnd user h len o c m)).
  Proof.
    unfold postfill_m. assert (R : List.length m <= List.length m /\ below m m) by (split; [auto|intros l _; auto]).
    destruct (read_dest h _); auto.
    match goal with |- context [flat_indexes_m _ _ _ ?a m] => assert (S := flat_below a m); destruct (flat_indexes_m cast rnd user a m) as (m1, r) end.
    cbn [fst] in S. destruct r as [idx|e]; auto.
    assert (W : List.length m1 <= List.length (fst (weights_m cast rnd user h len o m1)) /\ below m1 (fst (weights_m cast rnd user h len o m1))).
    { assert (R1 : List.length m1 <= List.length m1 /\ below m1 m1) by (split; [auto|intros l _; auto]). unfold weights_m. destruct (h_weight h) as [[v|t]|]; auto.
      destruct (ref_find t o) as [w|]; auto. destruct (ref_find (square t) o) as [w2|]; auto. assert (C := clean_below w w2 m1). destruct (clean_weights cast rnd user w w2 m1) as (m2, [(wa, wb)|e]); auto. }
    destruct (weights_m cast rnd user h len o m1) as (m2, r). cbn [fst] in W. assert (T : List.length m <= List.length m2 /\ below m m2).
    { split; [lia|]. eapply below_trans; [|apply S|apply W]. tauto. }
    destruct r as [ws|e]; auto. destruct (read_dest h _); auto. destruct (option_map _ idx) as [[]|]; auto.
  Qed.
  Lemma post_all_below hs len o ids : forall stored cs m,
    List.length m <= List.length (fst (postfill_all_m cast rnd user hs len o stored ids cs m)) /\ below m (fst (postfill_all_m cast rnd user hs len o stored ids cs m)).
  Proof.
    induction ids as [|i ids IH]; intros stored cs m; cbn [postfill_all_m]; assert (R : List.length m <= List.length m /\ below m m) by (split; [auto|intros l _; auto]); auto.
    destruct (nth_error hs i) as [h|]; auto. destruct (nth_error cs i) as [c|]; auto.
    match goal with |- context [postfill_m _ _ _ h len ?o c m] => assert (S := post_below h len o c m); destruct (postfill_m cast rnd user h len o c m) as (m1, (c1, [e|])) end; auto.
    cbn [fst] in S. match goal with |- context [postfill_all_m _ _ _ hs len o ?s ids ?cs m1] => specialize (IH s cs m1) end.
    split; [lia|]. eapply below_trans; [|apply S|apply IH]. tauto.
  Qed.
End Post.
