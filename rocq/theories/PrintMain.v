(** The option [fill] of the constructor: what the printed name can and cannot stand for. *)
From Coq Require Import String Permutation.
From Verif Require Import Num NumFacts Base Tree Instr InstrSpec Axis Content Fill Elem HistFill HistSpec HistFillMain2
  Order Expr ExprFacts ExprLower ExprNames HistNew HistNewProofs Print PrintSpec PrintProofs.
Local Open Scope string_scope.
Local Open Scope list_scope.

Lemma enames_nice : forall e, nice (fun s => In s (enames e)) (fun _ => True) e.
Proof.
  assert (W : forall (P Q : string -> Prop) e, (forall s, P s -> Q s) -> nice P (fun _ => True) e -> nice Q (fun _ => True) e).
  { intros P Q e H. induction e as [c|n|n b|b f l IH|c l r IHl IHr|c p n Hp Hn|u Hu|l IH|l IH] using expr_ind'; intros N; inversion N; subst; constructor; auto;
      rewrite Forall_forall in *; auto.
    - intros t Ht. destruct (Hp t Ht) as [A B]. match goal with H : forall x, In x p -> _ /\ _ |- _ => destruct (H t Ht) as [A' B'] end.
      rewrite Forall_forall in A, B, A', B'. split; apply Forall_forall; auto.
    - intros t Ht. destruct (Hn t Ht) as [A B]. match goal with H : forall x, In x n -> _ /\ _ |- _ => destruct (H t Ht) as [A' B'] end.
      rewrite Forall_forall in A, B, A', B'. split; apply Forall_forall; auto.
    - intros x Hx. destruct Hu as [A B]. rewrite Forall_forall in A. auto.
    - intros x Hx. destruct Hu as [A B]. rewrite Forall_forall in B. auto. }
  assert (TT : forall (P : string -> Prop) u, PT (fun e => nice (fun s => In s (enames e)) (fun _ => True) e) u -> (forall s, In s (flat_map enames (tp u) ++ flat_map enames (tn u)) -> P s) ->
     Forall (nice P (fun _ => True)) (tp u) /\ Forall (nice P (fun _ => True)) (tn u)).
  { intros P u [A B] H. rewrite Forall_forall in A, B. split; apply Forall_forall; intros x Hx.
    - eapply W; [|apply A; exact Hx]. intros s Hs. apply H. apply in_app_iff. left. apply in_flat_map. eauto.
    - eapply W; [|apply B; exact Hx]. intros s Hs. apply H. apply in_app_iff. right. apply in_flat_map. eauto. }
  induction e as [c|n|n b|b f l IH|c l r IHl IHr|c p n Hp Hn|u Hu|l IH|l IH] using expr_ind'; cbn [enames].
  - constructor.
  - constructor. left. auto.
  - constructor. left. auto.
  - constructor; auto. rewrite Forall_forall in *. intros x Hx. eapply W; [|apply IH; exact Hx]. intros s Hs. apply in_flat_map. eauto.
  - constructor; [eapply W; [|exact IHl]|eapply W; [|exact IHr]]; intros s Hs; apply in_app_iff; auto.
  - rewrite Forall_forall in Hp, Hn. constructor; apply Forall_forall; intros t Ht; apply TT; auto; intros s Hs; apply in_app_iff; [left|right]; apply in_flat_map; exists t; auto.
  - destruct (TT (fun s => In s (flat_map enames (tp u) ++ flat_map enames (tn u))) u Hu) as [A B]; auto. constructor; auto.
  - constructor. rewrite Forall_forall in *. intros x Hx. eapply W; [|apply IH; exact Hx]. intros s Hs. apply in_flat_map. eauto.
  - constructor. rewrite Forall_forall in *. intros x Hx. eapply W; [|apply IH; exact Hx]. intros s Hs. apply in_flat_map. eauto.
Qed.

Lemma tree_names e t m : axis_tree tree_sorted e = Ok t -> mentions m t -> In m (enames e).
Proof.
  intros H M. assert (N : tnice (fun s => In s (enames e)) (fun _ => True) t \/ exists c, t = TBcast c).
  { unfold axis_tree in H. pose proof (enames_nice e) as N. destruct e; try (left; eapply totree_nice; eauto using tree_sorted_perm; fail). injection H as <-. eauto. }
  destruct N as [N|(c & ->)]; [|inversion M].
  clear H. induction M as [|b|f l a Ha M IH]; inversion N; subst; auto. rewrite Forall_forall in *. apply IH; auto.
Qed.

(** ** No field is lost when the tree is made *)
Lemma reduce_keeps m f n : forall l t, (exists x, In x l /\ mentions m x) -> reduce_fuel n f l = Ok t -> mentions m t.
Proof.
  induction n as [|n IH]; intros l t (x & Hx & M) E; [discriminate|]. destruct l as [|y [|z l]]; [destruct Hx| |].
  - destruct Hx as [->|[]]. injection E as <-. auto.
  - change (reduce_fuel (S n) f (y :: z :: l)) with
      (do a <- reduce_fuel n f (firstn (Nat.div2 (length (y :: z :: l))) (y :: z :: l));
       do b <- reduce_fuel n f (skipn (Nat.div2 (length (y :: z :: l))) (y :: z :: l)); Ok (TCall f [a; b])) in E.
    apply bind_ok_iff in E as (a & A & E). apply bind_ok_iff in E as (b & B & E). injection E as <-.
    rewrite <- (firstn_skipn (Nat.div2 (length (y :: z :: l)))) in Hx. apply in_app_iff in Hx as [Hx|Hx].
    + apply mentions_call with (a := a); [left; auto|]. eapply IH; [|exact A]. eauto.
    + apply mentions_call with (a := b); [right; left; auto|]. eapply IH; [|exact B]. eauto.
Qed.
Lemma linear_keeps m f x n : mentions m x -> mentions m (linear f x n).
Proof.
  intros H. induction n as [|[|n] IH]; simpl; auto. apply mentions_call with (a := x); auto. simpl. auto.
Qed.
Lemma tdedup_in x l : In x l -> In x (tdedup l).
Proof.
  induction l as [|y l IH]; intros H; [destruct H|]. simpl. destruct (mem y l) eqn:E.
  - apply IH. destruct H as [->|H]; auto. apply mem_In. exact E.
  - destruct H as [->|H]; [left; auto|right; auto].
Qed.
Lemma duplicates_keeps m f l t : (exists x, In x l /\ mentions m x) -> duplicates tree_sorted f l = Ok t -> mentions m t.
Proof.
  intros (x & Hx & M) E. assert (G : (let u := tdedup l in
      if Nat.eqb (length u) (length l) then reduce f l
      else reduce f (map (fun x => linear f x (tcount x l)) (tree_sorted u))) = Ok t -> mentions m t).
  { clear E. cbn zeta. destruct (Nat.eqb _ _); intros E; eapply reduce_keeps; try exact E; eauto.
    exists (linear f x (tcount x l)). split; [|apply linear_keeps; auto]. apply (in_map (fun x => linear f x (tcount x l))).
    apply (Permutation_in _ (tree_sorted_perm _)). apply tdedup_in. auto. }
  destruct l as [|y [|z l]]; [destruct Hx|destruct Hx as [->|[]]; injection E as <-; auto|apply G; exact E].
Qed.
Lemma ring_keeps m red unit op inv c pos neg t :
  (forall l t, (exists x, In x l /\ mentions m x) -> red op l = Ok t -> mentions m t) -> (exists x, In x (pos ++ neg) /\ mentions m x) ->
  lower_ring red unit op inv c pos neg = Ok t -> mentions m t.
Proof.
  intros Hr (x & Hx & M) E. unfold lower_ring in E. apply bind_ok_iff in E as (o & O & E). cbn zeta in E. apply in_app_iff in Hx as [Hx|Hx].
  - assert (G : mentions m (match o with None => t_num c | Some t => if qeqb c unit then t else TCall op [t; t_num c] end)).
    { destruct pos as [|y pos]; [destruct Hx|]. apply bind_ok_iff in O as (z & Z & O). injection O as <-.
      assert (X : mentions m z) by (eapply Hr; [|exact Z]; eauto). destruct (qeqb c unit); auto. apply mentions_call with (a := z); auto. left; auto. }
    destruct neg; [injection E as <-; exact G|]. apply bind_ok_iff in E as (z & Z & E). injection E as <-. eapply mentions_call; [left; reflexivity|exact G].
  - destruct neg as [|y neg]; [destruct Hx|]. apply bind_ok_iff in E as (z & Z & E). injection E as <-.
    apply mentions_call with (a := z); [right; left; auto|]. eapply Hr; [|exact Z]. eauto.
Qed.
Lemma mapM_keeps {A} m (f : A -> res tree) (P : A -> Prop) l ts : (forall a t, In a l -> P a -> f a = Ok t -> mentions m t) ->
  (exists a, In a l /\ P a) -> mapM f l = Ok ts -> exists x, In x ts /\ mentions m x.
Proof.
  intros H (a & Ha & Pa) E. apply mapM_Forall2 in E. induction E as [|b t l ts X E IH]; [destruct Ha|]. destruct Ha as [->|Ha].
  - exists t. split; [left; auto|]. eapply H; eauto. left; auto.
  - destruct IH as (x & Hx & M); auto. { intros; eapply H; eauto. right; auto. } exists x. split; auto. right; auto.
Qed.
Lemma names_kept m : forall e t, In m (enames e) -> totree tree_sorted e = Ok t -> mentions m t.
Proof.
  set (R := fun e => forall t, In m (enames e) -> totree tree_sorted e = Ok t -> mentions m t).
  assert (TD : forall u, PT R u -> forall t, In m (flat_map enames (tp u) ++ flat_map enames (tn u)) -> totree tree_sorted (ETD u) = Ok t -> mentions m t).
  { intros u [H1 H2] t I E. rewrite totree_td in E. apply bind_ok_iff in E as (ps & Ps & E). apply bind_ok_iff in E as (ns & Ns & E).
    rewrite Forall_forall in H1, H2. eapply ring_keeps; [|idtac|exact E]; [intros; eapply duplicates_keeps; eauto|].
    apply in_app_iff in I. destruct I as [I|I]; apply in_flat_map in I as (x & Hx & I).
    - destruct (mapM_keeps m (totree tree_sorted) (fun e => In m (enames e)) (tp u) ps) as (y & Hy & M); eauto; [intros a s Ha; apply (H1 a Ha)|]. exists y. split; auto. apply in_app_iff. auto.
    - destruct (mapM_keeps m (totree tree_sorted) (fun e => In m (enames e)) (tn u) ns) as (y & Hy & M); eauto; [intros a s Ha; apply (H2 a Ha)|]. exists y. split; auto. apply in_app_iff. auto. }
  assert (MANY : forall l ts, Forall R l -> In m (flat_map enames l) -> mapM (totree tree_sorted) l = Ok ts -> exists x, In x ts /\ mentions m x).
  { intros l ts H I E. rewrite Forall_forall in H. apply in_flat_map in I as (x & Hx & I). eapply mapM_keeps; [|idtac|exact E]; [intros a s Ha; apply (H a Ha)|]. eauto. }
  fold R. induction e as [c|n|n b|b f l IH|c l r IHl IHr|c p n Hp Hn|u Hu|l IH|l IH] using expr_ind'; intros t I E; cbn [enames] in I.
  - destruct I.
  - destruct I as [->|[]]. injection E as <-. constructor.
  - destruct I as [->|[]]. injection E as <-. constructor.
  - simpl in E. rewrite totree_many in E. apply bind_ok_iff in E as (ts & Ts & E). injection E as <-.
    destruct (MANY l ts IH I Ts) as (x & Hx & M). eapply mentions_call; eauto.
  - simpl in E. apply bind_ok_iff in E as (x & X & E). apply bind_ok_iff in E as (y & Y & E). injection E as <-.
    assert (G : mentions m x \/ mentions m y) by (apply in_app_iff in I as [I|I]; [left; eapply IHl|right; eapply IHr]; eauto).
    assert (K : forall f, mentions m (TCall f [x; y])).
    { intros f. destruct G; [apply mentions_call with (a := x)|apply mentions_call with (a := y)]; simpl; auto. }
    destruct c; auto. eapply mentions_call; [left; reflexivity|apply K].
  - rewrite totree_pm in E. apply bind_ok_iff in E as (ps & Ps & E). apply bind_ok_iff in E as (ns & Ns & E).
    rewrite Forall_forall in Hp, Hn. eapply ring_keeps; [|idtac|exact E]; [intros; eapply reduce_keeps; eauto|].
    apply in_app_iff in I. destruct I as [I|I]; apply in_flat_map in I as (u & Hu & I).
    + destruct (mapM_keeps m (fun u => totree tree_sorted (ETD u)) (fun u => In m (flat_map enames (tp u) ++ flat_map enames (tn u))) p ps) as (y & Hy & M); eauto.
      exists y. split; auto. apply in_app_iff. auto.
    + destruct (mapM_keeps m (fun u => totree tree_sorted (ETD u)) (fun u => In m (flat_map enames (tp u) ++ flat_map enames (tn u))) n ns) as (y & Hy & M); eauto.
      exists y. split; auto. apply in_app_iff. auto.
  - eapply TD; eauto.
  - simpl in E. rewrite totree_many in E. apply bind_ok_iff in E as (ts & Ts & E). eapply reduce_keeps; [|exact E]. eauto.
  - simpl in E. rewrite totree_many in E. apply bind_ok_iff in E as (ts & Ts & E). eapply reduce_keeps; [|exact E]. eauto.
Qed.
Lemma axis_names_kept m e t : In m (enames e) -> axis_tree tree_sorted e = Ok t -> mentions m t.
Proof. intros I E. destruct e; try (eapply names_kept; eauto; fail). destruct I. Qed.

Section Fill.
  Variables str_const repr_const : cst -> string.
  Variable repr_number : Qc -> string.
  Variable defs : string -> option expr.
  Variable cast : Num -> Z.
  Variable rnd : Qc -> Num.
  Variable user : string -> list arg -> res val.
  Variable order : tree -> list tree -> list tree.
  Variable srcs_of : list tree -> list tree.
  Hypothesis Ho : is_order order.
  Hypothesis Hs : forall gs, Permutation (srcs_of gs) (sources gs).
  Notation str := (str str_const repr_const repr_number).
  Notation newf := (new_filled str_const repr_const repr_number py_sorted tree_sorted defs cast rnd user order srcs_of).
  Notation newh := (new_hist py_sorted tree_sorted defs).
  Notation parsedd := (parse_top py_sorted defs).

  Lemma newf_one a s e h weight filt d : newh [(a, s)] weight filt = Ok h -> parsedd s = Ok e ->
    newf [(a, s)] weight filt (Some (FData d)) = newf [(a, s)] weight filt (Some (FDict (fun n => if String.eqb n (str e) then Some d else None))).
  Proof. intros H P. unfold new_filled. rewrite H. cbn [bind mapM snd]. rewrite P. reflexivity. Qed.

  Lemma newf_missing axes weight filt h A m : newh axes weight filt = Ok h -> hist_mentions h m -> ~ available A m ->
    exists e, newf axes weight filt (Some (FDict A)) = Err e.
  Proof.
    intros H M N. unfold new_filled. rewrite H. cbn [bind]. destruct (mapM _ axes) as [es|e]; [|exists e; reflexivity]. cbn [bind fill_fields].
    destruct (fill_missing cast rnd user order h (srcs_of (hist_goals h)) Ho (Hs _) A m CNone M N) as (e & ->). eauto.
  Qed.

  Lemma one_mentions a s e t h weight filt m : newh [(a, s)] weight filt = Ok h -> parsedd s = Ok e ->
    axis_tree tree_sorted e = Ok t -> mentions m t -> hist_mentions h m.
  Proof.
    intros H P T M. destruct (new_inv defs _ _ _ _ H) as (p & fl & HG & HF & HP & EP & _). exists t. split; auto. unfold hist_exprs. rewrite EP, !in_app_iff.
    assert (G : forall (keep : axis -> bool) qs, keep a = true -> Forall2 (low defs) (filter (fun p => keep (fst p)) [(a, s)]) qs -> In t (map snd qs)).
    { intros keep qs K F. cbn [filter fst] in F. rewrite K in F. inversion F as [|x y l l' (_ & e' & P' & T') _]; subst. cbn [snd] in P'.
      replace e' with e in T' by congruence. left. congruence. }
    destruct a; solve [left; eapply (G is_group); eauto | right; left; eapply (G is_fixed); eauto | right; right; left; eapply (G is_profile); eauto].
  Qed.
End Fill.
