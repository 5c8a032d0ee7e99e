(** Proofs about the schedule and the instruction machine. *)
From Coq Require Import String Permutation.
From Verif Require Import Num Base Tree Instr InstrSpec.

Lemma requires_not_const t x : In x (requires t) -> is_const x = false.
Proof.
  destruct t; simpl; try tauto. rewrite filter_In. intros [_ H].
  destruct (is_const x); simpl in H; congruence.
Qed.

Lemma requires_call f args x :
  In x (requires (TCall f args)) <-> In x args /\ is_const x = false.
Proof. simpl. rewrite filter_In. destruct (is_const x); simpl; intuition congruence. Qed.

Lemma incl_dec_forallb l s : forallb (fun y => mem y s) l = true <-> incl l s.
Proof.
  rewrite forallb_forall. unfold incl. split; intros H x Hx.
  - apply mem_In; auto.
  - apply mem_In; auto.
Qed.

Lemma grown_self t : In t (grown t).
Proof. destruct t; simpl; auto. Qed.

Lemma grown_requires t : forall x, In x (grown t) -> incl (requires x) (grown t).
Proof.
  induction t as [c|s|s b|c|f args IH] using tree_ind'; intros x Hx;
    try (simpl in Hx; destruct Hx as [<-|[]]; intros y []).
  change (grown (TCall f args)) with
    (TCall f args :: flat_map (fun a => if is_const a then [] else grown a) args) in *.
  destruct Hx as [<-|Hx].
  - intros y Hy. apply requires_call in Hy. destruct Hy as [Hy Hc].
    right. apply in_flat_map. exists y. rewrite Hc. split; auto using grown_self.
  - apply in_flat_map in Hx. destruct Hx as (a & Ha & Hx).
    destruct (is_const a) eqn:Ec; [destruct Hx|].
    rewrite Forall_forall in IH. intros y Hy. right. apply in_flat_map. exists a.
    rewrite Ec. split; auto. eapply IH; eauto.
Qed.

Lemma table_closed goals x : In x (table goals) -> incl (requires x) (table goals).
Proof.
  unfold table. intros Hx y Hy. rewrite nodup_In in *.
  apply in_flat_map in Hx. destruct Hx as (g & Hg & Hx).
  apply in_flat_map. exists g. split; auto. eapply grown_requires; eauto.
Qed.

Lemma table_goal goals g : In g goals -> In g (table goals).
Proof.
  intros. unfold table. rewrite nodup_In. apply in_flat_map. exists g. auto using grown_self.
Qed.

Lemma sources1_grown t : incl (sources1 t) (grown t).
Proof.
  induction t as [c|s|s b|c|f args IH] using tree_ind'; intros x Hx; simpl in Hx |- *; auto.
  - right. apply in_flat_map in Hx. destruct Hx as (a & Ha & Hx).
    apply in_flat_map. exists a. split; auto. destruct (is_const a); auto.
    rewrite Forall_forall in IH. apply IH; auto.
Qed.

Lemma sources_table goals : incl (sources goals) (table goals).
Proof.
  unfold sources, table. intros x. rewrite !nodup_In, !in_flat_map.
  intros (g & Hg & Hx). exists g. split; auto. apply sources1_grown; auto.
Qed.

Definition is_field (t : tree) : bool :=
  match t with TName _ | TPred _ _ | TBcast _ => true | _ => false end.

Lemma sources1_field t : forall x, In x (sources1 t) -> is_field x = true.
Proof.
  induction t as [c|s|s b|c|f args IH] using tree_ind'; intros x Hx; simpl in Hx;
    try (destruct Hx as [<-|[]]; reflexivity).
  - destruct Hx.
  - apply in_flat_map in Hx. destruct Hx as (a & Ha & Hx).
    destruct (is_const a); [destruct Hx|]. rewrite Forall_forall in IH. eapply IH; eauto.
Qed.

Lemma sources_field goals x : In x (sources goals) -> is_field x = true.
Proof.
  unfold sources. rewrite nodup_In, in_flat_map. intros (g & _ & H). eapply sources1_field; eauto.
Qed.

Lemma filter_len {A} (p : A -> bool) l : length (filter p l) <= length l.
Proof. induction l as [|a l IH]; simpl; auto. destruct (p a); simpl; lia. Qed.

Lemma in_not_nil {A} (x : A) l : In x l -> l <> [].
Proof. destruct l; [intros []|congruence]. Qed.

(** * The walk *)
Section WalkProofs.
  Variable order : tree -> list tree -> list tree.
  Hypothesis Horder : is_order order.
  Variable tab : list tree.
  Hypothesis Htab : NoDup tab.

  Definition unseen (seen : list tree) : nat := length (filter (fun x => negb (mem x seen)) tab).

  Lemma unseen_mono s s' : incl s s' -> unseen s' <= unseen s.
  Proof.
    intros Hi. unfold unseen. clear Htab. induction tab as [|a l IH]; simpl; auto.
    destruct (mem a s) eqn:E1; destruct (mem a s') eqn:E2; simpl; try lia.
    apply mem_In in E1. apply Hi in E1. apply mem_In in E1. congruence.
  Qed.

  Lemma unseen_cons x s : In x tab -> ~ In x s -> unseen (x :: s) < unseen s.
  Proof.
    intros Hx Hs. unfold unseen. clear Htab.
    assert (Hle : forall l, length (filter (fun y => negb (mem y (x :: s))) l)
                            <= length (filter (fun y => negb (mem y s)) l)).
    { induction l as [|a l IH]; simpl; auto.
      destruct (mem a s) eqn:E1; destruct (mem a (x :: s)) eqn:E2; simpl; try lia.
      apply mem_In in E1. apply mem_nIn in E2. elim E2. right; auto. }
    induction tab as [|a l IH]; [destruct Hx|].
    simpl. destruct Hx as [->|Hx].
    - replace (mem x (x :: s)) with true by (symmetry; apply mem_In; left; auto).
      replace (mem x s) with false by (symmetry; apply mem_nIn; auto).
      simpl. specialize (Hle l). lia.
    - specialize (IH Hx).
      destruct (mem a s) eqn:E1; destruct (mem a (x :: s)) eqn:E2; simpl; try lia.
      apply mem_In in E1. apply mem_nIn in E2. elim E2. right; auto.
  Qed.

  (** Nodes appear after everything they require. *)
  Fixpoint ordered (seen : list tree) : Prop :=
    match seen with
    | [] => True
    | x :: rest => incl (requires x) rest /\ ~ In x rest /\ In x tab /\
                   (is_field x = true \/ requires x <> []) /\ ordered rest
    end.

  Lemma visit_spec fuel : forall node seen,
    In node tab -> unseen seen <= fuel -> incl (requires node) seen ->
    (is_field node = true \/ requires node <> []) -> ordered seen ->
    let s' := visit order tab fuel node seen in
    incl seen s' /\ In node s' /\ ordered s' /\
    (forall x, In x tab -> requires x <> [] -> incl (requires x) s' ->
               In x s' \/ incl (requires x) seen).
  Proof.
    induction fuel as [|fuel IH]; intros node seen Hn Hf Hr Hfr Ho.
    - simpl. split; [apply incl_refl|]. split; [|split; auto].
      destruct (in_dec tree_eq_dec node seen) as [|Hni]; auto.
      assert (H := unseen_cons _ _ Hn Hni). lia.
    - cbn [visit]. destruct (mem node seen) eqn:E.
      + apply mem_In in E. cbv zeta. repeat split; auto using incl_refl.
      + apply mem_nIn in E.
        set (L := order node (requiredby tab node)).
        assert (HL : forall x, In x L <-> In x tab /\ In node (requires x)).
        { intros x. unfold L. split; intros H.
          - apply (Permutation_in _ (Horder _ _)) in H. unfold requiredby in H.
            apply filter_In in H. rewrite mem_In in H. auto.
          - apply (Permutation_in _ (Permutation_sym (Horder _ _))). unfold requiredby.
            apply filter_In. rewrite mem_In. auto. }
        assert (Hu : unseen (node :: seen) <= fuel).
        { assert (H := unseen_cons _ _ Hn E). lia. }
        assert (Ho1 : ordered (node :: seen)) by (simpl; auto).
        set (F := fun s x => if forallb (fun y => mem y s) (requires x)
                             then visit order tab fuel x s else s).
        assert (G : forall R s, (forall x, In x R -> In x tab /\ In node (requires x)) ->
                    incl (node :: seen) s -> ordered s ->
                    (forall x, In x tab -> requires x <> [] -> incl (requires x) s ->
                       In x s \/ incl (requires x) seen \/ (incl (requires x) (node :: seen) /\ In x R)) ->
                    let s' := fold_left F R s in
                    incl s s' /\ ordered s' /\
                    (forall x, In x tab -> requires x <> [] -> incl (requires x) s' ->
                       In x s' \/ incl (requires x) seen)).
        { induction R as [|z R IHR]; intros s HR Hs Hos Hinv.
          - simpl. repeat split; auto using incl_refl. intros x H1 H2 H3.
            destruct (Hinv x H1 H2 H3) as [?|[?|[_ []]]]; auto.
          - cbn [fold_left].
            assert (EF : F s z = if forallb (fun y => mem y s) (requires z)
                                 then visit order tab fuel z s else s) by reflexivity.
            destruct (forallb (fun y => mem y s) (requires z)) eqn:Ez; rewrite EF; clear EF.
            + apply incl_dec_forallb in Ez.
              destruct (HR z (or_introl eq_refl)) as [Hz1 Hz2].
              assert (Hus : unseen s <= fuel).
              { assert (H := unseen_mono _ _ Hs). lia. }
              destruct (IH z s Hz1 Hus Ez (or_intror (in_not_nil _ _ Hz2)) Hos) as (J1 & J2 & J3 & J4).
              destruct (IHR (visit order tab fuel z s)) as (K1 & K2 & K3); auto.
              * intros; apply HR; right; auto.
              * eapply incl_tran; eauto.
              * intros x H1 H2 H3. destruct (J4 x H1 H2 H3) as [?|H4]; auto.
                destruct (Hinv x H1 H2 H4) as [?|[?|[? [<-|?]]]]; auto.
              * repeat split; auto. eapply incl_tran; eauto.
            + assert (Ez' : ~ incl (requires z) s).
              { intros H. apply incl_dec_forallb in H. congruence. }
              apply IHR; auto.
              * intros; apply HR; right; auto.
              * intros x H1 H2 H3. destruct (Hinv x H1 H2 H3) as [?|[?|[H4 [<-|?]]]]; auto.
                elim Ez'; auto. }
        destruct (G L (node :: seen)) as (K1 & K2 & K3); auto using incl_refl.
        * intros; apply HL; auto.
        * intros x H1 H2 H3.
          destruct (in_dec tree_eq_dec node (requires x)) as [Hi|Hi].
          -- right; right. split; auto. apply HL; auto.
          -- right; left. intros y Hy. destruct (H3 y Hy) as [<-|]; auto. contradiction.
        * cbv zeta. repeat split; auto.
          -- eapply incl_tran; [|exact K1]. apply incl_tl, incl_refl.
          -- apply K1. left; auto.
  Qed.

  Lemma walk_spec srcs :
    incl srcs tab -> (forall x, In x srcs -> is_field x = true) ->
    let s' := fold_left (fun s x => visit order tab (walk_fuel tab) x s) srcs [] in
    incl srcs s' /\ ordered s' /\
    (forall x, In x tab -> requires x <> [] -> incl (requires x) s' -> In x s').
  Proof.
    intros Hin Hreq.
    assert (G : forall R s, incl R srcs -> ordered s ->
      (forall x, In x tab -> requires x <> [] -> incl (requires x) s -> In x s) ->
      let s' := fold_left (fun s x => visit order tab (walk_fuel tab) x s) R s in
      incl s s' /\ incl R s' /\ ordered s' /\
      (forall x, In x tab -> requires x <> [] -> incl (requires x) s' -> In x s')).
    { induction R as [|z R IHR]; intros s HR Hos Hinv; cbv zeta.
      - simpl. repeat split; auto using incl_refl. intros ? [].
      - cbn [fold_left].
        assert (Hz : In z srcs) by (apply HR; left; auto).
        destruct (visit_spec (walk_fuel tab) z s) as (J1 & J2 & J3 & J4); auto.
        + unfold walk_fuel, unseen. assert (H := filter_len (fun x => negb (mem x s)) tab). lia.
        + assert (H := Hreq z Hz). destruct z; try discriminate; intros ? [].
        + destruct (IHR (visit order tab (walk_fuel tab) z s)) as (K1 & K2 & K3 & K4); auto.
          * intros y Hy. apply HR. right; auto.
          * intros x H1 H2 H3. destruct (J4 x H1 H2 H3); auto.
          * repeat split; auto.
            -- eapply incl_tran; eauto.
            -- intros y [<-|Hy]; auto. }
    destruct (G srcs []) as (_ & H1 & H2 & H3); auto using incl_refl.
    - exact I.
    - intros x _ Hne Hi. destruct (requires x) as [|y l]; [congruence|].
      destruct (Hi y); left; auto.
  Qed.
End WalkProofs.

(** * The instruction machine *)
Fixpoint topo (done nodes : list tree) : Prop :=
  match nodes with
  | [] => True
  | y :: l => incl (requires y) done /\ ~ In y done /\ is_const y = false /\ topo (y :: done) l
  end.

Lemma topo_ext nodes : forall d d', (forall x, In x d <-> In x d') -> topo d nodes -> topo d' nodes.
Proof.
  induction nodes as [|y l IH]; simpl; auto. intros d d' E (H1 & H2 & H3 & H4).
  repeat split; auto.
  - intros x Hx. apply E. auto.
  - intros H. apply H2. apply E. auto.
  - eapply IH; [|exact H4]. intros x. simpl. rewrite E. tauto.
Qed.

Lemma topo_app l1 : forall d l2, topo d (l1 ++ l2) <-> topo d l1 /\ topo (rev l1 ++ d) l2.
Proof.
  induction l1 as [|y l IH]; intros d l2; simpl.
  - tauto.
  - rewrite IH, <- app_assoc. simpl. tauto.
Qed.

Lemma ordered_topo tab s :
  (forall x, In x s -> is_const x = false) -> ordered tab s -> topo [] (rev s).
Proof.
  induction s as [|x s IH]; simpl; auto. intros Hc (H1 & H2 & H3 & H5 & H4).
  rewrite topo_app. split; [apply IH; auto|].
  rewrite rev_involutive, app_nil_r. simpl. repeat split; auto.
Qed.

Section MachineProofs.
  Variable V : Type.
  Variable constv : cst -> V.
  Variable lib : string -> list V -> res V.
  Variable param : tree -> res V.
  Notation teval := (teval V constv lib param).
  Notation run := (run V constv lib param).
  Notation calculate := (calculate V constv lib).
  Notation lookup := (lookup V).

  (** The nested fixpoints as [mapM]. *)
  Lemma teval_call f args : teval (TCall f args) = do vs <- mapM teval args; lib f vs.
  Proof.
    simpl. f_equal. induction args as [|a l IH]; simpl; auto.
    destruct (teval a); simpl; auto. rewrite IH. reflexivity.
  Qed.
  Lemma calculate_call s f args :
    calculate s (RCall f args) = do vs <- mapM (calculate s) args; lib f vs.
  Proof.
    simpl. f_equal. induction args as [|a l IH]; simpl; auto.
    destruct (calculate s a); simpl; auto. rewrite IH. reflexivity.
  Qed.
  Lemma rename_call names f args : find_name (TCall f args) names = None ->
    rename names (TCall f args) = rmap (RCall f) (mapM (rename names) args).
  Proof.
    intros E. simpl. rewrite E. f_equal. induction args as [|a l IH]; simpl; auto.
    destruct (rename names a); simpl; auto. clear E. 
    assert (E' : forall l, (fix go (l : list tree) : res (list rtree) :=
         match l with
         | [] => Ok []
         | a :: l0 => do r <- rename names a; (do rs <- go l0; Ok (r :: rs))
         end) l = mapM (rename names) l).
    { clear. induction l as [|a l IH]; simpl; auto. rewrite IH. reflexivity. }
    rewrite E'. reflexivity.
  Qed.

  Lemma rename_var names t n : find_name t names = Some n -> is_const t = false ->
    rename names t = Ok (RVar n).
  Proof. intros E Hc. destruct t; simpl in *; try discriminate; rewrite E; reflexivity. Qed.

  Lemma args_ok names s args :
    (forall a, In a args -> is_const a = false ->
       exists n v, find_name a names = Some n /\ lookup n s = Some v /\ teval a = Ok v) ->
    exists rs vs, mapM (rename names) args = Ok rs /\ mapM (calculate s) rs = Ok vs /\
                  mapM teval args = Ok vs.
  Proof.
    induction args as [|a l IH]; intros H.
    - exists [], []. auto.
    - destruct IH as (rs & vs & E1 & E2 & E3). { intros; apply H; simpl; auto. }
      simpl. rewrite E1, E3.
      destruct (is_const a) eqn:Ec.
      + destruct a; try discriminate. exists (RConst c :: rs), (constv c :: vs).
        simpl. rewrite E2. auto.
      + destruct (H a (or_introl eq_refl) Ec) as (n & v & F1 & F2 & F3).
        rewrite (rename_var _ _ _ F1 Ec), F3.
        exists (RVar n :: rs), (v :: vs). simpl. rewrite F2, E2. auto.
  Qed.

  Lemma lookup_remove n m s : lookup n (remove V m s) = if Nat.eqb n m then None else lookup n s.
  Proof.
    induction s as [|[k v] s IH]; simpl.
    - destruct (Nat.eqb n m); auto.
    - destruct (Nat.eqb m k) eqn:E; simpl.
      + apply Nat.eqb_eq in E. subst k. rewrite IH. destruct (Nat.eqb n m) eqn:E2; auto.
      + destruct (Nat.eqb n k) eqn:E2; auto.
        apply Nat.eqb_eq in E2; subst k. apply Nat.eqb_neq in E.
        destruct (Nat.eqb n m) eqn:E3; auto. apply Nat.eqb_eq in E3. congruence.
  Qed.

  Lemma run_deletes d : forall s out rest,
    NoDup d -> (forall n, In n d -> lookup n s <> None) ->
    exists s', run (map Delete d ++ rest) s out = run rest s' out /\
      (forall n, ~ In n d -> lookup n s' = lookup n s) /\
      (forall p, In p s' <-> In p s /\ ~ In (fst p) d).
  Proof.
    induction d as [|n d IH]; intros s out rest Hnd Hin.
    - exists s. simpl. intuition.
    - inversion Hnd; subst. simpl.
      destruct (lookup n s) eqn:E; [|exfalso; apply (Hin n); simpl; auto].
      destruct (IH (remove V n s) out rest) as (s' & R & P1 & P2); auto.
      { intros m Hm. rewrite lookup_remove. destruct (Nat.eqb m n) eqn:Em.
        - apply Nat.eqb_eq in Em. congruence.
        - apply Hin. simpl; auto. }
      exists s'. split; [exact R|]. split.
      + intros m Hm. rewrite P1 by tauto. rewrite lookup_remove.
        destruct (Nat.eqb m n) eqn:Em; auto. apply Nat.eqb_eq in Em. subst. elim Hm; auto.
      + intros p. rewrite P2. unfold remove. rewrite filter_In. rewrite negb_true_iff, Nat.eqb_neq.
        split; intuition.
  Qed.

  Definition needed (later : list tree) (x : tree) : bool :=
    existsb (fun y => mem x (requires y)) later.

  Lemma needed_spec later x : needed later x = true <-> exists y, In y later /\ In x (requires y).
  Proof.
    unfold needed. rewrite existsb_exists. split; intros (y & H1 & H2); exists y;
      rewrite mem_In in *; auto.
  Qed.

  Record inv (done nodes : list tree) (k : nat) (names : list (tree * nat))
      (live : list (nat * tree)) (s : symtab V) : Prop := {
    i_done : forall x, In x done <-> find_name x names <> None;
    i_lt : forall x n, find_name x names = Some n -> n < k;
    i_inj : forall x y n, find_name x names = Some n -> find_name y names = Some n -> x = y;
    i_live : forall n x, In (n, x) live -> find_name x names = Some n /\
               exists v, lookup n s = Some v /\ teval x = Ok v;
    i_all : forall x, In x done -> needed nodes x = true -> exists n, In (n, x) live;
    i_needed : forall n x, In (n, x) live -> needed nodes x = true;
    i_nodup : NoDup (map fst live);
    i_dom : forall p, In p s -> In (fst p) (map fst live)
  }.

  Lemma run_emit goals nodes : forall done k names live s out,
    topo done nodes -> inv done nodes k names live s ->
    exists is, emit goals nodes k names live = Ok is /\
      ((exists ex, run is s out = Ok ([], ex ++ out) /\
          (forall y, In y nodes -> exists v, teval y = Ok v) /\
          map fst ex = rev (filter (fun y => mem y goals) nodes) /\
          (forall g v, In (g, v) ex -> teval g = Ok v)) \/
       (exists y e, In y nodes /\ teval y = Err e /\ run is s out = Err e)).
  Proof.
    induction nodes as [|node later IH]; intros done k names live s out Ht Hi.
    - exists []. split; auto. left. exists []. simpl.
      assert (Es : s = []).
      { destruct s as [|p s]; auto. assert (H := i_dom _ _ _ _ _ _ Hi p (or_introl eq_refl)).
        apply in_map_iff in H. destruct H as ((n & x) & _ & H).
        apply (i_needed _ _ _ _ _ _ Hi) in H. discriminate. }
      subst s. repeat split; auto; intros ? ; tauto.
    - destruct Ht as (T1 & T2 & T3 & T4).
      assert (Hfresh : find_name node names = None).
      { destruct (find_name node names) eqn:E; auto. elim T2. apply (i_done _ _ _ _ _ _ Hi).
        congruence. }
      assert (Hreq : forall x, In x (requires node) ->
                exists n v, find_name x names = Some n /\ lookup n s = Some v /\ teval x = Ok v).
      { intros x Hx. destruct (i_all _ _ _ _ _ _ Hi x) as (n & Hn); auto.
        { apply needed_spec. exists node. simpl; auto. }
        destruct (i_live _ _ _ _ _ _ Hi n x Hn) as (E1 & v & E2 & E3). exists n, v. auto. }
      (* the first instruction *)
      assert (Hfirst : exists first,
        (match node with
         | TConst _ => Err NotImplementedError
         | TName _ | TPred _ _ | TBcast _ => Ok (Param k node)
         | TCall _ _ => do e <- rename names node; Ok (Assign k e)
         end) = Ok first /\
        forall rest, run (first :: rest) s out =
                     do v <- teval node; run rest ((k, v) :: s) out).
      { destruct node as [c|sn|sn b|c|f args]; try discriminate.
        1-3: eexists; split; [reflexivity|]; intros; reflexivity.
        destruct (args_ok names s args) as (rs & vs & E1 & E2 & E3).
        { intros a Ha Hc. apply Hreq. apply requires_call; auto. }
        rewrite rename_call by exact Hfresh. rewrite E1. eexists. split; [reflexivity|].
        intros rest. change (run (Assign k (RCall f rs) :: rest) s out) with
          (do v <- calculate s (RCall f rs); run rest ((k, v) :: s) out).
        rewrite calculate_call, E2, teval_call, E3. reflexivity. }
      destruct Hfirst as (first & Ef & Rf).
      set (live1 := live ++ [(k, node)]).
      set (live2 := filter (fun p => existsb (fun y => mem (snd p) (requires y)) later) live1).
      set (d := dead later live1).
      assert (Hk : forall n x, In (n, x) live -> n < k).
      { intros n x H. apply (i_live _ _ _ _ _ _ Hi) in H. destruct H as (H & _).
        eapply i_lt; eauto. }
      assert (Hnd1 : NoDup (map fst live1)).
      { unfold live1. rewrite map_app. simpl.
        apply (Permutation_NoDup (Permutation_cons_append _ _)). constructor.
        - intros H. apply in_map_iff in H. destruct H as ((n & x) & E & H). simpl in E. subst n.
          apply Hk in H. lia.
        - apply (i_nodup _ _ _ _ _ _ Hi). }
      destruct (teval node) as [v|e] eqn:Ev.
      + (* evaluates *)
        assert (Hlive1 : forall n x, In (n, x) live1 ->
                  find_name x ((node, k) :: names) = Some n /\
                  exists w, lookup n ((k, v) :: s) = Some w /\ teval x = Ok w).
        { intros n x H. unfold live1 in H. apply in_app_or in H. destruct H as [H|[H|[]]].
          - destruct (i_live _ _ _ _ _ _ Hi n x H) as (E1 & w & E2 & E3).
            simpl. destruct (tree_eq_dec x node) as [->|]; [congruence|]. split; auto.
            exists w. assert (n < k) by eauto. destruct (Nat.eqb n k) eqn:E; auto.
            apply Nat.eqb_eq in E. lia.
          - injection H as <- <-. simpl. destruct (tree_eq_dec node node); [|congruence].
            rewrite Nat.eqb_refl. split; auto. exists v; auto. }
        assert (Hd : forall n, In n d <-> exists x, In (n, x) live1 /\ needed later x = false).
        { intros n. unfold d, dead. rewrite in_map_iff. split.
          - intros ((m & x) & E & H). simpl in E. subst m. apply filter_In in H.
            destruct H as (H1 & H2). exists x. split; auto. apply negb_true_iff in H2. exact H2.
          - intros (x & H1 & H2). exists (n, x). split; auto. apply filter_In. split; auto.
            apply negb_true_iff. exact H2. }
        assert (Hdnd : NoDup d).
        { unfold d, dead. revert Hnd1. generalize live1.
          induction live0 as [|p l IHl]; simpl; intros H; [constructor|].
          inversion H; subst. destruct (negb _); simpl; auto. constructor; auto.
          intros Hc. apply H2. apply in_map_iff in Hc. destruct Hc as (q & Eq & Hq).
          apply filter_In in Hq. apply in_map_iff. exists q. tauto. }
        assert (Hs' : forall n x, In (n, x) live2 <-> In (n, x) live1 /\ needed later x = true).
        { intros n x. unfold live2. rewrite filter_In. reflexivity. }
        (* the inductive step, for the symbol table after the deletions *)
        assert (Hstep : forall s', (forall n, ~ In n d -> lookup n s' = lookup n ((k, v) :: s)) ->
                   (forall p, In p s' <-> In p ((k, v) :: s) /\ ~ In (fst p) d) ->
                   inv (node :: done) later (S k) ((node, k) :: names) live2 s').
        { intros s' P1 P2. constructor.
          - intros x. simpl. destruct (tree_eq_dec x node) as [->|Hne].
            + split; [congruence|auto].
            + rewrite <- (i_done _ _ _ _ _ _ Hi). split; [intros [?|?]; congruence || auto|auto].
          - intros x n. simpl. destruct (tree_eq_dec x node); intros H.
            + injection H as <-. lia.
            + apply (i_lt _ _ _ _ _ _ Hi) in H. lia.
          - intros x y n. simpl.
            destruct (tree_eq_dec x node) as [->|]; destruct (tree_eq_dec y node) as [->|];
              intros H1 H2; auto.
            + injection H1 as <-. apply (i_lt _ _ _ _ _ _ Hi) in H2. lia.
            + injection H2 as <-. apply (i_lt _ _ _ _ _ _ Hi) in H1. lia.
            + eapply i_inj; eauto.
          - intros n x H. apply Hs' in H. destruct H as (H & Hn).
            destruct (Hlive1 n x H) as (E1 & w & E2 & E3). split; auto. exists w. split; auto.
            rewrite P1; auto. intros Hd'. apply Hd in Hd'. destruct Hd' as (x' & H' & Hn').
            assert (x' = x).
            { destruct (Hlive1 n x' H') as (E1' & _).
              revert E1 E1'. simpl.
              destruct (tree_eq_dec x node) as [->|]; destruct (tree_eq_dec x' node) as [->|];
                intros; auto.
              - injection E1 as <-. apply (i_lt _ _ _ _ _ _ Hi) in E1'. lia.
              - injection E1' as <-. apply (i_lt _ _ _ _ _ _ Hi) in E1. lia.
              - eapply i_inj; eauto. }
            subst. congruence.
          - intros x [<-|Hx] Hn.
            + exists k. apply Hs'. split; auto. unfold live1. apply in_or_app. simpl; auto.
            + destruct (i_all _ _ _ _ _ _ Hi x Hx) as (n & Hin).
              { apply needed_spec in Hn. destruct Hn as (y & ? & ?). apply needed_spec.
                exists y. simpl; auto. }
              exists n. apply Hs'. split; auto. unfold live1. apply in_or_app; auto.
          - intros n x H. apply Hs' in H. tauto.
          - unfold live2. revert Hnd1. generalize live1.
            induction live0 as [|p l IHl]; simpl; intros H; [constructor|].
            inversion H; subst. destruct (existsb _ _); simpl; auto. constructor; auto.
            intros Hc. apply H2. apply in_map_iff in Hc. destruct Hc as (q & Eq & Hq).
            apply filter_In in Hq. apply in_map_iff. exists q. tauto.
          - intros p Hp. apply P2 in Hp. destruct Hp as (Hp & Hnd).
            assert (Hin1 : In (fst p) (map fst live1)).
            { unfold live1. rewrite map_app. apply in_or_app. destruct Hp as [<-|Hp].
              - right; simpl; auto.
              - left. apply (i_dom _ _ _ _ _ _ Hi); auto. }
            apply in_map_iff in Hin1. destruct Hin1 as ((n & x) & E & Hin1).
            simpl in E. rewrite <- E in *. apply in_map_iff. exists (n, x). split; auto.
            apply Hs'. split; auto. destruct (needed later x) eqn:En; auto.
            elim Hnd. apply Hd. exists x; auto. }
        assert (Hdel : forall n, In n d -> lookup n ((k, v) :: s) <> None).
        { intros n H. apply Hd in H. destruct H as (x & H & _).
          destruct (Hlive1 n x H) as (_ & w & E & _). congruence. }
        (* emission does not depend on the values: use the state after the deletions *)
        set (out1 := if mem node goals then (node, v) :: out else out).
        destruct (run_deletes d ((k, v) :: s) out1 [] Hdnd Hdel) as (s0 & _ & Q1 & Q2).
        destruct (IH (node :: done) (S k) ((node, k) :: names) live2 s0 out1 T4 (Hstep s0 Q1 Q2))
          as (is & Eis & _).
        destruct (run_deletes d ((k, v) :: s) out1 is Hdnd Hdel) as (s' & R' & P1 & P2).
        destruct (IH (node :: done) (S k) ((node, k) :: names) live2 s' out1 T4 (Hstep s' P1 P2))
          as (is' & Eis' & Hres).
        rewrite Eis in Eis'. injection Eis' as <-.
        exists (first :: (if mem node goals then [Export k node] else []) ++ map Delete d ++ is).
        split.
        { cbn [emit]. rewrite Ef. cbn [bind]. fold live1. fold live2. fold d. rewrite Eis.
          reflexivity. }
        assert (Erun : run (first :: (if mem node goals then [Export k node] else [])
                              ++ map Delete d ++ is) s out = run is s' out1).
        { rewrite Rf, <- R'. cbn [bind]. unfold out1. destruct (mem node goals); auto.
          simpl. rewrite Nat.eqb_refl. reflexivity. }
        rewrite Erun. destruct Hres as [(ex & E1 & E2 & E3 & E4)|(y & e & Hy & E1 & E2)].
        * left. exists (ex ++ if mem node goals then [(node, v)] else []).
          split; [|split; [|split]].
          -- rewrite E1. unfold out1. destruct (mem node goals); rewrite <- app_assoc; reflexivity.
          -- intros y [<-|Hy]; eauto.
          -- rewrite map_app, E3. simpl. destruct (mem node goals); simpl; auto.
             rewrite app_nil_r. reflexivity.
          -- intros g w H. apply in_app_or in H. destruct H as [H|H]; auto.
             destruct (mem node goals); [|destruct H]. destruct H as [H|[]]. congruence.
        * right. exists y, e. simpl. auto.
      + (* does not evaluate: the emission is the same, the run stops here *)
        assert (Hem : exists is, emit goals later (S k) ((node, k) :: names) live2 = Ok is).
        { clear -T4 Hi Hfresh Hk. 
          assert (G : forall nodes done k names live, topo done nodes ->
             (forall x, In x done -> find_name x names <> None) ->
             (forall x, find_name x names <> None -> In x done) ->
             exists is, emit goals nodes k names live = Ok is).
          { clear. induction nodes as [|node later IH]; intros done k names live Ht Hn Hn'.
            - exists []; auto.
            - destruct Ht as (T1 & T2 & T3 & T4). cbn [emit].
              assert (Ef : exists first, (match node with
                 | TConst _ => Err NotImplementedError
                 | TName _ | TPred _ _ | TBcast _ => Ok (Param k node)
                 | TCall _ _ => do e <- rename names node; Ok (Assign k e)
                 end) = Ok first).
              { destruct node as [c|sn|sn b|c|f args]; try discriminate; try (eexists; reflexivity).
                rewrite rename_call.
                2: { destruct (find_name (TCall f args) names) eqn:E; auto.
                     elim T2. apply Hn'. congruence. }
                assert (E : exists rs, mapM (rename names) args = Ok rs).
                { assert (Hr : forall a, In a args -> is_const a = false -> find_name a names <> None).
                  { intros a Ha Hc. apply Hn. apply T1. apply requires_call; auto. }
                  clear -Hr. induction args as [|a l IH]; [exists []; auto|].
                  destruct IH as (rs & E). { intros; apply Hr; simpl; auto. }
                  simpl. rewrite E. destruct (is_const a) eqn:Ec.
                  - destruct a; try discriminate. simpl. eexists; reflexivity.
                  - destruct (find_name a names) eqn:Ea.
                    + rewrite (rename_var _ _ _ Ea Ec). simpl. eexists; reflexivity.
                    + elim (Hr a); simpl; auto. }
                destruct E as (rs & ->). simpl. eexists; reflexivity. }
              destruct Ef as (first & ->). cbn [bind].
              destruct (IH (node :: done) (S k) ((node, k) :: names)
                 (filter (fun p => existsb (fun y => mem (snd p) (requires y)) later)
                    (live ++ [(k, node)])) T4) as (is & ->).
              + intros x [<-|Hx]; simpl.
                * destruct (tree_eq_dec node node); congruence.
                * destruct (tree_eq_dec x node); [congruence|auto].
              + intros x. simpl. destruct (tree_eq_dec x node) as [->|]; auto.
              + eexists. reflexivity. }
          eapply G; [exact T4| |].
          - intros x [<-|Hx]; simpl.
            + destruct (tree_eq_dec node node); congruence.
            + destruct (tree_eq_dec x node); [congruence|]. apply (i_done _ _ _ _ _ _ Hi); auto.
          - intros x. simpl. destruct (tree_eq_dec x node) as [->|]; auto.
            intros H. right. apply (i_done _ _ _ _ _ _ Hi); auto. }
        destruct Hem as (is & Eis).
        exists (first :: (if mem node goals then [Export k node] else []) ++ map Delete d ++ is).
        split.
        { cbn [emit]. rewrite Ef. cbn [bind]. fold live1. fold live2. fold d. rewrite Eis.
          reflexivity. }
        right. exists node, e. split; [left; auto|]. split; auto. rewrite Rf. reflexivity.
  Qed.
End MachineProofs.

(** * Everything together *)
Lemma ordered_in tab s x : ordered tab s -> In x s ->
  In x tab /\ (is_field x = true \/ requires x <> []).
Proof.
  induction s as [|y s IH]; simpl; [tauto|]. intros (H1 & H2 & H3 & H4 & H5) [<-|H]; auto.
Qed.

Lemma ordered_dd tab s : ordered tab s -> forall x, In x s -> data_driven x.
Proof.
  induction s as [|y s IH]; simpl; [tauto|]. intros (H1 & H2 & H3 & H4 & H5) x [<-|H]; auto.
  destruct y as [c|sn|sn b|c|f args]; try (constructor; fail).
  - simpl in H4. destruct H4; congruence.
  - destruct H4 as [H4|H4]; [discriminate|]. constructor.
    + destruct (requires (TCall f args)) as [|a l] eqn:E; [congruence|]. exists a.
      apply (requires_call f args). rewrite E. left; auto.
    + intros a Ha Hc. apply IH; auto. apply H1. apply requires_call; auto.
Qed.

Lemma ordered_nodup tab s : ordered tab s -> NoDup s.
Proof.
  induction s as [|y s IH]; simpl; [constructor|]. intros (H1 & H2 & H3 & H4 & H5).
  constructor; auto.
Qed.

Lemma grown_fields_sources t x : In x (grown t) -> is_field x = true -> In x (sources1 t).
Proof.
  revert x. induction t as [c|s|s b|c|f args IH] using tree_ind'; intros x Hx Hf; simpl in Hx.
  - destruct Hx as [<-|[]]; discriminate.
  - simpl; tauto.
  - simpl; tauto.
  - simpl; tauto.
  - destruct Hx as [<-|Hx]; [discriminate|]. simpl.
    apply in_flat_map in Hx. destruct Hx as (a & Ha & Hx). apply in_flat_map. exists a.
    split; auto. destruct (is_const a); auto. rewrite Forall_forall in IH. auto.
Qed.

Lemma table_fields_sources goals x : In x (table goals) -> is_field x = true -> In x (sources goals).
Proof.
  unfold table, sources. rewrite !nodup_In, !in_flat_map. intros (g & Hg & Hx) Hf.
  exists g. split; auto. apply grown_fields_sources; auto.
Qed.

Lemma table_nodup goals : NoDup (table goals).
Proof. apply NoDup_nodup. Qed.

Lemma walkdown_spec order goals srcs :
  is_order order -> Permutation srcs (sources goals) ->
  let w := walkdown order (table goals) srcs in
  topo [] w /\ NoDup w /\ forall x, In x w <-> In x (table goals) /\ data_driven x.
Proof.
  intros Ho Hp. cbv zeta. unfold walkdown.
  set (srcs' := filter (fun x => negb (is_bcast x)) srcs ++ filter is_bcast srcs).
  assert (Hs : forall x, In x srcs' <-> In x (sources goals)).
  { intros x. unfold srcs'. rewrite in_app_iff, !filter_In.
    assert (In x srcs <-> In x (sources goals)).
    { split; intros H; [apply (Permutation_in _ Hp H)
                       | apply (Permutation_in _ (Permutation_sym Hp) H)]. }
    rewrite <- H. destruct (is_bcast x); simpl; intuition congruence. }
  destruct (walk_spec order Ho (table goals) srcs') as (W1 & W2 & W3).
  { intros x Hx. apply sources_table. apply Hs; auto. }
  { intros x Hx. apply Hs in Hx. eapply sources_field; eauto. }
  set (s' := fold_left _ srcs' []) in *.
  split; [|split].
  - eapply ordered_topo; [|exact W2]. intros x Hx. apply (ordered_dd _ _ W2) in Hx.
    destruct Hx; reflexivity.
  - apply NoDup_rev. eapply ordered_nodup; eauto.
  - intros x. rewrite <- in_rev. split.
    + intros Hx. split; [eapply ordered_in; eauto|]. eapply ordered_dd; eauto.
    + intros (Ht & Hd). revert Ht. induction Hd as [s|s b|c|f args He Ha IH]; intros Ht.
      1-3: apply W1; apply Hs; apply table_fields_sources; auto.
      apply W3; auto.
      * destruct He as (a & Hin & Hc). apply (in_not_nil a). apply requires_call; auto.
      * intros y Hy. assert (Hy' := proj1 (requires_call f args y) Hy). destruct Hy' as (Hy1 & Hy2).
        apply IH; auto. eapply table_closed; eauto.
Qed.

Lemma grown_subtree t x : In x (grown t) -> subtree x t.
Proof.
  revert x. induction t as [c|s|s b|c|f args IH] using tree_ind'; intros x Hx; simpl in Hx.
  1-4: destruct Hx as [<-|[]]; constructor.
  destruct Hx as [<-|Hx]; [constructor|].
  apply in_flat_map in Hx. destruct Hx as (a & Ha & Hx).
  destruct (is_const a); [destruct Hx|]. rewrite Forall_forall in IH. econstructor; eauto.
Qed.

Lemma table_subtree goals x : In x (table goals) -> exists g, In g goals /\ subtree x g.
Proof.
  unfold table. rewrite nodup_In, in_flat_map. intros (g & Hg & Hx). exists g.
  split; auto. apply grown_subtree; auto.
Qed.

Lemma dd_subtree t x : subtree x t -> data_driven t -> is_const x = false -> data_driven x.
Proof.
  induction 1 as [|f args a Ha Hs IH]; auto. intros Hd Hc. inversion Hd; subst.
  apply IH; auto. apply H2; auto. inversion Hs; subst; auto.
Qed.

Lemma subtree_grown t x : subtree x t -> is_const x = false -> In x (grown t).
Proof.
  induction 1 as [|f args a Ha Hs IH]; intros Hc; [apply grown_self|].
  simpl. right. apply in_flat_map. exists a. split; auto.
  destruct (is_const a) eqn:E; [|auto].
  destruct a; try discriminate. inversion Hs; subst. discriminate.
Qed.

Section C18.
  Variable V : Type.
  Variable constv : cst -> V.
  Variable lib : string -> list V -> res V.
  Variable param : tree -> res V.

  Lemma c18 order goals srcs :
    is_order order -> Permutation srcs (sources goals) ->
    exists is, instructions order srcs goals = Ok is /\
      ((exists ex, run V constv lib param is [] [] = Ok ([], ex) /\ NoDup (map fst ex) /\
          (forall g v, In (g, v) ex <->
                      In g goals /\ data_driven g /\ teval V constv lib param g = Ok v) /\
          (forall g y, In g goals -> subtree y g -> data_driven y ->
                       exists v, teval V constv lib param y = Ok v)) \/
       (exists y g e, In g goals /\ subtree y g /\ data_driven y /\
          teval V constv lib param y = Err e /\ run V constv lib param is [] [] = Err e)).
  Proof.
    intros Ho Hp. destruct (walkdown_spec order goals srcs Ho Hp) as (W1 & W2 & W3).
    set (w := walkdown order (table goals) srcs) in *.
    destruct (run_emit V constv lib param goals w [] 0 [] [] [] [] W1) as (is & E & H).
    { constructor; simpl; try tauto; try congruence; constructor. }
    exists is. split; [exact E|]. destruct H as [(ex & R1 & R2 & R3 & R4)|(y & e & Hy & R1 & R2)].
    - left. exists ex. rewrite app_nil_r in R1. split; [exact R1|].
      split; [|split; [|intros g y Hg Hs Hd; apply R2, W3; split; auto;
        apply nodup_In, in_flat_map; exists g; split; auto; apply subtree_grown; auto; destruct Hd; auto]].
      + rewrite R3. apply NoDup_rev. apply NoDup_filter; auto.
      + intros g v. split.
        * intros Hin. assert (Hg : In g (map fst ex)) by (apply in_map_iff; exists (g, v); auto).
          rewrite R3, <- in_rev in Hg. apply filter_In in Hg. destruct Hg as (Hg1 & Hg2).
          apply mem_In in Hg2. apply W3 in Hg1. intuition.
        * intros (Hg & Hd & Ev).
          assert (Hw : In g w) by (apply W3; split; auto using table_goal).
          assert (Hf : In g (map fst ex)).
          { rewrite R3, <- in_rev. apply filter_In. split; auto. apply mem_In; auto. }
          apply in_map_iff in Hf. destruct Hf as ((g' & v') & Eg & Hin). simpl in Eg. subst g'.
          assert (v' = v) by (apply R4 in Hin; congruence). subst. exact Hin.
    - right. apply W3 in Hy. destruct Hy as (Hy1 & Hy2).
      destruct (table_subtree _ _ Hy1) as (g & Hg & Hsub).
      exists y, g, e. auto.
  Qed.
End C18.

Lemma sources1_mentions t s :
  (exists x, In x (sources1 t) /\ (x = TName s \/ exists b, x = TPred s b)) <-> mentions s t.
Proof.
  induction t as [c|n|n b|c|f args IH] using tree_ind'; simpl.
  - split; [intros (x & [] & _)|inversion 1].
  - split.
    + intros (x & [<-|[]] & [E|(b & E)]); [injection E as ->; constructor|discriminate].
    + inversion 1; subst. exists (TName n). auto.
  - split.
    + intros (x & [<-|[]] & [E|(b' & E)]); [discriminate|injection E as -> ->; constructor].
    + inversion 1; subst. exists (TPred n b). split; auto. right; exists b; auto.
  - split.
    + intros (x & [<-|[]] & [E|(b & E)]); discriminate.
    + inversion 1.
  - rewrite Forall_forall in IH. split.
    + intros (x & Hx & E). apply in_flat_map in Hx. destruct Hx as (a & Ha & Hx).
      destruct (is_const a); [destruct Hx|]. econstructor; eauto. apply IH; eauto.
    + inversion 1; subst. apply IH in H3; auto. destruct H3 as (x & Hx & E).
      exists x. split; auto. apply in_flat_map. exists a. split; auto.
      destruct a; simpl in *; auto.
Qed.
