(** Proofs about combinations of plots: all plots of a combination. *)
From Coq Require Import String Lia.
From Verif Require Import Base Num Axis Calc Content Fill FillSpec FillProofs3 Tree Order Expr HistAlg Nd Proj Select Table Pandas Vega VegaSpec VegaProofs VegaEnc VegaEncProofs VegaComb VegaCombSpec VegaCombProofs Props_VegaEnc.
Local Open Scope string_scope.
Local Open Scope list_scope.

Lemma comb_ind' (P : comb -> Prop) : (forall x, P (Single x)) -> (forall l, Forall P l -> P (Overlay l)) -> (forall l, Forall P l -> P (Beside l)) -> (forall l, Forall P l -> P (Below l)) ->
  (forall n l, Forall P l -> P (Grid n l)) -> forall c, P c.
Proof.
  intros H1 H2 H3 H4 H5. fix IH 1. intros c.
  assert (L : forall l, Forall P l) by (fix L 1; intros [|x t]; constructor; [apply IH|apply L]).
  destruct c as [x|l|l|l|n l]; [apply H1|apply H2|apply H3|apply H4|apply H5]; apply L.
Qed.

Section Main.
  Variables (sqrt : Num -> Num) (bin_width : nat -> Num -> Num -> Num) (sorted : list dkey -> res (list dkey)).
  Notation raw := (raw sqrt bin_width).
  Notation amarks := (amarks sorted).

  (** ** The data *)
  Definition block (i : nat) (r : info * nat * list datum) : list object :=
    let '(_, lastj, data) := r in map (fun d => to_object (varname i) lastj (set_id (Some (varname i)) d)) data.
  Fixpoint blocks (i : nat) (rs : list (info * nat * list datum)) : list (list object) := match rs with [] => [] | r :: t => block i r :: blocks (S i) t end.
  Lemma blocks_app rs rs' : forall i, blocks i (rs ++ rs') = blocks i rs ++ blocks (i + length rs) rs'.
  Proof. induction rs as [|r rs IH]; intros i; cbn [app blocks length]; [rewrite Nat.add_0_r; auto|]. rewrite IH. replace (S i + length rs) with (i + S (length rs)) by lia. reflexivity. Qed.
  Lemma blocks_nth rs : forall i k r, nth_error rs k = Some r -> nth_error (blocks i rs) k = Some (block (i + k) r).
  Proof. induction rs as [|r0 rs IH]; intros i [|k] r H; try discriminate; cbn in *; [injection H as <-; rewrite Nat.add_0_r; auto|]. rewrite (IH _ _ _ H). f_equal. f_equal. lia. Qed.
  Lemma blocks_nth_inv rs : forall i k b, nth_error (blocks i rs) k = Some b -> exists r, nth_error rs k = Some r /\ b = block (i + k) r.
  Proof. induction rs as [|r0 rs IH]; intros i [|k] b H; try discriminate; cbn in *; [injection H as <-; rewrite Nat.add_0_r; eauto|]. destruct (IH _ _ _ H) as (r & E & ->). exists r. split; auto. f_equal. lia. Qed.
  Definition the_plots (c : comb) : list plot := map fst (plots_in c).
  Lemma the_plots_list l : map fst (flat_map plots_in l) = flat_map the_plots l.
  Proof. induction l as [|x l IH]; cbn [flat_map map]; auto. rewrite map_app, IH. reflexivity. Qed.
  Definition sons (c : comb) : list comb := match c with Single _ => [] | Overlay l | Beside l | Below l | Grid _ l => l end.
  Lemma the_plots_eq c : the_plots c = match c with Single x => [x] | _ => flat_map the_plots (sons c) end.
  Proof. destruct c; auto; unfold the_plots at 1; cbn [plots_in sons]; rewrite <- the_plots_list; auto. rewrite map_map. apply map_ext. reflexivity. Qed.
  Fixpoint collects (l : list comb) (i : nat) : res (nat * list info * list object) :=
    match l with
    | [] => Ok (i, [], [])
    | x :: t => do r <- collect sqrt bin_width x i; let '(i1, a, d) := r in do r' <- collects t i1; let '(i2, a', d') := r' in Ok (i2, a ++ a', d ++ d')
    end.
  Lemma collect_sons c i : collect sqrt bin_width c i = match c with Single x => collect sqrt bin_width (Single x) i | _ => collects (sons c) i end.
  Proof.
    destruct c as [x|l|l|l|n l]; auto; cbn [sons]; revert i; induction l as [|x l IH]; intros i; auto; cbn [collects]; cbn [collect]; destruct (collect sqrt bin_width x i) as [[[i1 a] d]|]; auto; cbn [bind]; rewrite <- IH; reflexivity.
  Qed.
  Definition collected (xs : list plot) (i : nat) (r : nat * list info * list object) : Prop :=
    exists rs, Forall2 (fun x y => raw x = Ok y) xs rs /\ r = (i + length xs, map (fun y => fst (fst y)) rs, concat (blocks i rs)).
  Lemma collect_ok : forall c i r, collect sqrt bin_width c i = Ok r -> collected (the_plots c) i r.
  Proof.
    assert (L : forall l, Forall (fun c => forall i r, collect sqrt bin_width c i = Ok r -> collected (the_plots c) i r) l -> forall i r, collects l i = Ok r -> collected (flat_map the_plots l) i r).
    { induction 1 as [|x l Hx Hl IH]; intros i r E; cbn [collects flat_map] in *.
      - injection E as <-. exists []. split; auto. cbn. rewrite Nat.add_0_r. reflexivity.
      - destruct (collect sqrt bin_width x i) as [r1|] eqn:E1; [|discriminate]. cbn [bind] in E. destruct (Hx _ _ E1) as (rs1 & F1 & ->). destruct (collects l _) as [r2|] eqn:E2; [|discriminate]. cbn [bind] in E.
        destruct (IH _ _ E2) as (rs2 & F2 & ->). injection E as <-. exists (rs1 ++ rs2). split; [apply Forall2_app; auto|].
        rewrite app_length, map_app, blocks_app, concat_app, <- (Forall2_length _ _ _ F1). f_equal; f_equal. lia. }
    induction c as [x|l IH|l IH|l IH|n l IH] using comb_ind'; intros i r E; rewrite the_plots_eq; try (rewrite collect_sons in E; eapply L; eauto; fail).
    cbn [collect] in E. rewrite plot_data_raw in E. destruct (raw x) as [[[inf lastj] data]|] eqn:Er; [|discriminate]. cbn [bind fst snd] in E. injection E as <-. exists [(inf, lastj, data)]. split; [constructor; auto|].
    cbn [map fst blocks concat block length]. rewrite app_nil_r. reflexivity.
  Qed.
  Lemma collect_total : forall c i, (forall x, In x (the_plots c) -> exists y, raw x = Ok y) -> exists r, collect sqrt bin_width c i = Ok r.
  Proof.
    assert (L : forall l, Forall (fun c => forall i, (forall x, In x (the_plots c) -> exists y, raw x = Ok y) -> exists r, collect sqrt bin_width c i = Ok r) l ->
                forall i, (forall x, In x (flat_map the_plots l) -> exists y, raw x = Ok y) -> exists r, collects l i = Ok r).
    { induction 1 as [|x l Hx Hl IH]; intros i H; cbn [collects flat_map] in *; [eauto|]. destruct (Hx i) as ([[i1 a] d] & E1); [intros; apply H; apply in_or_app; auto|]. rewrite E1. cbn [bind].
      destruct (IH i1) as ([[i2 a'] d'] & E2); [intros; apply H; apply in_or_app; auto|]. rewrite E2. cbn [bind]. eauto. }
    induction c as [x|l IH|l IH|l IH|n l IH] using comb_ind'; intros i H; rewrite the_plots_eq in H; try (rewrite collect_sons; eapply L; eauto; fail).
    cbn [collect]. rewrite plot_data_raw. destruct (H x) as ([[inf lastj] data] & ->); [left; auto|]. cbn [bind]. eauto.
  Qed.

  (** ** The marks *)
  Definition framed (b : bool) (i : nat) (ms : list amark) : list unit_view :=
    map (fun a => if b || Nat.eqb (length ms) 1 then with_filter (varname i) (render (varname i) a) else render (varname i) a) ms.
  Section All.
    Variable all : list info.
    Definition leaf (i : nat) (x : plot * bool) (us : list unit_view) : Prop :=
      exists inf ms, nth_error all i = Some inf /\ amarks (fst x) inf = Ok ms /\ us = framed (snd x) i ms.
    Fixpoint leaves (i : nat) (xs : list (plot * bool)) (uss : list (list unit_view)) : Prop :=
      match xs, uss with
      | [], [] => True
      | x :: xs', us :: uss' => leaf i x us /\ leaves (S i) xs' uss'
      | _, _ => False
      end.
    Lemma leaves_app xs ys : forall i uss vss, leaves i xs uss -> leaves (i + length xs) ys vss -> leaves i (xs ++ ys) (uss ++ vss).
    Proof.
      induction xs as [|x xs IH]; intros i [|us uss] vss H1 H2; try contradiction; cbn [leaves app length] in *; [rewrite Nat.add_0_r in H2; auto|]. destruct H1 as (H1 & H3). split; auto. apply IH; auto.
      replace (S i + length xs) with (i + S (length xs)) by lia. auto.
    Qed.
    Definition leaves_ok (i : nat) (xs : list (plot * bool)) : Prop := forall k x, nth_error xs k = Some x -> exists inf ms, nth_error all (i + k) = Some inf /\ amarks (fst x) inf = Ok ms.
    Lemma leaves_ok_app i xs ys : leaves_ok i (xs ++ ys) -> leaves_ok i xs /\ leaves_ok (i + length xs) ys.
    Proof.
      intros H. split; intros k x Hk.
      - apply H. rewrite nth_error_app1; auto. apply nth_error_Some. congruence.
      - rewrite <- Nat.add_assoc. apply H. rewrite nth_error_app2 by lia. rewrite Nat.add_comm, Nat.add_sub. auto.
    Qed.
    (** A step of the loops over the plots of a combination *)
    Section Walk.
      Variable f : comb -> nat -> res (nat * view_tree).
      Fixpoint walk (l : list comb) (i : nat) : res (nat * list view_tree) :=
        match l with
        | [] => Ok (i, [])
        | x :: t => do r <- f x i; do r' <- walk t (fst r); Ok (fst r', snd r :: snd r')
        end.
    End Walk.
    Definition son (c x : comb) (i : nat) : res (nat * view_tree) :=
      match c, x with
      | _, Single y => do v <- fill_plot sorted all y i; Ok (i + 1, v)
      | _, Overlay _ => do r <- fill sorted all x i; Ok (fst r, VLayer (snd r))
      | Beside _, Below _ => do r <- fill sorted all x i; Ok (fst r, VVconcat (snd r))
      | Below _, Beside _ => do r <- fill sorted all x i; Ok (fst r, VHconcat (snd r))
      | _, _ => Err AttributeError
      end.
    Lemma fill_beside l : forall i, fill sorted all (Beside l) i = walk (son (Beside [])) l i.
    Proof. induction l as [|x l IH]; intros i; reflexivity. Qed.
    Lemma fill_below l : forall i, fill sorted all (Below l) i = walk (son (Below [])) l i.
    Proof. induction l as [|x l IH]; intros i; reflexivity. Qed.
    Lemma marks_list us : flat_map marks (map VUnit us) = us.
    Proof. induction us; cbn; congruence. Qed.
    Lemma fill_plot_ok x i v : fill_plot sorted all x i = Ok v -> leaf i (x, false) (marks v).
    Proof.
      unfold fill_plot, info_at. destruct (nth_error all i) as [inf|] eqn:Ei; [|discriminate]. cbn [bind]. rewrite units_render. destruct (amarks x inf) as [ms|] eqn:Em; [|discriminate]. cbn [bind]. intros E.
      exists inf, ms. split; auto. split; auto. unfold framed. cbn [snd orb]. injection E as <-. destruct ms as [|m [|m' ms]]; auto. cbn [map]. change (length (m :: m' :: ms)) with (S (S (length ms))). cbn [Nat.eqb marks]. apply (marks_list (map (render (varname i)) (m :: m' :: ms))).
    Qed.
    Lemma fill_layers_ok x i vs : fill_layers sorted all x i = Ok vs -> leaf i (x, true) (flat_map marks vs).
    Proof.
      unfold fill_layers, info_at. destruct (nth_error all i) as [inf|] eqn:Ei; [|discriminate]. cbn [bind]. rewrite units_render. destruct (amarks x inf) as [ms|] eqn:Em; [|discriminate]. cbn [bind]. intros E.
      exists inf, ms. split; auto. split; auto. unfold framed. cbn [snd orb]. injection E as <-. rewrite <- (map_map (with_filter (varname i)) VUnit), marks_list, map_map. reflexivity.
    Qed.
    Definition filled (xs : list (plot * bool)) (i : nat) (r : nat * list view_tree) : Prop :=
      fst r = i + length xs /\ exists uss, flat_map marks (snd r) = concat uss /\ leaves i xs uss.
    Lemma walk_ok f l : Forall (fun x => forall i r, f x i = Ok r -> filled (plots_in x) i (fst r, [snd r])) l -> forall i r, walk f l i = Ok r -> filled (flat_map plots_in l) i r.
    Proof.
      induction 1 as [|x l Hx Hl IH]; intros i r E; cbn [walk flat_map] in *.
      - injection E as <-. split; [cbn; lia|]. exists []. cbn. auto.
      - destruct (f x i) as [r1|] eqn:E1; [|discriminate]. cbn [bind] in E. destruct (walk f l (fst r1)) as [r2|] eqn:E2; [|discriminate]. cbn [bind] in E. injection E as <-.
        destruct (Hx _ _ E1) as (F1 & us1 & M1 & L1). cbn [fst snd] in *. rewrite F1 in E2. destruct (IH _ _ E2) as (F2 & us2 & M2 & L2). cbn [flat_map] in M1. rewrite app_nil_r in M1. split.
        + cbn [fst]. rewrite app_length. lia.
        + exists (us1 ++ us2). cbn [snd flat_map]. rewrite M1, M2, concat_app. split; auto. apply leaves_app; auto.
    Qed.
    Lemma overlay_ok l : forallb in_overlay l = true -> forall i r, fill sorted all (Overlay l) i = Ok r -> filled (plots_in (Overlay l)) i r.
    Proof.
      induction l as [|x l IH]; intros Hl i r E.
      - injection E as <-. split; [cbn; lia|]. exists []. cbn. auto.
      - cbn [forallb] in Hl. apply andb_true_iff in Hl. destruct Hl as (Hx & Hl). destruct x as [x|?|?|?|?]; try discriminate Hx.
        change (fill sorted all (Overlay (Single x :: l)) i) with (do r <- fill_layers sorted all x i; do r' <- fill sorted all (Overlay l) (i + 1); Ok (fst r', r ++ snd r')) in E.
        destruct (fill_layers sorted all x i) as [vs|] eqn:E1; [|discriminate]. cbn [bind] in E. destruct (fill sorted all (Overlay l) (i + 1)) as [r2|] eqn:E2; [|discriminate]. cbn [bind] in E. injection E as <-.
        apply fill_layers_ok in E1. destruct (IH Hl _ _ E2) as (F2 & us2 & M2 & L2). cbn [plots_in] in *. split; cbn [fst snd].
        + cbn [flat_map plots_in app map length]. lia.
        + exists (flat_map marks vs :: us2). rewrite flat_map_app, M2. split; auto. cbn [flat_map plots_in app map leaves]. split; auto. rewrite <- Nat.add_1_r. exact L2.
    Qed.
    (** Each combination fills in its plots, in order. *)
    Definition fills_ok (c : comb) : Prop := match c with Single _ | Grid _ _ => True | _ => forall i r, fill sorted all c i = Ok r -> filled (plots_in c) i r end.
    Lemma son_ok c x : fills_ok x -> forall i r, son c x i = Ok r -> filled (plots_in x) i (fst r, [snd r]).
    Proof.
      intros Hx i r E. destruct x as [x|l|l|l|n l].
      - assert (E' : (do v <- fill_plot sorted all x i; Ok (i + 1, v)) = Ok r) by (destruct c; exact E). destruct (fill_plot sorted all x i) as [v|] eqn:Ev; [|discriminate]. injection E' as <-. apply fill_plot_ok in Ev.
        split; [reflexivity|]. exists [marks v]. cbn [snd flat_map concat plots_in leaves]. auto.
      - assert (E' : (do r <- fill sorted all (Overlay l) i; Ok (fst r, VLayer (snd r))) = Ok r) by (destruct c; exact E). destruct (fill sorted all (Overlay l) i) as [r1|] eqn:E1; [|discriminate]. injection E' as <-.
        destruct (Hx _ _ E1) as (F1 & us & M & L). split; auto. exists us. split; auto. cbn [snd flat_map marks]. rewrite app_nil_r. auto.
      - destruct c; try discriminate. cbn [son] in E. destruct (fill sorted all (Beside l) i) as [r1|] eqn:E1; [|discriminate]. injection E as <-.
        destruct (Hx _ _ E1) as (F1 & us & M & L). split; auto. exists us. split; auto. cbn [snd flat_map marks]. rewrite app_nil_r. auto.
      - destruct c; try discriminate. cbn [son] in E. destruct (fill sorted all (Below l) i) as [r1|] eqn:E1; [|discriminate]. injection E as <-.
        destruct (Hx _ _ E1) as (F1 & us & M & L). split; auto. exists us. split; auto. cbn [snd flat_map marks]. rewrite app_nil_r. auto.
      - destruct c; discriminate.
    Qed.
    Lemma built_fills c : built c -> fills_ok c /\ Forall fills_ok (sons c).
    Proof.
      assert (K : forall args t l, (forall y, In y (flatten args) -> fills_ok y /\ Forall fills_ok (sons y)) -> combine_plots t args = Ok l -> l = flatten args /\ forallb t l = true /\ Forall fills_ok l).
      { intros args t l H E. unfold combine_plots in E. destruct (forallb t (flatten args)) eqn:F; [|discriminate]. injection E as <-. split; auto. split; auto. apply Forall_forall. intros y Hy. apply H. auto. }
      induction 1 as [x|args c Hb IH E|args c Hb IH E|args c Hb IH E|n args c Hb IH E].
      - split; [exact I|constructor].
      - unfold overlay_ in E. destruct (combine_plots in_overlay args) as [l|] eqn:El; [|discriminate]. injection E as <-. destruct (K _ _ _ IH El) as (-> & F & A). split; auto. cbn [fills_ok]. apply overlay_ok. auto.
      - unfold beside_ in E. destruct (combine_plots in_beside args) as [l|] eqn:El; [|discriminate]. injection E as <-. destruct (K _ _ _ IH El) as (-> & F & A). split; auto. cbn [fills_ok]. intros i r E. rewrite fill_beside in E. eapply walk_ok; eauto.
        eapply Forall_impl; [|exact A]. intros x Hx. apply (son_ok (Beside [])). auto.
      - unfold below_ in E. destruct (combine_plots in_below args) as [l|] eqn:El; [|discriminate]. injection E as <-. destruct (K _ _ _ IH El) as (-> & F & A). split; auto. cbn [fills_ok]. intros i r E. rewrite fill_below in E. eapply walk_ok; eauto.
        eapply Forall_impl; [|exact A]. intros x Hx. apply (son_ok (Below [])). auto.
      - unfold grid_ in E. destruct (combine_plots in_grid args) as [l|] eqn:El; [|discriminate]. injection E as <-. destruct (K _ _ _ IH El) as (-> & F & A). split; [exact I|auto].
    Qed.
    (** The grid: one entry for each plot, row by row *)
    Lemma grid_walk n : forall l i rows row r, fill_grid sorted all n l i rows row = Ok r -> exists vs, walk (son (Grid n [])) l i = Ok (fst r, vs) /\ concat (snd r) = concat rows ++ row ++ vs.
    Proof.
      induction l as [|x l IH]; intros i rows row r E.
      - injection E as <-. exists []. split; auto. cbn [snd]. rewrite concat_app. cbn [concat]. rewrite !app_nil_r. reflexivity.
      - assert (X : exists rows' row', concat rows' ++ row' = concat rows ++ row /\ (do r <- son (Grid n []) x i; fill_grid sorted all n l (fst r) rows' (row' ++ [snd r])) = Ok r).
        { cbn [fill_grid] in E. destruct (Nat.leb n (length row)).
          - exists (rows ++ [row]), []. split; [rewrite concat_app; cbn [concat]; rewrite !app_nil_r; reflexivity|]. destruct x; exact E.
          - exists rows, row. split; [reflexivity|destruct x; exact E]. }
        destruct X as (rows' & row' & Hc & E'). cbn [walk]. destruct (son (Grid n []) x i) as [r1|]; [|discriminate]. cbn [bind] in *. destruct (IH _ _ _ _ E') as (vs & Ew & Ec). rewrite Ew. cbn [bind fst snd]. exists (snd r1 :: vs). split; auto.
        rewrite Ec, <- (app_assoc row'). cbn [app]. rewrite !app_assoc, Hc. reflexivity.
    Qed.
    Lemma walk_grid n : forall l i rows row r, walk (son (Grid n [])) l i = Ok r -> exists rs, fill_grid sorted all n l i rows row = Ok (fst r, rs).
    Proof.
      induction l as [|x l IH]; intros i rows row r E; cbn [walk] in E.
      - injection E as <-. cbn. eauto.
      - destruct (son (Grid n []) x i) as [r1|] eqn:E1; [|discriminate]. cbn [bind] in E. destruct (walk _ l (fst r1)) as [r2|] eqn:E2; [|discriminate]. injection E as <-.
        assert (X : exists rows' row', fill_grid sorted all n (x :: l) i rows row = do r <- son (Grid n []) x i; fill_grid sorted all n l (fst r) rows' (row' ++ [snd r])).
        { cbn [fill_grid]. destruct (Nat.leb n (length row)); do 2 eexists; destruct x; reflexivity. }
        destruct X as (rows' & row' & ->). rewrite E1. cbn [bind fst]. eapply IH. eauto.
    Qed.
    (** ** Success *)
    Lemma fill_plot_total x i : (exists inf ms, nth_error all i = Some inf /\ amarks x inf = Ok ms) -> (exists v, fill_plot sorted all x i = Ok v) /\ (exists vs, fill_layers sorted all x i = Ok vs).
    Proof. intros (inf & ms & Ei & Em). unfold fill_plot, fill_layers, info_at. rewrite Ei. cbn [bind]. rewrite units_render, Em. cbn [bind]. eauto. Qed.
    Lemma walk_total f l : Forall (fun x => forall i, leaves_ok i (plots_in x) -> exists v, f x i = Ok (i + length (plots_in x), v)) l ->
      forall i, leaves_ok i (flat_map plots_in l) -> exists vs, walk f l i = Ok (i + length (flat_map plots_in l), vs).
    Proof.
      induction 1 as [|x l Hx Hl IH]; intros i H; cbn [walk flat_map] in *; [rewrite Nat.add_0_r; eauto|]. apply leaves_ok_app in H. destruct H as (H1 & H2). destruct (Hx i H1) as (v & ->). cbn [bind fst snd].
      destruct (IH _ H2) as (vs & ->). cbn [bind fst snd]. rewrite app_length, Nat.add_assoc. eauto.
    Qed.
    Definition fills_total (c : comb) : Prop := match c with Single _ | Grid _ _ => True | _ => forall i, leaves_ok i (plots_in c) -> exists vs, fill sorted all c i = Ok (i + length (plots_in c), vs) end.
    Lemma overlay_total l : forallb in_overlay l = true -> fills_total (Overlay l).
    Proof.
      cbn [fills_total]. induction l as [|x l IH]; intros Hl i H.
      - cbn. rewrite Nat.add_0_r. eauto.
      - cbn [forallb] in Hl. apply andb_true_iff in Hl. destruct Hl as (Hx & Hl). destruct x as [x|?|?|?|?]; try discriminate Hx. cbn [plots_in flat_map app map] in H. 
        change (fill sorted all (Overlay (Single x :: l)) i) with (do r <- fill_layers sorted all x i; do r' <- fill sorted all (Overlay l) (i + 1); Ok (fst r', r ++ snd r')).
        destruct (fill_plot_total x i) as (_ & vs & ->). { destruct (H 0 _ eq_refl) as (inf & ms & E1 & E2). rewrite Nat.add_0_r in E1. eauto. }
        cbn [bind]. destruct (IH Hl (i + 1)) as (vs2 & ->). { intros k y Hk. destruct (H (S k) y Hk) as (inf & ms & E1 & E2). exists inf, ms. replace (i + 1 + k) with (i + S k) by lia. auto. }
        cbn [bind fst snd plots_in flat_map app map length]. replace (i + 1 + length (map (fun xb => (fst xb, true)) (flat_map plots_in l))) with (i + S (length (map (fun xb : plot * bool => (fst xb, true)) (flat_map plots_in l)))) by lia. eauto.
    Qed.
    Lemma son_total c x : (match c with Beside _ => in_beside x | Below _ => in_below x | Grid _ _ => in_grid x | _ => false end) = true -> fills_total x ->
      forall i, leaves_ok i (plots_in x) -> exists v, son c x i = Ok (i + length (plots_in x), v).
    Proof.
      intros Ht Hx i H. destruct x as [x|l|l|l|n l].
      - destruct (fill_plot_total x i) as ((v & Ev) & _). { destruct (H 0 _ eq_refl) as (inf & ms & E1 & E2). rewrite Nat.add_0_r in E1. eauto. }
        exists v. destruct c; cbn [son]; rewrite Ev; reflexivity.
      - destruct (Hx i H) as (vs & E). exists (VLayer vs). destruct c; cbn [son]; rewrite E; reflexivity.
      - destruct (Hx i H) as (vs & E). destruct c; try discriminate. exists (VHconcat vs). cbn [son]. rewrite E. reflexivity.
      - destruct (Hx i H) as (vs & E). destruct c; try discriminate. exists (VVconcat vs). cbn [son]. rewrite E. reflexivity.
      - destruct c; discriminate.
    Qed.
    Lemma built_total c : built c -> fills_total c /\ match c with Grid n l => forall i, leaves_ok i (plots_in c) -> exists rs, fill_grid sorted all n l i [] [] = Ok (i + length (plots_in c), rs) | _ => True end.
    Proof.
      assert (K : forall args t l, (forall y, In y (flatten args) -> fills_total y /\ match y with Grid n l => forall i, leaves_ok i (plots_in y) -> exists rs, fill_grid sorted all n l i [] [] = Ok (i + length (plots_in y), rs) | _ => True end) ->
         combine_plots t args = Ok l -> l = flatten args /\ Forall (fun x => t x = true /\ fills_total x) l).
      { intros args t l H E. unfold combine_plots in E. destruct (forallb t (flatten args)) eqn:F; [|discriminate]. injection E as <-. split; auto. rewrite forallb_forall in F. apply Forall_forall. intros y Hy. split; auto. apply H. auto. }
      induction 1 as [x|args c Hb IH E|args c Hb IH E|args c Hb IH E|n args c Hb IH E].
      - split; exact I.
      - unfold overlay_ in E. destruct (combine_plots in_overlay args) as [l|] eqn:El; [|discriminate]. injection E as <-. destruct (K _ _ _ IH El) as (_ & A). split; auto. apply overlay_total. apply forallb_forall. rewrite Forall_forall in A. intros x Hx. apply A. auto.
      - unfold beside_ in E. destruct (combine_plots in_beside args) as [l|] eqn:El; [|discriminate]. injection E as <-. destruct (K _ _ _ IH El) as (_ & A). split; auto. cbn [fills_total]. intros i H. rewrite fill_beside. apply walk_total; auto.
        eapply Forall_impl; [|exact A]. intros x (Hx & Hf). apply (son_total (Beside [])); auto.
      - unfold below_ in E. destruct (combine_plots in_below args) as [l|] eqn:El; [|discriminate]. injection E as <-. destruct (K _ _ _ IH El) as (_ & A). split; auto. cbn [fills_total]. intros i H. rewrite fill_below. apply walk_total; auto.
        eapply Forall_impl; [|exact A]. intros x (Hx & Hf). apply (son_total (Below [])); auto.
      - unfold grid_ in E. destruct (combine_plots in_grid args) as [l|] eqn:El; [|discriminate]. injection E as <-. destruct (K _ _ _ IH El) as (_ & A). split; [exact I|]. intros i H. cbn [plots_in] in *.
        destruct (walk_total (son (Grid n [])) l) with (i := i) as (vs & E); auto. { eapply Forall_impl; [|exact A]. intros x (Hx & Hf). apply (son_total (Grid n [])); auto. }
        destruct (walk_grid n l i [] [] _ E) as (rs & Er). eauto.
    Qed.
  End All.
End Main.
