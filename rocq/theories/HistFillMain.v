(** The end-to-end fill theorem and its consequences. *)
From Coq Require Import String Permutation.
From Verif Require Import Num NumFacts Base Tree Instr InstrSpec InstrProofs Axis Calc Content Fill FillSpec Elem HistFill HistSpec HistFillProofs.

Lemma mapM_map {A B} (f : A -> res B) (g : A -> B) l :
  (forall x, In x l -> f x = Ok (g x)) -> mapM f l = Ok (map g l).
Proof.
  induction l as [|x l IH]; simpl; intros H; auto. rewrite (H x) by auto. simpl. rewrite IH by auto. reflexivity.
Qed.
Lemma list_nth_seq {A} (l : list A) d : l = map (fun i => nth i l d) (seq 0 (length l)).
Proof.
  induction l as [|x l IH]; simpl; auto. f_equal. rewrite <- seq_shift, map_map. exact IH.
Qed.
Lemma nth_map_in {A B} (g : A -> B) l j d x : nth_error l j = Some x -> nth j (map g l) d = g x.
Proof. revert j; induction l as [|y l IH]; intros [|j]; simpl; intros E; try discriminate; [congruence|auto]. Qed.

Lemma plain_sub y t : subtree y t -> plain t -> plain y.
Proof. induction 1; auto. inversion 1; subst. auto. Qed.
Lemma mentions_sub y t s : subtree y t -> mentions s y -> mentions s t.
Proof. induction 1; auto. intros. econstructor; eauto. Qed.
Lemma sub_const y c : subtree y (TConst c) -> y = TConst c.
Proof. inversion 1; auto. Qed.

Section Main.
  Variable cast : Num -> Z.
  Variable rnd : Qc -> Num.
  Variable user : string -> list arg -> res val.
  Variable h : hist.
  Hypothesis Hwf : hist_wf h.
  Variable A : arrays.
  Variable len : nat.
  Hypothesis Hargs : forall s, hist_mentions h s -> available A s /\ right_length A len s.

  Notation ev := (teval V VCst (lib cast rnd user) (param A len)).
  Notation row i := (reval user (field_at A i)).
  Notation rowof i := (row_of cast rnd user h (field_at A i)).
  Notation valueof i := (value user (field_at A i)).
  Notation numberof i := (number user (field_at A i)).

  Lemma expr_usable t : In t (hist_exprs h) -> usable A len t.
  Proof. intros Ht s Hs. apply Hargs. exists t; auto. Qed.
  Lemma expr_agrees t : In t (hist_exprs h) -> agrees len (fun i => row i t) (ev t).
  Proof.
    intros Ht. destruct Hwf as (_ & _ & W). destruct (W t Ht) as (P & D).
    apply ev_agrees; auto. apply expr_usable; auto.
  Qed.

  Lemma group_expr p : In p (h_group h) -> In (snd p) (hist_exprs h).
  Proof. intros H. unfold hist_exprs. rewrite in_app_iff. left. apply in_map; auto. Qed.
  Lemma fixed_expr p : In p (h_fixed h) -> In (snd p) (hist_exprs h).
  Proof. intros H. unfold hist_exprs. rewrite !in_app_iff. right; left. apply in_map; auto. Qed.
  Lemma prof_expr t : In t (h_prof h) -> In t (hist_exprs h).
  Proof. intros H. unfold hist_exprs. rewrite !in_app_iff. auto. Qed.
  Lemma weight_expr t : h_weight h = Some (WxTree t) -> In t (hist_exprs h).
  Proof. intros H. unfold hist_exprs. rewrite !in_app_iff, H. simpl. auto. Qed.

  (** A row on which some needed value cannot be computed. *)
  Definition bad (i : nat) : Prop := exists e, rowof i = Err e.

  Lemma bad_group p i e : In p (h_group h) -> (do v <- valueof i (snd p); key_of rnd (fst p) v) = Err e -> bad i.
  Proof.
    intros Hp E. unfold bad, row_of.
    destruct (mapM_err_in (fun p => do v <- valueof i (snd p); key_of rnd (fst p) v) _ _ _ Hp E) as [e' ->].
    simpl. eauto.
  Qed.
  Lemma bad_fixed p i e : In p (h_fixed h) -> (do v <- valueof i (snd p); slot_of cast rnd (fst p) v) = Err e -> bad i.
  Proof.
    intros Hp E. unfold bad, row_of. destruct (mapM _ (h_group h)); simpl; [|eauto].
    destruct (mapM_err_in (fun p => do v <- valueof i (snd p); slot_of cast rnd (fst p) v) _ _ _ Hp E) as [e' ->].
    simpl. eauto.
  Qed.
  Lemma bad_prof t i e : In t (h_prof h) -> numberof i t = Err e -> bad i.
  Proof.
    intros Hp E. unfold bad, row_of. destruct (mapM _ (h_group h)); simpl; [|eauto].
    destruct (mapM _ (h_fixed h)); simpl; [|eauto].
    destruct (mapM_err_in (fun t => do x <- numberof i t; Ok (x, nmul x x)) _ _ e Hp) as [e' ->].
    - rewrite E. reflexivity.
    - simpl. eauto.
  Qed.
  Lemma bad_weight t i e : h_weight h = Some (WxTree t) -> numberof i t = Err e -> bad i.
  Proof.
    intros Hp E. unfold bad, row_of. destruct (mapM _ (h_group h)); simpl; [|eauto].
    destruct (mapM _ (h_fixed h)); simpl; [|eauto]. destruct (mapM _ (h_prof h)); simpl; [|eauto].
    rewrite Hp, E. simpl. eauto.
  Qed.
  Lemma bad_expr t i e : In t (hist_exprs h) -> row i t = Err e -> bad i.
  Proof.
    intros Ht E. assert (Ev : valueof i t = Err e) by (unfold value; rewrite E; reflexivity).
    assert (En : numberof i t = Err e) by (unfold number; rewrite Ev; reflexivity).
    unfold hist_exprs in Ht. rewrite !in_app_iff in Ht. destruct Ht as [Ht|[Ht|[Ht|Ht]]].
    - apply in_map_iff in Ht. destruct Ht as (p & <- & Hp). eapply bad_group; eauto. rewrite Ev. reflexivity.
    - apply in_map_iff in Ht. destruct Ht as (p & <- & Hp). eapply bad_fixed; eauto. rewrite Ev. reflexivity.
    - eapply bad_prof; eauto.
    - destruct (h_weight h) as [[v|t']|] eqn:Ew; [destruct Ht| |destruct Ht].
      destruct Ht as [<-|[]]. eapply bad_weight; eauto.
  Qed.

  Lemma ev_expr t : In t (hist_exprs h) ->
    (exists l, ev t = Ok (VCol l) /\ length l = len /\ forall i x, nth_error l i = Some x -> row i t = Ok (AV x)) \/
    ((exists e, ev t = Err e) /\ exists i, i < len /\ bad i).
  Proof.
    intros Ht. assert (G := expr_agrees t Ht). destruct (ev t) as [v|e].
    - left. destruct G as (l & -> & G). exists l. auto.
    - right. split; [eauto|]. destruct G as (i & e' & Hi & E). exists i. split; auto. eapply bad_expr; eauto.
  Qed.

  Lemma nth_seq_err {X} (l : list val) (f : val -> res X) e :
    mapM f l = Err e -> exists i x, nth_error l i = Some x /\ f x = Err e.
  Proof.
    intros E. apply mapM_err in E. destruct E as (x & Hx & E).
    apply In_nth_error in Hx. destruct Hx as [i Hi]. eauto.
  Qed.

  Lemma value_of_row i t x : row i t = Ok (AV x) -> valueof i t = Ok x.
  Proof. intros E. unfold value. rewrite E. reflexivity. Qed.

  Lemma square_lib : lib_find "numpy.multiply" axis_library = None.
  Proof. reflexivity. Qed.
  Lemma square_plain t : plain t -> plain (square t).
  Proof. intros. constructor; [reflexivity|]. intros a [<-|[<-|[]]]; auto. Qed.
  Lemma square_dd t : data_driven t -> data_driven (square t).
  Proof.
    intros D. constructor.
    - exists t. split; [left; auto|]. destruct D; reflexivity.
    - intros a [<-|[<-|[]]] _; auto.
  Qed.
  Lemma square_row i t : row i (square t) = do a <- row i t; rmap AV (num2 nmul a a).
  Proof. unfold square. rewrite reval_call. cbn [mapM]. destruct (row i t); reflexivity. Qed.
  Lemma square_agrees t : In t (hist_exprs h) -> agrees len (fun i => row i (square t)) (ev (square t)).
  Proof.
    intros Ht. destruct Hwf as (_ & _ & W). destruct (W t Ht) as (P & D).
    apply ev_agrees; auto using square_plain, square_dd.
    intros s Hs. apply (expr_usable t Ht). apply mentions_square; auto.
  Qed.

  Lemma sub_axis y p : subtree y (axis_goal p) -> data_driven y -> y = axis_goal p \/ subtree y (snd p).
  Proof.
    intros S D. inversion S as [|f args a Ha Hs]; subst; auto. destruct Ha as [<-|Ha]; auto.
    apply in_map_iff in Ha. destruct Ha as (c & <- & _). apply sub_const in Hs. subst. inversion D.
  Qed.
  Lemma sub_square y t : subtree y (square t) -> y = square t \/ subtree y t.
  Proof. intros S. inversion S as [|f args a Ha Hs]; subst; auto. destruct Ha as [<-|[<-|[]]]; auto. Qed.

  Lemma sub_bad y t e : In t (hist_exprs h) -> subtree y t -> data_driven y -> ev y = Err e ->
    exists i, i < len /\ bad i.
  Proof.
    intros Ht S D E. destruct Hwf as (_ & _ & W). destruct (W t Ht) as (P & _).
    assert (G : agrees len (fun i => row i y) (ev y)).
    { apply ev_agrees; auto. eapply plain_sub; eauto. intros s Hs. apply (expr_usable t Ht).
      eapply mentions_sub; eauto. }
    rewrite E in G. destruct G as (i & e' & Hi & G).
    destruct (reval_sub user (field_at A i) t y e') as (e'' & E''); auto.
    - destruct D; reflexivity.
    - exists i. split; auto. eapply bad_expr; eauto.
  Qed.
  Lemma square_bad y t e : In t (hist_exprs h) ->
    (forall i e, numberof i t = Err e -> bad i) ->
    subtree y (square t) -> data_driven y -> ev y = Err e -> exists i, i < len /\ bad i.
  Proof.
    intros Ht Hn S D E. destruct (sub_square _ _ S) as [-> | S']; [|eapply sub_bad; eauto].
    assert (G := square_agrees t Ht). rewrite E in G. destruct G as (i & e' & Hi & G).
    exists i. split; auto. rewrite square_row in G. destruct (row i t) as [a|e''] eqn:Er; simpl in G.
    - destruct (numberof i t) as [x|e3] eqn:En; [|eapply Hn; eauto].
      unfold number, value in En. rewrite Er in En. simpl in En.
      unfold num2, arg_num in G. rewrite En in G. discriminate.
    - eapply bad_expr; eauto.
  Qed.
  Lemma axis_bad y p e :
    (In p (h_group h) \/ In p (h_fixed h)) ->
    subtree y (axis_goal p) -> data_driven y -> ev y = Err e -> exists i, i < len /\ bad i.
  Proof.
    intros Hp S D E.
    assert (Hx : In (snd p) (hist_exprs h)) by (destruct Hp; auto using group_expr, fixed_expr).
    destruct (sub_axis _ _ S D) as [-> | S']; [|eapply sub_bad; eauto].
    destruct (ev_expr _ Hx) as [(l & El & Hl & Hr)|(_ & B)]; auto.
    destruct Hwf as (Wg & Wf & _).
    rewrite (axis_goal_value cast rnd user A len p l) in E; auto.
    2:{ destruct Hp as [Hp|Hp]; [left; auto|right; apply Wf; auto]. }
    2:{ destruct Hp as [Hp|Hp]; [apply Wg in Hp; intros C; rewrite C in Hp; discriminate|apply Wf; auto]. }
    destruct Hp as [Hp|Hp].
    - rewrite (Wg p Hp) in E. destruct (mapM (key_of rnd (fst p)) l) as [ks|e'] eqn:EM; cbn [bind] in E.
      + destruct (group_col ks); discriminate.
      + apply nth_seq_err in EM. destruct EM as (i & x & Hi & Ek). exists i. split.
        * rewrite <- Hl. apply nth_error_Some. congruence.
        * eapply bad_group; eauto. rewrite (value_of_row _ _ _ (Hr _ _ Hi)). exact Ek.
    - destruct (Wf p Hp) as (F1 & F2).
      replace (is_group (fst p)) with false in E by (destruct (fst p); try discriminate; auto).
      destruct (mapM (slot_of cast rnd (fst p)) l) as [ks|e'] eqn:EM; cbn [rmap] in E; [discriminate|].
      apply nth_seq_err in EM. destruct EM as (i & x & Hi & Ek). exists i. split.
      + rewrite <- Hl. apply nth_error_Some. congruence.
      + eapply bad_fixed; eauto. rewrite (value_of_row _ _ _ (Hr _ _ Hi)). exact Ek.
  Qed.

  Lemma goal_bad y g e : In g (hist_goals h) -> subtree y g -> data_driven y -> ev y = Err e ->
    exists i, i < len /\ bad i.
  Proof.
    intros Hg S D E. unfold hist_goals in Hg. rewrite !in_app_iff in Hg.
    destruct Hg as [Hg|[Hg|[Hg|Hg]]].
    - apply in_map_iff in Hg. destruct Hg as (p & <- & Hp). eapply axis_bad; eauto.
    - apply in_map_iff in Hg. destruct Hg as (p & <- & Hp). eapply axis_bad; eauto.
    - apply in_flat_map in Hg. destruct Hg as (t & Ht & [<-|[<-|[]]]).
      + eapply sub_bad; eauto using prof_expr.
      + eapply square_bad; eauto using prof_expr, bad_prof.
    - destruct (h_weight h) as [[v|t]|] eqn:Ew.
      + exfalso. destruct Hg as [<-|[<-|[]]].
        * apply sub_const in S. subst. inversion D.
        * apply sub_square in S. destruct S as [-> | S].
          -- inversion D as [| | |f args (a & Ha & Hc) _]; subst.
             destruct Ha as [<-|[<-|[]]]; discriminate.
          -- apply sub_const in S. subst. inversion D.
      + destruct Hg as [<-|[<-|[]]].
        * eapply sub_bad; eauto using weight_expr.
        * eapply square_bad; eauto using weight_expr, bad_weight.
      + destruct Hg.
  Qed.

  (** ** When every goal evaluates. *)
  Section AllGood.
    Variable ex : list (tree * V).
    Hypothesis Hnd : NoDup (map fst ex).
    Hypothesis Hex : forall g v, In (g, v) ex <-> In g (hist_goals h) /\ data_driven g /\ ev g = Ok v.
    Hypothesis Hall : forall g y, In g (hist_goals h) -> subtree y g -> data_driven y -> exists v, ev y = Ok v.

    Lemma found g v : In g (hist_goals h) -> data_driven g -> ev g = Ok v -> dest_find g ex = Some v.
    Proof. intros. apply dest_find_in; auto. apply Hex; auto. Qed.

    Definition colv (t : tree) : list val := match ev t with Ok (VCol l) => l | _ => [] end.
    Definition dv : val := VBool false.

    Lemma expr_in_goal t : In t (hist_exprs h) -> exists g, In g (hist_goals h) /\ subtree t g.
    Proof.
      unfold hist_exprs, hist_goals. rewrite !in_app_iff. intros [Ht|[Ht|[Ht|Ht]]].
      - apply in_map_iff in Ht. destruct Ht as (p & <- & Hp). exists (axis_goal p). split.
        + rewrite !in_app_iff. left. apply in_map; auto.
        + eapply sub_call; [left; reflexivity|constructor].
      - apply in_map_iff in Ht. destruct Ht as (p & <- & Hp). exists (axis_goal p). split.
        + rewrite !in_app_iff. right; left. apply in_map; auto.
        + eapply sub_call; [left; reflexivity|constructor].
      - exists t. split; [|constructor]. rewrite !in_app_iff. right; right; left. apply in_flat_map.
        exists t. simpl; auto.
      - exists t. split; [|constructor]. rewrite !in_app_iff. right; right; right.
        destruct (h_weight h) as [[v|t']|]; [destruct Ht| |destruct Ht]. destruct Ht as [<-|[]]. left; auto.
    Qed.

    Lemma expr_col t : In t (hist_exprs h) ->
      ev t = Ok (VCol (colv t)) /\ length (colv t) = len /\
      forall i, i < len -> row i t = Ok (AV (nth i (colv t) dv)) /\ valueof i t = Ok (nth i (colv t) dv).
    Proof.
      intros Ht. destruct (ev_expr t Ht) as [(l & El & Hl & Hr)|((e & Ee) & _)].
      - unfold colv. rewrite El. split; auto. split; auto. intros i Hi.
        assert (En : nth_error l i = Some (nth i l dv)) by (apply nth_error_nth'; lia).
        split; [apply Hr; auto|apply value_of_row; auto].
      - exfalso. destruct (expr_in_goal t Ht) as (g & Hg & S). destruct Hwf as (_ & _ & W).
        destruct (Hall g t Hg S) as (v & Ev); [apply W; auto|congruence].
    Qed.

    Definition gkey_at (i : nat) (p : axis * tree) : option gkey :=
      match key_of rnd (fst p) (nth i (colv (snd p)) dv) with Ok k => k | Err _ => None end.
    Definition slot_at (i : nat) (p : axis * tree) : option Z :=
      match slot_of cast rnd (fst p) (nth i (colv (snd p)) dv) with Ok k => k | Err _ => None end.
    Definition num_at (i : nat) (t : tree) : Num :=
      match val_num (nth i (colv t) dv) with Ok x => x | Err _ => nzero end.
    Definition w_at (i : nat) : Num :=
      match h_weight h with
      | None => none1
      | Some (WxConst v) => v
      | Some (WxTree t) => num_at i t
      end.
    Definition the_row (i : nat) : FillSpec.row :=
      {| r_keys := map (gkey_at i) (h_group h);
         r_slots := map (slot_at i) (h_fixed h);
         r_prof := map (fun t => (num_at i t, nmul (num_at i t) (num_at i t))) (h_prof h);
         r_w := w_at i; r_w2 := nmul (w_at i) (w_at i) |}.

    Lemma col_mapM {X} (f : val -> res X) (d : X) l ks : mapM f l = Ok ks ->
      ks = map (fun i => match f (nth i l dv) with Ok k => k | Err _ => d end) (seq 0 (length l)).
    Proof.
      intros E. apply mapM_ok in E. induction E as [|x k l ks Ex E IH]; simpl; auto.
      rewrite Ex. f_equal. rewrite <- seq_shift, map_map. exact IH.
    Qed.
    Lemma col_mapM_at {X} (f : val -> res X) l ks i : mapM f l = Ok ks -> i < length l ->
      exists k, f (nth i l dv) = Ok k.
    Proof.
      intros E. apply mapM_ok in E. revert i. induction E as [|x k l ks Ex E IH]; simpl; intros i Hi; [lia|].
      destruct i; [eauto|]. apply IH. lia.
    Qed.

    Lemma group_goal p : In p (h_group h) ->
      (exists u inv, dest_find (axis_goal p) ex = Some (VGrp u inv) /\
        group_col (map (fun i => gkey_at i p) (seq 0 len)) = (u, inv)) /\
      forall i, i < len -> (do v <- valueof i (snd p); key_of rnd (fst p) v) = Ok (gkey_at i p).
    Proof.
      intros Hp. assert (Hx := group_expr p Hp). destruct (expr_col _ Hx) as (E & Hl & Hr).
      assert (Hg : In (axis_goal p) (hist_goals h)).
      { unfold hist_goals. rewrite in_app_iff. left. apply in_map; auto. }
      assert (Hd : data_driven (axis_goal p)).
      { destruct Hwf as (_ & _ & W). destruct (W _ Hx) as (_ & D). constructor.
        - exists (snd p). split; [left; auto|]. destruct D; reflexivity.
        - intros a [<-|Ha] Hc; auto. apply in_map_iff in Ha. destruct Ha as (c & <- & _). discriminate. }
      destruct (Hall _ _ Hg (sub_refl _) Hd) as (v & Ev).
      assert (Ev' := Ev). destruct Hwf as (Wg & _ & _).
      rewrite (axis_goal_value cast rnd user A len p (colv (snd p)) (or_introl (Wg p Hp))) in Ev'; eauto.
      2:{ intros C. assert (W := Wg p Hp). rewrite C in W. discriminate. }
      rewrite (Wg p Hp) in Ev'. apply bind_ok in Ev'. destruct Ev' as (ks & EM & Ev').
      assert (Eks := col_mapM _ None _ _ EM). rewrite Hl in Eks.
      split.
      - destruct (group_col ks) as [u inv] eqn:Eg. exists u, inv. injection Ev' as <-.
        split; [apply found; auto|]. unfold gkey_at. rewrite <- Eks. auto.
      - intros i Hi. rewrite (proj2 (Hr i Hi)). cbn [bind]. unfold gkey_at.
        destruct (col_mapM_at _ _ _ i EM) as (k & Ek); [lia|]. rewrite Ek. reflexivity.
    Qed.
    Lemma fixed_goal p : In p (h_fixed h) ->
      dest_find (axis_goal p) ex = Some (VIdx (map (fun i => slot_at i p) (seq 0 len))) /\
      forall i, i < len -> (do v <- valueof i (snd p); slot_of cast rnd (fst p) v) = Ok (slot_at i p).
    Proof.
      intros Hp. assert (Hx := fixed_expr p Hp). destruct (expr_col _ Hx) as (E & Hl & Hr).
      assert (Hg : In (axis_goal p) (hist_goals h)).
      { unfold hist_goals. rewrite !in_app_iff. right; left. apply in_map; auto. }
      assert (Hd : data_driven (axis_goal p)).
      { destruct Hwf as (_ & _ & W). destruct (W _ Hx) as (_ & D). constructor.
        - exists (snd p). split; [left; auto|]. destruct D; reflexivity.
        - intros a [<-|Ha] Hc; auto. apply in_map_iff in Ha. destruct Ha as (c & <- & _). discriminate. }
      destruct (Hall _ _ Hg (sub_refl _) Hd) as (v & Ev).
      assert (Ev' := Ev). destruct Hwf as (_ & Wf & _). destruct (Wf p Hp) as (F1 & F2).
      rewrite (axis_goal_value cast rnd user A len p (colv (snd p)) (or_intror F1)) in Ev'; eauto.
      replace (is_group (fst p)) with false in Ev' by (destruct (fst p); try discriminate; auto).
      destruct (mapM (slot_of cast rnd (fst p)) (colv (snd p))) as [ks|] eqn:EM; [|discriminate].
      cbn [rmap] in Ev'. injection Ev' as <-.
      assert (Eks := col_mapM _ None _ _ EM). rewrite Hl in Eks.
      split.
      - unfold slot_at. rewrite <- Eks. apply found; auto.
      - intros i Hi. rewrite (proj2 (Hr i Hi)). cbn [bind]. unfold slot_at.
        destruct (col_mapM_at _ _ _ i EM) as (k & Ek); [lia|]. rewrite Ek. reflexivity.
    Qed.

    (** A profile or weight expression is numeric, or some row is bad and the columns are refused. *)
    Lemma num_goal t : In t (hist_exprs h) -> In t (hist_goals h) -> In (square t) (hist_goals h) ->
      (as_nums (dest_find t ex) = Ok (map (fun i => num_at i t) (seq 0 len)) /\
       as_nums (dest_find (square t) ex) = Ok (map (fun i => nmul (num_at i t) (num_at i t)) (seq 0 len)) /\
       forall i, i < len -> numberof i t = Ok (num_at i t)) \/
      ((exists e, as_nums (dest_find t ex) = Err e) /\ exists i e, i < len /\ numberof i t = Err e).
    Proof.
      intros Hx Hg Hg2. destruct (expr_col _ Hx) as (E & Hl & Hr).
      destruct Hwf as (_ & _ & W). destruct (W _ Hx) as (P & D).
      rewrite (found t _ Hg D E). unfold as_nums at 1 3.
      destruct (mapM val_num (colv t)) as [xs|e] eqn:EM.
      - left. assert (Exs := col_mapM _ nzero _ _ EM). rewrite Hl in Exs.
        split; [f_equal; exact Exs|]. split.
        + destruct (Hall _ _ Hg2 (sub_refl _) (square_dd _ D)) as (v & Ev).
          rewrite (found _ _ Hg2 (square_dd _ D) Ev).
          assert (G := square_agrees t Hx). rewrite Ev in G. destruct G as (l & -> & Hl2 & Hr2).
          unfold as_nums. rewrite (list_nth_seq l dv), Hl2. apply mapM_ok.
          assert (Hs : forall i, In i (seq 0 len) -> i < len) by (intros i Hi; apply in_seq in Hi; lia).
          revert Hs. generalize (seq 0 len) as ns. induction ns as [|i ns IH]; intros Hs; simpl; constructor.
          * assert (Hi : i < len) by (apply Hs; left; auto).
            assert (En : nth_error l i = Some (nth i l dv)) by (apply nth_error_nth'; lia).
            apply Hr2 in En. rewrite square_row in En. rewrite (proj1 (Hr i Hi)) in En.
            cbn [bind] in En. unfold num2, arg_num, arg_val in En. cbn [bind] in En.
            destruct (col_mapM_at _ _ _ i EM) as (k & Ek); [lia|].
            unfold num_at. rewrite Ek in *. cbn [bind rmap] in En. injection En as <-. reflexivity.
          * apply IH. intros j Hj. apply Hs. right; auto.
        + intros i Hi. unfold number. rewrite (proj2 (Hr i Hi)). cbn [bind].
          destruct (col_mapM_at _ _ _ i EM) as (k & Ek); [lia|]. unfold num_at. rewrite Ek. reflexivity.
      - right. split; [eauto|]. apply nth_seq_err in EM. destruct EM as (i & x & Hi & Ex).
        assert (Hlt : i < len) by (rewrite <- Hl; apply nth_error_Some; congruence).
        exists i, e. split; auto. unfold number. rewrite (proj2 (Hr i Hlt)). cbn [bind].
        rewrite (nth_error_nth _ _ dv Hi). exact Ex.
    Qed.

    Lemma prof_goal t : In t (h_prof h) -> In t (hist_goals h) /\ In (square t) (hist_goals h).
    Proof.
      intros Ht. unfold hist_goals. rewrite !in_app_iff.
      split; right; right; left; apply in_flat_map; exists t; simpl; auto.
    Qed.
    Lemma weight_goal t : h_weight h = Some (WxTree t) -> In t (hist_goals h) /\ In (square t) (hist_goals h).
    Proof. intros Ht. unfold hist_goals. rewrite !in_app_iff, Ht. simpl. auto 10. Qed.

    (** Either all rows are good and the destinations hold their columns, or both sides raise. *)
    Lemma numeric_or_bad :
      (forall t, In t (h_prof h) \/ h_weight h = Some (WxTree t) ->
         as_nums (dest_find t ex) = Ok (map (fun i => num_at i t) (seq 0 len)) /\
         as_nums (dest_find (square t) ex) = Ok (map (fun i => nmul (num_at i t) (num_at i t)) (seq 0 len)) /\
         forall i, i < len -> numberof i t = Ok (num_at i t)) \/
      ((exists e, read_dest h ex = Err e) /\ exists i, i < len /\ bad i).
    Proof.
      assert (Hp : (forall t, In t (h_prof h) ->
         as_nums (dest_find t ex) = Ok (map (fun i => num_at i t) (seq 0 len)) /\
         as_nums (dest_find (square t) ex) = Ok (map (fun i => nmul (num_at i t) (num_at i t)) (seq 0 len)) /\
         forall i, i < len -> numberof i t = Ok (num_at i t)) \/
         exists t, In t (h_prof h) /\ (exists e, as_nums (dest_find t ex) = Err e) /\
                   exists i e, i < len /\ numberof i t = Err e).
      { assert (Hin : forall t, In t (h_prof h) -> In t (h_prof h)) by auto.
        revert Hin. generalize (h_prof h) at 1 3 4 as ps.
        induction ps as [|t ps IH]; intros Hin; [left; intros t []|].
        destruct IH as [IH|(t' & Ht' & B)]; [intros; apply Hin; right; auto| |right; exists t'; simpl; auto].
        assert (Ht : In t (h_prof h)) by (apply Hin; left; auto).
        destruct (prof_goal t Ht) as (G1 & G2).
        destruct (num_goal t (prof_expr t Ht) G1 G2) as [G|B].
        - left. intros t' [<-|Ht']; auto.
        - right. exists t. split; [left; auto|exact B]. }
      destruct Hp as [Hp|(t & Ht & (e & Ee) & (i & e' & Hi & Ei))].
      2:{ right. split; [|exists i; split; auto; eapply bad_prof; eauto].
          unfold read_dest.
          destruct (mapM _ (h_group h)) as [?|]; cbn [bind]; [|eauto].
          destruct (mapM _ (h_fixed h)) as [?|]; cbn [bind]; [|eauto].
          edestruct (mapM_err_in (fun t => do x <- as_nums (dest_find t ex);
                          do x2 <- as_nums (dest_find (square t) ex); Ok (x, x2)) _ _ e Ht) as [e3 E3].
          - rewrite Ee. reflexivity.
          - rewrite E3. simpl. eauto. }
      destruct (h_weight h) as [[v|t]|] eqn:Ew.
      - left. intros t [Ht|Ht]; [auto|discriminate].
      - destruct (weight_goal t Ew) as (G1 & G2).
        destruct (num_goal t (weight_expr t Ew) G1 G2) as [G|((e & Ee) & (i & e' & Hi & Ei))].
        + left. intros t' [Ht|Ht]; [auto|injection Ht as <-; auto].
        + right. split; [|exists i; split; auto; eapply bad_weight; eauto].
          unfold read_dest.
          destruct (mapM _ (h_group h)) as [?|]; cbn [bind]; [|eauto].
          destruct (mapM _ (h_fixed h)) as [?|]; cbn [bind]; [|eauto].
          destruct (mapM _ (h_prof h)) as [?|]; cbn [bind]; [|eauto].
          rewrite Ew, Ee. simpl. eauto.
      - left. intros t [Ht|Ht]; [auto|discriminate].
    Qed.

    Lemma rows_good :
      (forall t, In t (h_prof h) \/ h_weight h = Some (WxTree t) ->
         forall i, i < len -> numberof i t = Ok (num_at i t)) ->
      forall i, i < len -> rowof i = Ok (the_row i).
    Proof.
      intros Hn i Hi. unfold row_of, the_row.
      rewrite (mapM_map _ (gkey_at i)) by (intros p Hp; apply (group_goal p Hp); auto). cbn [bind].
      rewrite (mapM_map _ (slot_at i)) by (intros p Hp; apply (fixed_goal p Hp); auto). cbn [bind].
      rewrite (mapM_map _ (fun t => (num_at i t, nmul (num_at i t) (num_at i t))))
        by (intros t Ht; rewrite Hn by auto; reflexivity). cbn [bind].
      unfold w_at. destruct (h_weight h) as [[v|t]|] eqn:Ew; cbn [bind]; auto.
      rewrite Hn by auto. reflexivity.
    Qed.

    Lemma map_const_seq {X Y} (f : X -> Y) (g : nat -> X) n : map f (map g (seq 0 n)) = map (fun i => f (g i)) (seq 0 n).
    Proof. apply map_map. Qed.

    Lemma dest_good :
      (forall t, In t (h_prof h) \/ h_weight h = Some (WxTree t) ->
         as_nums (dest_find t ex) = Ok (map (fun i => num_at i t) (seq 0 len)) /\
         as_nums (dest_find (square t) ex) = Ok (map (fun i => nmul (num_at i t) (num_at i t)) (seq 0 len)) /\
         forall i, i < len -> numberof i t = Ok (num_at i t)) ->
      read_dest h ex =
      Ok (dest_of (hist_layout h) (length (h_group h)) (hist_mode h) (map the_row (seq 0 len))).
    Proof.
      intros Hn. unfold read_dest.
      rewrite (mapM_nth _ (fun j => group_col (column r_keys None j (map the_row (seq 0 len))))).
      2:{ intros j p Hj. assert (Hp := nth_error_In _ _ Hj). destruct (group_goal p Hp) as ((u & inv & E & G) & _).
          rewrite E. f_equal. rewrite <- G. f_equal. unfold column. rewrite map_map. apply map_ext.
          intros i. symmetry. apply (nth_map_in (gkey_at i)); auto. }
      cbn [bind].
      rewrite (mapM_nth _ (fun j => Some (column r_slots None j (map the_row (seq 0 len))))).
      2:{ intros j p Hj. assert (Hp := nth_error_In _ _ Hj). destruct (fixed_goal p Hp) as (E & _).
          rewrite E. do 2 f_equal. unfold column. rewrite map_map. apply map_ext.
          intros i. symmetry. apply (nth_map_in (slot_at i)); auto. }
      cbn [bind].
      rewrite (mapM_nth _ (fun p => (map fst (column r_prof (nzero, nzero) p (map the_row (seq 0 len))),
                                     map snd (column r_prof (nzero, nzero) p (map the_row (seq 0 len)))))).
      2:{ intros j t Hj. assert (Ht := nth_error_In _ _ Hj). destruct (Hn t (or_introl Ht)) as (E1 & E2 & _).
          rewrite E1. cbn [bind]. rewrite E2. cbn [bind]. f_equal.
          unfold column. rewrite !map_map. f_equal; apply map_ext; intros i;
            cbn [the_row r_prof]; rewrite (nth_map_in (fun t => (num_at i t, nmul (num_at i t) (num_at i t))) _ _ _ _ Hj); reflexivity. }
      cbn [bind].
      unfold dest_of, hist_layout, hist_mode, l_nprof, l_tots. rewrite map_length.
      destruct (h_weight h) as [[v|t]|] eqn:Ew; cbn [bind]; auto.
      destruct (Hn t (or_intror eq_refl)) as (E1 & E2 & _). rewrite E1. cbn [bind]. rewrite E2. cbn [bind].
      rewrite !map_map. unfold the_row, w_at. cbn [r_w r_w2]. rewrite Ew. reflexivity.
    Qed.
  End AllGood.

  Lemma bad_rows : (exists i, i < len /\ bad i) -> exists e, rows_of cast rnd user h A len = Err e.
  Proof.
    intros (i & Hi & (e & E)). unfold rows_of.
    apply (mapM_err_in (fun i => rowof i) _ i e); auto. apply in_seq. lia.
  Qed.

  Lemma hist_fill_rows order srcs c :
    is_order order -> Permutation srcs (sources (hist_goals h)) ->
    (exists f, fields srcs = Ok f) ->
    (exists s, hist_mentions h s /\ is_array A s) \/ len = 1 ->
    match rows_of cast rnd user h A len with
    | Ok rows => hist_fill cast rnd user order srcs h A c
                 = fill_rows (hist_layout h) (length (h_group h)) (hist_mode h) rows c
    | Err _ => exists e, hist_fill cast rnd user order srcs h A c
                 = (prefill (hist_layout h) (length (h_group h)) c, Some e)
    end.
  Proof.
    intros Ho Hp (f & Hf) Hlen.
    destruct (c18 V VCst (lib cast rnd user) (param A len) order (hist_goals h) srcs Ho Hp) as (is & Ei & R).
    assert (Hparams := instructions_params order srcs _ is Ho Hp Ei).
    assert (Hs : scan_length A is = Ok len).
    { apply scan_ok.
      - intros n t s Hin Et. apply Hargs. apply goals_mention. apply sources_mentions.
        exists t. split; auto. apply Hparams; eauto.
      - destruct Hlen as [(s & Hm & Ha)| ->]; auto. left. apply goals_mention, sources_mentions in Hm.
        destruct Hm as (t & Ht & Et). apply Hparams in Ht. destruct Ht as (n & Hn). exists n, t, s. auto. }
    unfold hist_fill. rewrite Ei. cbn [bind]. rewrite Hf. cbn [bind]. unfold fill_arrays. rewrite Hs. cbn [bind].
    destruct R as [(ex & R & Hnd & Hex & Hall)|(y & g & e & Hg & Hsub & Hd & Ey & R)].
    - rewrite R. cbn [bind snd fst].
      destruct (numeric_or_bad ex Hnd Hex Hall) as [Hn|((e & Ee) & B)].
      + assert (Hrows : rows_of cast rnd user h A len = Ok (map the_row (seq 0 len))).
        { unfold rows_of. apply mapM_map. intros i Hi. apply in_seq in Hi.
          apply (rows_good ex); auto; [|lia]. intros t Ht. apply Hn; auto. }
        rewrite Hrows, (dest_good ex Hnd Hex Hall Hn). cbn [bind].
        unfold fill_rows. rewrite map_length, seq_length. reflexivity.
      + destruct (bad_rows B) as (e' & ->). rewrite Ee. cbn [bind]. eauto.
    - destruct (bad_rows (goal_bad y g e Hg Hsub Hd Ey)) as (e' & ->). rewrite R. cbn [bind]. eauto.
  Qed.
End Main.
