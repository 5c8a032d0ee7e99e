(** Rows are well formed; a filter selects rows, end to end. *)
From Coq Require Import String Permutation.
From Verif Require Import Num NumFacts Base Tree Instr InstrSpec InstrProofs Axis Calc AxisMain Content Fill FillSpec FillMain Elem HistFill HistSpec HistFillProofs HistFillMain HistFillMain2 HistFillMain3.
Local Open Scope list_scope.

Definition axes_valid (h : hist) : Prop := forall p, In p (h_fixed h) -> axis_valid (fst p).
(** Cut expressions are boolean in the row. *)
Definition cuts_boolean user (h : hist) (field : string -> res val) : Prop :=
  forall p e x, In p (h_fixed h) -> fst p = ACut e -> value user field (snd p) <> Ok (VNum x).

Section Rows.
  Variable cast : Num -> Z.
  Variable rnd : Qc -> Num.
  Variable user : string -> list arg -> res val.

  Lemma row_of_inv h f r : row_of cast rnd user h f = Ok r ->
    mapM (fun p => do v <- value user f (snd p); key_of rnd (fst p) v) (h_group h) = Ok (r_keys r) /\
    mapM (fun p => do v <- value user f (snd p); slot_of cast rnd (fst p) v) (h_fixed h) = Ok (r_slots r) /\
    mapM (fun t => do x <- number user f t; Ok (x, nmul x x)) (h_prof h) = Ok (r_prof r) /\
    match h_weight h with
    | None => Ok none1
    | Some (WxConst v) => Ok v
    | Some (WxTree t) => number user f t
    end = Ok (r_w r) /\ r_w2 r = nmul (r_w r) (r_w r).
  Proof.
    intros E. unfold row_of in E. apply bind_ok in E. destruct E as (ks & E1 & E).
    apply bind_ok in E. destruct E as (ss & E2 & E). apply bind_ok in E. destruct E as (ps & E3 & E).
    apply bind_ok in E. destruct E as (w & E4 & E). injection E as <-. simpl. auto.
  Qed.

  Lemma row_of_ok h f r : hist_wf h -> axes_valid h -> cuts_boolean user h f ->
    row_of cast rnd user h f = Ok r -> (forall k, In (Some k) (r_keys r) -> key_ok k) ->
    row_ok (hist_layout h) (length (h_group h)) r.
  Proof.
    intros (Wg & Wf & _) Hv Hc E Hk. apply row_of_inv in E. destruct E as (E1 & E2 & E3 & _).
    apply mapM_ok in E1. apply mapM_ok in E2. apply mapM_ok in E3.
    split; [symmetry; eapply Forall2_len; eauto|]. split; auto. split.
    - unfold hist_layout. cbn [l_tots].
      assert (H : forall p s, In p (h_fixed h) -> (do v <- value user f (snd p); slot_of cast rnd (fst p) v) = Ok s ->
                  slot_ok (totbins (fst p)) s).
      { intros p s Hp Es. apply bind_ok in Es. destruct Es as (v & Ev & Es). destruct (Wf p Hp) as (F1 & F2).
        eapply slot_in_range; eauto. intros e x Ee ->. exact (Hc p e x Hp Ee Ev). }
      revert E2 H. generalize (r_slots r). clear. induction (h_fixed h) as [|p l IH]; intros ss E H; inversion E; subst; constructor.
      + apply H; [left; auto|auto].
      + apply IH; auto. intros q s Hq. apply H. right; auto.
    - unfold hist_layout. cbn [l_nprof]. symmetry. eapply Forall2_len; eauto.
  Qed.

  Definition hist_ready (h : hist) (A : arrays) (len : nat) (rows : list row) (c : content) : Prop :=
    rows_of cast rnd user h A len = Ok rows /\
    axes_valid h /\ (forall i, i < len -> cuts_boolean user h (field_at A i)) /\
    (forall r k, In r rows -> In (Some k) (r_keys r) -> key_ok k) /\
    layout_ok (hist_layout h) /\ hist_ok (hist_layout h) (length (h_group h)) c /\
    no_masked_profile (hist_layout h) rows.

  Lemma ready_pre h A len rows c : hist_wf h -> hist_ready h A len rows c ->
    fill_pre (hist_layout h) (length (h_group h)) (hist_mode h) rows c.
  Proof.
    intros Hwf (E & Hv & Hc & Hk & HL & HC & HP). split; auto. split.
    { unfold mode_ok, hist_layout, hist_mode. simpl. destruct (h_weight h) as [[v|t]|]; reflexivity. }
    split; [|split; auto].
    apply Forall_forall. intros r Hr. unfold rows_of in E. apply mapM_ok in E.
    assert (H : exists i, In i (seq 0 len) /\ row_of cast rnd user h (field_at A i) = Ok r).
    { clear - E Hr. induction E; [destruct Hr|]. destruct Hr as [<-|Hr].
      - exists x. simpl; auto.
      - destruct IHE as (i & H1 & H2); auto. exists i. simpl; auto. }
    destruct H as (i & Hi & Er). apply in_seq in Hi. eapply row_of_ok; eauto. apply Hc. lia.
  Qed.

  (** ** Filters *)
  Open Scope string_scope.
  Definition filter_tree (f : tree) : tree := TCall "where" [f; TConst (knum (nz 1)); TConst (knum (nz 0))].
  Definition with_weight (h : hist) (w : option wexpr) : hist :=
    {| h_group := h_group h; h_fixed := h_fixed h; h_prof := h_prof h; h_weight := w |}.

  (** The filter is true in row [i]. *)
  Definition passes (A : arrays) (f : tree) (i : nat) : bool :=
    match value user (field_at A i) f with
    | Ok v => match val_truth v with Ok b => b | Err _ => false end
    | Err _ => false
    end.

  Definition one_or_zero (b : bool) : Num := if b then nz 1 else nz 0.

  Lemma filter_number field f x : number user field (filter_tree f) = Ok x ->
    exists v b, value user field f = Ok v /\ val_truth v = Ok b /\ x = one_or_zero b.
  Proof.
    unfold number, value, filter_tree. rewrite reval_call. cbn [mapM].
    destruct (reval user field f) as [a|]; cbn [bind]; [|discriminate].
    change (reval user field (TConst (knum (nz 1)))) with (Ok (AC (knum (nz 1)))).
    change (reval user field (TConst (knum (nz 0)))) with (Ok (AC (knum (nz 0)))). cbn [bind].
    unfold efun. cbn [String.eqb Ascii.eqb Bool.eqb]. unfold arg_truth.
    destruct (arg_val a) as [v|]; cbn [bind rmap]; [|discriminate].
    destruct (val_truth v) as [b|] eqn:Et; cbn [bind rmap]; [|discriminate].
    intros E. exists v, b. split; auto. split; auto.
    destruct b; injection E as <-; reflexivity.
  Qed.

  Lemma truth_one b : neqb (one_or_zero b) none1 = b.
  Proof. destruct b; reflexivity. Qed.

  (** The row as it would be without the weight. *)
  Definition unweigh (r : row) : row :=
    {| r_keys := r_keys r; r_slots := r_slots r; r_prof := r_prof r; r_w := none1; r_w2 := nmul none1 none1 |}.
  Definition keeps (r : row) : bool := neqb (r_w r) none1.

  Lemma row_with_weight h w f r : row_of cast rnd user (with_weight h (Some (WxTree w))) f = Ok r ->
    row_of cast rnd user (with_weight h None) f = Ok (unweigh r) /\ number user f w = Ok (r_w r) /\
    r_w2 r = nmul (r_w r) (r_w r).
  Proof.
    intros E. apply row_of_inv in E. simpl in E. destruct E as (E1 & E2 & E3 & E4 & E5).
    split; auto. unfold row_of. cbn [with_weight h_group h_fixed h_prof h_weight].
    rewrite E1. cbn [bind]. rewrite E2. cbn [bind]. rewrite E3. reflexivity.
  Qed.

  Lemma fill_rows_unweigh L ng rows c : fill_rows L ng Unweighted (map unweigh rows) c = fill_rows L ng Unweighted rows c.
  Proof.
    unfold fill_rows. rewrite map_length. f_equal. unfold dest_of. f_equal.
    - apply map_ext. intros j. f_equal. unfold column. rewrite map_map. reflexivity.
    - apply map_ext. intros j. f_equal. unfold column. rewrite map_map. reflexivity.
    - apply map_ext. intros j. unfold column. rewrite !map_map. reflexivity.
  Qed.

  Lemma rows_selected {X} (F : nat -> res X) (G : X -> X) (F' : nat -> res X) (keep : X -> bool) (p : nat -> bool) ns rows :
    mapM F ns = Ok rows -> (forall i r, In i ns -> F i = Ok r -> F' i = Ok (G r) /\ p i = keep r) ->
    mapM F' (filter p ns) = Ok (map G (filter keep rows)).
  Proof.
    intros E H. apply mapM_ok in E. induction E as [|i r ns rows Ei E IH]; simpl; auto.
    destruct (H i r (or_introl eq_refl) Ei) as (H1 & H2). rewrite H2.
    assert (IH' : mapM F' (filter p ns) = Ok (map G (filter keep rows))) by (apply IH; intros; apply H; auto; right; auto).
    destruct (keep r); simpl; [rewrite H1; simpl; rewrite IH'; reflexivity|auto].
  Qed.

  Section Filter.
    Variable order : tree -> list tree -> list tree.
    Variable h : hist.
    Variable f : tree.
    Notation hf := (with_weight h (Some (WxTree (filter_tree f)))).
    Notation hu := (with_weight h None).
    Variables sf su : list tree.
    Hypothesis Ho : is_order order.
    Hypothesis Hsf : Permutation sf (sources (hist_goals hf)).
    Hypothesis Hsu : Permutation su (sources (hist_goals hu)).
    Hypothesis Hwf : hist_wf hf.
    Hypothesis Hnb : no_bcast hf.

    Lemma exprs_sub t : In t (hist_exprs hu) -> In t (hist_exprs hf).
    Proof.
      unfold hist_exprs. cbn [with_weight h_group h_fixed h_prof h_weight]. rewrite !in_app_iff.
      intros [H|[H|[H|[]]]]; auto.
    Qed.
    Lemma wf_unweighted : hist_wf hu /\ no_bcast hu.
    Proof.
      destruct Hwf as (W1 & W2 & W3). split.
      - split; auto. split; auto. intros t Ht. apply W3. apply exprs_sub; auto.
      - intros t c Ht. apply Hnb. apply exprs_sub; auto.
    Qed.
    Lemma mentions_unweighted s : hist_mentions hu s -> hist_mentions hf s.
    Proof.
      intros (t & Ht & M). exists t. split; auto. apply exprs_sub; auto.
    Qed.

    Lemma filter_e2e A len rows :
      args_ok hf A len -> (exists s, hist_mentions hu s /\ is_array A s) ->
      hist_ready hf A len rows CNone ->
      (forall r, In r rows -> keeps r = false -> finite_profiles r) ->
      exists c1 c2,
        hist_fill cast rnd user order sf hf A CNone = (c1, None) /\
        hist_fill cast rnd user order su hu (gather (filter (passes A f) (seq 0 len)) A) CNone = (c2, None) /\
        forall ks ss kd, in_shape (hist_layout hf) ss -> has_column (hist_layout hf) kd ->
          cell (hist_layout hf) c1 ks ss (column_of (hist_layout hf) kd) =
          match kd with
          | SumW2 => cell (hist_layout hu) c2 ks ss (column_of (hist_layout hu) SumW)
          | _ => cell (hist_layout hu) c2 ks ss (column_of (hist_layout hu) kd)
          end.
    Proof.
      intros HA Har Hready Hfin. assert (Hpre := ready_pre _ _ _ _ _ Hwf Hready).
      destruct Hready as (E & _). change (hist_mode hf) with ExprWeight in Hpre.
      destruct wf_unweighted as (Wu & Nu).
      assert (Hrow : forall i r, In i (seq 0 len) -> row_of cast rnd user hf (field_at A i) = Ok r ->
        row_of cast rnd user hu (field_at A i) = Ok (unweigh r) /\ passes A f i = keeps r).
      { intros i r Hi Er. apply row_with_weight in Er. destruct Er as (E1 & E2 & _). split; auto.
        apply filter_number in E2. destruct E2 as (v & b & Ev & Et & Ew).
        unfold passes, keeps. rewrite Ev, Et, Ew, truth_one. reflexivity. }
      assert (Hw : forall r, In r rows -> filtered1 keeps r = r).
      { intros r Hr. unfold rows_of in E. apply mapM_ok in E.
        assert (exists i, row_of cast rnd user hf (field_at A i) = Ok r) as (i & Er).
        { clear - E Hr. induction E; [destruct Hr|]. destruct Hr as [<-|Hr]; eauto. }
        apply row_with_weight in Er. destruct Er as (_ & E2 & E3).
        apply filter_number in E2. destruct E2 as (v & b & _ & _ & Ew).
        unfold filtered1, keeps. rewrite Ew, truth_one. destruct r; simpl in *. subst.
        destruct b; reflexivity. }
      assert (Hmap : map (filtered1 keeps) rows = rows).
      { clear - Hw. induction rows as [|r rows IH]; simpl; auto. rewrite Hw by (left; auto).
        f_equal. apply IH. intros r' Hr'. apply Hw. right; auto. }
      destruct (c13_filter_unweighted (hist_layout hf) (length (h_group h)) keeps rows Hpre Hfin) as (c1 & c2 & F1 & F2 & F3).
      rewrite Hmap in F1.
      exists c1, c2. split; [|split].
      - rewrite (fill_is_rows cast rnd user order hf sf Ho Hsf Hwf Hnb A len rows); auto.
      - assert (Hidx : forall i, In i (filter (passes A f) (seq 0 len)) -> i < len).
        { intros i Hi. apply filter_In in Hi. destruct Hi as (Hi & _). apply in_seq in Hi. lia. }
        assert (HAu : args_ok hu A len).
        { split; [|left; auto]. intros s Hs. apply HA. apply mentions_unweighted; auto. }
        rewrite (fill_is_rows cast rnd user order hu su Ho Hsu Wu Nu _ (length (filter (passes A f) (seq 0 len))) (map unweigh (filter keeps rows))).
        + change (hist_mode hu) with Unweighted. rewrite fill_rows_unweigh. exact F2.
        + apply gather_args with (n := len); auto.
        + rewrite (rows_gather cast rnd user hu A len); auto.
          * unfold rows_of in E. exact (rows_selected _ unweigh _ keeps _ _ _ E Hrow).
          * intros s Hs. apply (proj1 HAu s Hs).
      - exact F3.
    Qed.
  End Filter.
End Rows.
