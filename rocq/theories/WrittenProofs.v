(** Filters, chunks and row order for histograms as they are written: proofs. *)
From Coq Require Import String Permutation.
From Verif Require Import Num NumFacts Base Tree Instr InstrSpec Axis Calc AxisMain Content Fill FillSpec FillMain Elem HistFill HistSpec
  HistFillProofs HistFillMain HistFillMain2 HistFillMain3 HistFillMain4 Order Expr ExprSpec ExprGood ExprNames HistNew HistNewSpec HistNewProofs
  WrittenSpec.
Open Scope string_scope.
Local Open Scope list_scope.

(** The rows at the chosen positions. *)
Definition pick {X} (p : nat -> bool) (l : list (nat * X)) : list X := map snd (filter (fun q => p (fst q)) l).
Lemma pick_in {X} p (l : list (nat * X)) x : In x (pick p l) -> exists i, In (i, x) l /\ p i = true.
Proof. unfold pick. intros H. apply in_map_iff in H as ([i y] & <- & H). apply filter_In in H as (H & P). eauto. Qed.

Lemma mapM_pick {X} (f : nat -> res X) p is : forall rows, Forall2 (fun i r => f i = Ok r) is rows ->
  mapM f (filter p is) = Ok (pick p (combine is rows)).
Proof.
  intros rows H. induction H as [|i r is rows E H IH]; auto. unfold pick in *. cbn [combine filter fst]. destruct (p i); auto.
  cbn [mapM map snd]. rewrite E, IH. reflexivity.
Qed.
Lemma pre_sub L ng m rows rows' c : (forall r, In r rows' -> In r rows) -> fill_pre L ng m rows c -> fill_pre L ng m rows' c.
Proof.
  intros S (A & B & C & D & E). split; auto. split; auto. rewrite Forall_forall in C. split.
  { apply Forall_forall. auto. } split; auto. destruct E as [E|E]; [left; auto|right]. rewrite Forall_forall in *. auto.
Qed.

Section Written.
  Variable cast : Num -> Z.
  Variable rnd : Qc -> Num.
  Variable user : string -> list arg -> res val.
  Variable order : tree -> list tree -> list tree.
  Hypothesis Hb : broadcasts user.
  Hypothesis Hp : powers user.
  Hypothesis Ho : is_order order.

  (** Filling only some rows. *)
  Lemma fill_picked h srcs A len rows c p :
    Permutation srcs (sources (hist_goals h)) -> hist_wf h -> no_bcast h -> args_ok h A len ->
    (exists s, hist_mentions h s /\ is_array A s) ->
    hist_ready cast rnd user h A len rows c ->
    exists c', hist_fill cast rnd user order srcs h (HistFillMain3.gather (filter p (seq 0 len)) A) c = (c', None) /\
      content_ok (hist_layout h) (length (h_group h)) c' /\
      forall ks ss kd, in_shape (hist_layout h) ss -> has_column (hist_layout h) kd ->
        cell (hist_layout h) c' ks ss (column_of (hist_layout h) kd) =
        nadd (cell (hist_layout h) c ks ss (column_of (hist_layout h) kd))
             (nsum (map (row_adds (hist_mode h) kd) (filter (in_cell ks ss) (pick p (combine (seq 0 len) rows))))).
  Proof.
    intros Hs Hwf Hnb HA Har HR. pose proof (ready_pre cast rnd user _ _ _ _ _ Hwf HR) as Hpre. destruct HR as (E & _).
    assert (Hidx : forall i, In i (filter p (seq 0 len)) -> i < len).
    { intros i Hi. apply filter_In in Hi as (Hi & _). apply in_seq in Hi. lia. }
    assert (Hsub : forall r, In r (pick p (combine (seq 0 len) rows)) -> In r rows).
    { intros r Hr. apply pick_in in Hr as (i & Hi & _). eapply in_combine_r; eauto. }
    destruct (c10_fill _ _ _ _ _ (pre_sub _ _ _ _ _ _ Hsub Hpre)) as (c' & Ec & Hc & V). exists c'. split; [|split]; auto.
    rewrite (fill_is_rows cast rnd user order h srcs Ho Hs Hwf Hnb _ (length (filter p (seq 0 len))) (pick p (combine (seq 0 len) rows))); auto.
    - apply HistFillMain3.gather_args with (n := len); auto.
    - rewrite (HistFillMain3.rows_gather cast rnd user h A len); auto.
      + apply mapM_pick. apply mapM_ok. exact E.
      + intros s Hm. apply (proj1 HA s Hm).
  Qed.

  (** A histogram without its filter, on the same data. *)
  Definition without (r r0 : row) (b : bool) : Prop :=
    r_keys r = r_keys r0 /\ r_slots r = r_slots r0 /\ r_prof r = r_prof r0 /\
    r_w r = (if b then r_w r0 else nzero) /\ r_w2 r = nmul (r_w r) (r_w r) /\ r_w2 r0 = nmul (r_w r0) (r_w r0).

  Lemma row_without A i w r : w_filter w <> None ->
    written_row cast rnd user (field_at A i) w = Ok r ->
    exists r0 x, given_weight user (field_at A i) w = Ok x /\ r_w r0 = x /\
      written_row cast rnd user (field_at A i) (unfiltered w) = Ok r0 /\ without r r0 (lets_through user w A i).
  Proof.
    intros Hf H. unfold written_row in *. change (axes_of is_group (unfiltered w)) with (axes_of is_group w).
    change (axes_of is_fixed (unfiltered w)) with (axes_of is_fixed w). change (axes_of is_profile (unfiltered w)) with (axes_of is_profile w).
    apply bind_ok in H as (ks & Ek & H). apply bind_ok in H as (ss & Es & H). apply bind_ok in H as (ps & Ep & H). apply bind_ok in H as (y & Ew & H).
    injection H as <-. rewrite Ek, Es, Ep. unfold written_weight in *. apply bind_ok in Ew as (x & Ex & Ew).
    change (given_weight user (field_at A i) (unfiltered w)) with (given_weight user (field_at A i) w). rewrite Ex. cbn [bind unfiltered w_filter].
    unfold lets_through. destruct (w_filter w) as [f|]; [|contradiction]. apply bind_ok in Ew as (b & Eb & Ew). injection Ew as <-. rewrite Eb.
    eexists. exists x. split; [reflexivity|]. split; [|split; [reflexivity|]]; [reflexivity|]. repeat split.
  Qed.

  Lemma rows_without A w is rows : w_filter w <> None ->
    Forall2 (fun i r => written_row cast rnd user (field_at A i) w = Ok r) is rows ->
    exists rows0, Forall2 (fun i r => written_row cast rnd user (field_at A i) (unfiltered w) = Ok r) is rows0 /\
      Forall2 (fun q r0 => without (snd q) r0 (lets_through user w A (fst q)) /\ given_weight user (field_at A (fst q)) w = Ok (r_w r0)) (combine is rows) rows0.
  Proof.
    intros Hf H. induction H as [|i r is rows E H IH]; [exists []; split; constructor|]. destruct IH as (rows0 & I1 & I2).
    destruct (row_without A i w r Hf E) as (r0 & x & G & <- & E0 & W). exists (r0 :: rows0). split; constructor; auto.
  Qed.

  Lemma faithful_without field w : faithful_row user field w -> faithful_row user field (unfiltered w).
  Proof.
    intros (F & _). split.
    - intros s Hs. apply F. unfold written_exprs in *. cbn [unfiltered w_axes w_weight w_filter] in Hs.
      rewrite app_nil_r in Hs. rewrite !in_app_iff in *. tauto.
    - unfold faithful_weight. cbn [unfiltered w_weight w_filter]. destruct (w_weight w); exact I.
  Qed.

  Lemma ready_without w A len rows c c0 : w_filter w <> None ->
    written_ready cast rnd user w A len rows c ->
    hist_ok (written_layout (unfiltered w)) (List.length (axes_of is_group w)) c0 ->
    exists rows0, written_ready cast rnd user (unfiltered w) A len rows0 c0 /\
      Forall2 (fun q r0 => without (snd q) r0 (lets_through user w A (fst q)) /\ given_weight user (field_at A (fst q)) w = Ok (r_w r0))
        (combine (seq 0 len) rows) rows0.
  Proof.
    intros Hf (NN & CL & RD & FR & RW & AV & CB & KO & LO & HO & MP) HO0. unfold written_rows in RW. apply mapM_ok in RW.
    destruct (rows_without A w _ _ Hf RW) as (rows0 & R0 & W0). exists rows0. split; auto.
    assert (T : forall x (g : src -> list string), In x (flat_map g (written_texts (unfiltered w))) -> In x (flat_map g (written_texts w))).
    { intros x g Hx. apply in_flat_map in Hx as (s & Hs & Hx). apply in_flat_map. exists s. split; auto.
      unfold written_texts in *. cbn [unfiltered w_axes w_weight w_filter] in Hs. rewrite app_nil_r in Hs. rewrite !in_app_iff in *. tauto. }
    assert (RR : forall r0, In r0 rows0 -> exists r, In r rows /\ r_keys r = r_keys r0 /\ r_slots r = r_slots r0).
    { intros r0 H0. clear - W0 H0. assert (S : forall q, In q (combine (seq 0 len) rows) -> In (snd q) rows) by (intros [i r] Hq; eapply in_combine_r; eauto).
      induction W0 as [|q r l rows0 (W & _) W0 IH]; [destruct H0|]. destruct H0 as [<-|H0].
      - exists (snd q). split; [apply S; left; auto|]. destruct W as (A1 & A2 & _). auto.
      - apply IH; auto. intros q' Hq. apply S. right; auto. }
    split; [exact NN|]. split; [intros f Hx; apply CL; apply T; auto|]. split; [intros s Hx; apply RD; apply T; auto|].
    split; [intros i Hi; apply faithful_without; auto|]. split; [unfold written_rows; apply mapM_ok; auto|].
    split; [exact AV|]. split; [exact CB|]. split.
    { intros r0 k H0 Hk. destruct (RR r0 H0) as (r & Hr & E & _). apply (KO r k Hr). rewrite E. auto. }
    split; [exact LO|]. split; [exact HO0|]. destruct MP as [MP|MP]; [left; exact MP|right].
    rewrite Forall_forall in *. intros r0 H0. destruct (RR r0 H0) as (r & Hr & _ & E). specialize (MP r Hr). unfold unmasked in *. rewrite <- E. auto.
  Qed.

  Definition weight_fits (w : written) (x : Num) : Prop :=
    match w_weight w with None => x = none1 | Some (WNumber v) => x = v | Some (WExpr _) => True end.

  Lemma adds_passing w kd r r0 : w_filter w <> None -> without r r0 true -> weight_fits w (r_w r0) -> isnan (r_w r0) = false ->
    row_adds (written_mode w) kd r = row_adds (written_mode (unfiltered w)) (column_without w kd) r0.
  Proof.
    intros Hf (A1 & A2 & A3 & A4 & A5 & A6) F N. unfold written_mode, column_without, weight_fits in *. cbn [unfiltered w_weight w_filter].
    assert (N' : isnan (r_w r) = false) by congruence.
    destruct (w_weight w) as [[v|s]|], (w_filter w); try contradiction;
    destruct kd; cbn [row_adds row_weight row_weight2]; rewrite ?N, ?N', ?A3, ?A5, ?A4, ?A6, ?F; auto.
  Qed.
  Lemma adds_rejected w kd r r0 : w_filter w <> None -> without r r0 false -> finite_profiles r -> row_adds (written_mode w) kd r = nzero.
  Proof.
    intros Hf (A1 & A2 & A3 & A4 & A5 & A6) FP.
    assert (M : written_mode w = ExprWeight) by (unfold written_mode; destruct (w_weight w) as [[v|s]|], (w_filter w); try contradiction; auto).
    assert (Z2 : nmul nzero nzero = nzero) by (unfold nzero; simpl; f_equal; apply Qc_is_canon; reflexivity).
    assert (P : forall p, isfin (fst (nth p (r_prof r) (nzero, nzero))) = true /\ isfin (snd (nth p (r_prof r) (nzero, nzero))) = true).
    { intros p. unfold finite_profiles in FP. rewrite Forall_forall in FP. destruct (nth_in_or_default p (r_prof r) (nzero, nzero)) as [I|E]; auto. rewrite E. auto. }
    assert (Z : forall x, isfin x = true -> nmul x nzero = nzero).
    { intros [q| | |] Hx; try discriminate. unfold nzero. simpl. f_equal. rewrite Qcmult_comm. apply Qcmult_0_l. }
    rewrite M. destruct kd; cbn [row_adds row_weight row_weight2]; rewrite ?A5, A4; cbn [isnan nzero]; change (Fin qc0) with nzero; auto.
    - apply Z. apply P.
    - apply Z. apply P.
  Qed.

  Lemma sums_without w ks ss kd l rows0 p : w_filter w <> None ->
    Forall2 (fun q r0 => without (snd q) r0 (p (fst q)) /\ weight_fits w (r_w r0) /\ isnan (r_w r0) = false) l rows0 ->
    (forall q, In q l -> p (fst q) = false -> finite_profiles (snd q)) ->
    nsum (map (row_adds (written_mode w) kd) (filter (in_cell ks ss) (map snd l))) =
    nsum (map (row_adds (written_mode (unfiltered w)) (column_without w kd)) (filter (in_cell ks ss) (pick p (combine (map fst l) rows0)))).
  Proof.
    intros Hf H. induction H as [|[i r] r0 l rows0 (W & F & N) H IH]; intros FP; auto.
    assert (IH' := IH (fun q Hq => FP q (or_intror Hq))). clear IH. unfold pick in *. cbn [map fst snd combine filter] in *.
    assert (EC : in_cell ks ss r = in_cell ks ss r0) by (destruct W as (A1 & A2 & _); unfold in_cell; rewrite A1, A2; reflexivity).
    destruct (p i) eqn:E; cbn [map snd filter].
    - rewrite EC. destruct (in_cell ks ss r0); auto. cbn [map]. unfold nsum in *. cbn [fold_right]. rewrite (adds_passing w kd r r0), IH'; auto.
    - destruct (in_cell ks ss r) eqn:EI; auto. cbn [map]. unfold nsum in *. cbn [fold_right]. rewrite (adds_rejected w kd r r0), IH'; auto.
      + apply nadd_0_l.
      + apply (FP (i, r)); auto. left; auto.
  Qed.

  Theorem written_filter w h h0 srcs srcs0 A len rows c c0 : w_filter w <> None ->
    newh (fun _ => None) (w_axes w) (w_weight w) (w_filter w) = Ok h ->
    newh (fun _ => None) (w_axes w) (w_weight w) None = Ok h0 ->
    Permutation srcs (sources (hist_goals h)) -> Permutation srcs0 (sources (hist_goals h0)) ->
    driven h A len -> driven h0 A len -> (exists s, hist_mentions h0 s /\ is_array A s) ->
    written_ready cast rnd user w A len rows c ->
    hist_ok (written_layout (unfiltered w)) (List.length (axes_of is_group w)) c0 ->
    (forall i r, i < len -> lets_through user w A i = false -> nth_error rows i = Some r -> finite_profiles r) ->
    holds_the_same w c c0 ->
    exists c' c0',
      hist_fill cast rnd user order srcs h A c = (c', None) /\
      hist_fill cast rnd user order srcs0 h0 (HistFillMain3.gather (passing user w A len) A) c0 = (c0', None) /\
      holds_the_same w c' c0' /\
      content_ok (written_layout (unfiltered w)) (List.length (axes_of is_group w)) c0'.
  Proof.
    intros Hf Hn Hn0 Hs Hs0 HD HD0 Har HR HO0 FP HS.
    destruct (ready_without w A len rows c c0 Hf HR HO0) as (rows0 & HR0 & W0).
    destruct (written_fill cast rnd user Hb Hp order w h srcs A len rows c Ho Hn Hs HD HR) as (c' & E & V).
    destruct (written_is_ready cast rnd user Hb Hp (unfiltered w) h0 A len rows0 c0 Hn0 HD0 HR0) as (WF0 & NB0 & AO0 & RDY0 & AD0).
    destruct (fill_picked h0 srcs0 A len rows0 c0 (lets_through user w A) Hs0 WF0 NB0 AO0 Har RDY0) as (c0' & E0 & K0 & V0).
    pose proof (whole_layout (unfiltered w) h0 Hn0) as EL. rewrite EL in V0, K0.
    exists c', c0'. split; auto. split; auto. split; [|rewrite (whole_ngroup (unfiltered w) h0 Hn0) in K0; exact K0].
    intros ks ss kd Hss Hkd. rewrite (V ks ss kd Hss Hkd), (HS ks ss kd Hss Hkd).
    assert (Hkd0 : has_column (written_layout (unfiltered w)) (column_without w kd)).
    { clear - Hkd. unfold column_without, written_layout. cbn [unfiltered w_weight w_filter w_axes]. destruct kd, (w_weight w) as [[v|s]|]; simpl in *; auto. }
    rewrite (V0 ks ss _ Hss Hkd0). f_equal.
    assert (LR : length rows = len).
    { destruct HR as (_ & _ & _ & _ & RW & _). unfold written_rows in RW. apply mapM_ok in RW. rewrite <- (seq_length len 0). clear - RW. induction RW; simpl; congruence. }
    assert (CM : map snd (combine (seq 0 len) rows) = rows).
    { clear - LR. revert LR. generalize 0. revert len. induction rows as [|r rows IH]; intros [|len] n H; simpl in *; try discriminate; auto. f_equal. apply IH. lia. }
    assert (CF : map fst (combine (seq 0 len) rows) = seq 0 len).
    { clear - LR. revert LR. generalize 0. revert len. induction rows as [|r rows IH]; intros [|len] n H; simpl in *; try discriminate; auto. f_equal. apply IH. lia. }
    pose proof (sums_without w ks ss kd (combine (seq 0 len) rows) rows0 (lets_through user w A) Hf) as SW. rewrite CM, CF in SW. rewrite SW; clear SW.
    - f_equal. apply map_ext_in. intros r0 H0. symmetry. apply AD0. apply filter_In in H0 as (H0 & _). apply pick_in in H0 as (i & H0 & _).
      eapply in_combine_r; eauto.
    - assert (FF : forall q, In q (combine (seq 0 len) rows) -> faithful_row user (field_at A (fst q)) w).
      { intros [i r] Hq. apply in_combine_l in Hq. apply in_seq in Hq. destruct HR as (_ & _ & _ & FR & _). apply FR. simpl. lia. }
      clear - W0 FF Hf. induction W0 as [|q r0 l rows0 (W & G) W0 IH]; constructor.
      + split; auto. specialize (FF q (or_introl eq_refl)). destruct FF as (_ & FW). unfold faithful_weight, weight_fits, given_weight in *.
        destruct (w_weight w) as [[v|s]|], (w_filter w); try contradiction.
        * destruct FW as ((z & Ez) & _). injection G as <-. injection Ez as ->. auto.
        * destruct FW as ((z & Ez) & _). rewrite G in Ez. injection Ez as ->. auto.
        * injection G as <-. auto.
      + apply IH. intros q' Hq. apply FF. right; auto.
    - intros [i r] Hq Hl. simpl in *. clear - FP Hq Hl LR. assert (N : nth_error rows i = Some r /\ i < len).
      { clear FP Hl. assert (G : forall n len, length rows = len -> In (i, r) (combine (seq n len) rows) -> nth_error rows (i - n) = Some r /\ n <= i < n + len).
        { clear. induction rows as [|r' rows IH]; intros n [|len] L I; simpl in *; try discriminate; try tauto. destruct I as [I|I].
          - injection I as <- <-. replace (n - n) with 0 by lia. split; auto. lia.
          - destruct (IH (S n) len) as (J & K); auto. split; [|lia]. replace (i - n) with (S (i - S n)) by lia. auto. }
        destruct (G 0 len LR Hq) as (J & K). rewrite Nat.sub_0_r in J. split; auto. lia. }
      apply (FP i r); tauto.
  Qed.
End Written.
