(** C68: groupkeys, hist[...] and hist.axis[...]. *)
From Coq Require Import String Permutation.
From Verif Require Import Num NumFacts Base Tree Instr InstrSpec Axis AlgSpec CompareProofs Calc AxisMain Content Fill FillSpec FillProofs2 FillMain Elem HistFill HistSpec
  HistFillProofs HistFillMain3 HistFillMain4 Order Expr ExprFacts ExprSpec ExprGood ExprNames HistNew HistNewSpec HistNewProofs
  Props_Expr Props_Fill Props_Hist Props_HistNew Access AccessSpec AccessProofs.
Open Scope string_scope.
Local Open Scope list_scope.

Definition axes_distinct (group : list (axis * expr)) : Prop :=
  NoDup (map fst group) /\ forall p, In p group -> nan_free_axis (fst p).

Lemma groupkeys_is defs group fixed prof arg i c : axes_distinct group ->
  asks_for (parse_top py_sorted defs) group fixed prof arg i ->
  groupkeys py_sorted defs group fixed prof c arg = rmap nodup_keys (level i c).
Proof.
  intros (ND & NF) H.
  assert (G : forall i a e, nth_error group i = Some (a, e) -> first_axis (fun p => axis_eqb (fst p) a) 0 group = Some (i, (a, e))).
  { intros n a e N. assert (I : In (a, e) group) by (eapply nth_error_In; eauto).
    assert (Ea : axis_eqb a a = true) by (apply axis_eqb_refl; apply (NF _ I)).
    destruct (first_axis_hit (fun p => axis_eqb (fst p) a) group (a, e) I Ea 0) as (j & y & F). rewrite F.
    apply first_axis_some in F. destruct F as (m & -> & M & P & _). apply axis_eqb_iff in P. destruct P as (P & _).
    assert (m = n).
    { rewrite NoDup_nth_error in ND. apply ND; [rewrite map_length; apply nth_error_Some; congruence|].
      rewrite !nth_error_map, M, N. simpl. congruence. }
    subst m. rewrite N in M. injection M as <-. reflexivity. }
  destruct H as [i a e N|z i Hi Hz|s i a e P N F]; unfold groupkeys.
  - cbn [bind]. rewrite (G i a e N). reflexivity.
  - cbn [axis_get]. unfold py_nth. rewrite (proj2 (means_index_iff _ _ _) Hz).
    destruct (nth_error group i) as [[a e]|] eqn:N; [|apply nth_error_None in N; lia].
    rewrite nth_error_app1, N by auto. cbn [rmap bind fst]. rewrite (G i a e N). reflexivity.
  - cbn [axis_get]. rewrite P. cbn [bind].
    assert (I : In (a, e) (group ++ fixed ++ prof)) by (apply in_app_iff; left; eapply nth_error_In; eauto).
    destruct (first_axis_hit (fun p => expr_same e (snd p)) _ (a, e) I (expr_same_refl e) 0) as (j & [b e'] & FA). rewrite FA.
    apply first_axis_some in FA. destruct FA as (m & -> & M & Q & B). cbn [snd] in Q. apply expr_same_eq in Q. subst e'.
    assert (Hi : i < List.length group) by (apply nth_error_Some; congruence).
    assert (m = i).
    { destruct (Nat.lt_trichotomy m i) as [Hl|[->|Hl]]; auto.
      - exfalso. apply (F m b Hl). rewrite nth_error_app1 in M by lia. exact M.
      - specialize (B i (a, e) Hl). rewrite nth_error_app1 in B by auto. specialize (B N). cbn [snd] in B. rewrite expr_same_refl in B. discriminate. }
    subst m. rewrite nth_error_app1, N in M by auto. injection M as <-. cbn [rmap bind fst]. rewrite (G i a e N). reflexivity.
Qed.

(** ** groupkeys after any history of fills is the set of the values that the rows had on the axis,
    if every group axis keeps every row. *)
Theorem C68_groupkeys_are_the_values : forall defs group fixed prof arg i L m chunks c,
  axes_distinct group -> asks_for (parse_top py_sorted defs) group fixed prof arg i -> i < List.length group ->
  fill_pre L (List.length group) m (concat chunks) CNone -> chunks <> [] ->
  (forall r, In r (concat chunks) -> keyed r) ->
  fill_all L (List.length group) m chunks CNone = (c, None) ->
  exists l, groupkeys py_sorted defs group fixed prof c arg = Ok l /\ NoDup l /\
    forall k, In k l <-> exists r, In r (concat chunks) /\ row_has i k r.
Proof.
  intros defs group fixed prof arg i L m chunks c AD AF Hi PRE NE KD E.
  destruct (fills_levels _ _ _ _ _ _ PRE E) as (_ & CO & LV). specialize (CO NE).
  rewrite (groupkeys_is _ _ _ _ _ _ _ AD AF). destruct (level_ok _ _ i c CO Hi) as (l & El & Hl). rewrite El. cbn [rmap].
  exists (nodup_keys l). split; auto.
  assert (KO : Forall key_ok l) by (apply Forall_forall; intros k Hk; apply Hl in Hk; apply (has_at_ok _ _ _ _ _ CO) in Hk; tauto).
  destruct (nodup_keys_spec l KO) as (N1 & N2). split; auto. intros k. rewrite N2, Hl, LV.
  destruct PRE as (_ & _ & RO & _). rewrite Forall_forall in RO. split.
  - intros [H|(_ & rows & H1 & (r & H2 & H3) & _)]; [destruct i; destruct H|]. exists r. split; auto. apply in_concat. eauto.
  - intros (r & H1 & H2). right. split; auto. apply in_concat in H1 as (rows & R1 & R2). exists rows. split; auto. split; eauto.
    intros i' Hi'. assert (RI : In r (concat chunks)) by (apply in_concat; eauto). destruct (RO r RI) as (RL & _).
    destruct (nth i' (r_keys r) None) as [k'|] eqn:N; [exists r, k'; auto|]. exfalso. apply (KD r RI). rewrite <- N. apply nth_In. lia.
Qed.

(** The same from any earlier content and for rows that an axis drops: a key is new if in some fill a
    row has it and every group axis before this one keeps some row of that fill. *)
Theorem C68_groupkeys_grow : forall defs group fixed prof arg i L m chunks c c',
  axes_distinct group -> asks_for (parse_top py_sorted defs) group fixed prof arg i -> i < List.length group ->
  fill_pre L (List.length group) m (concat chunks) c -> content_ok L (List.length group) c ->
  fill_all L (List.length group) m chunks c = (c', None) ->
  exists l l', groupkeys py_sorted defs group fixed prof c arg = Ok l /\ groupkeys py_sorted defs group fixed prof c' arg = Ok l' /\ NoDup l' /\
    forall k, In k l' <-> In k l \/ exists rows r, In rows chunks /\ In r rows /\ row_has i k r /\ reached i rows.
Proof.
  intros defs group fixed prof arg i L m chunks c c' AD AF Hi PRE CO E.
  destruct (fills_levels _ _ _ _ _ _ PRE E) as (HO & _ & LV).
  assert (CO' : content_ok L (List.length group) c').
  { destruct HO as [->|]; auto. destruct chunks as [|a rest]; [simpl in E; injection E as ->; auto|].
    destruct (fills_levels _ _ _ _ _ _ PRE E) as (_ & X & _). apply X. discriminate. }
  rewrite !(groupkeys_is _ _ _ _ _ _ _ AD AF).
  destruct (level_ok _ _ i c CO Hi) as (l & El & Hl). destruct (level_ok _ _ i c' CO' Hi) as (l' & El' & Hl'). rewrite El, El'. cbn [rmap].
  exists (nodup_keys l), (nodup_keys l'). split; auto. split; auto.
  assert (KO : Forall key_ok l) by (apply Forall_forall; intros k Hk; apply Hl in Hk; apply (has_at_ok _ _ _ _ _ CO) in Hk; tauto).
  assert (KO' : Forall key_ok l') by (apply Forall_forall; intros k Hk; apply Hl' in Hk; apply (has_at_ok _ _ _ _ _ CO') in Hk; tauto).
  destruct (nodup_keys_spec l' KO') as (N1 & N2). split; auto. intros k. rewrite N2, Hl', LV, (proj2 (nodup_keys_spec l KO)), Hl.
  apply or_iff_compat_l. split.
  - intros (_ & rows & H1 & (r & H2 & H3) & H4). exists rows, r. auto.
  - intros (rows & r & H1 & H2 & H3 & H4). split; auto. exists rows. split; auto. split; eauto.
Qed.

(** A histogram that was never filled has no keys to give: AttributeError, not the empty set; a
    histogram without group axes raises NameError (UnboundLocalError) instead of IndexError; an axis
    that is not a group axis is refused. *)
Theorem C68_groupkeys_unfilled_refuted : forall defs group fixed prof arg i,
  axes_distinct group -> asks_for (parse_top py_sorted defs) group fixed prof arg i ->
  groupkeys py_sorted defs group fixed prof CNone arg = Err AttributeError.
Proof. intros. rewrite (groupkeys_is _ _ _ _ _ i) by auto. destruct i; reflexivity. Qed.
Theorem C68_groupkeys_without_groups_refuted : forall defs fixed prof c a,
  groupkeys py_sorted defs [] fixed prof c (GivenAxis a) = Err NameError.
Proof. reflexivity. Qed.
Theorem C68_groupkeys_other_axis : forall defs group fixed prof c a,
  group <> [] -> ~ In a (map fst group) ->
  groupkeys py_sorted defs group fixed prof c (GivenAxis a) = Err IndexError.
Proof.
  intros defs group fixed prof c a NE NI. unfold groupkeys. cbn [bind].
  destruct (first_axis _ 0 group) as [[j p]|] eqn:F; [|destruct group; [congruence|reflexivity]].
  exfalso. apply first_axis_some in F. destruct F as (n & _ & N & P & _). apply axis_eqb_iff in P. destruct P as (P & _).
  apply NI. rewrite <- P. apply in_map. eapply nth_error_In; eauto.
Qed.

(** ** From the written expressions and the arrays: after one fill of a new histogram, groupkeys of
    the group axis number [i] is the set of the keys of the values of its expression. *)
Theorem C68_groupkeys_of_written : forall cast rnd user order w h srcs A len rows group fixed prof arg i a s,
  broadcasts user -> powers user -> is_order order ->
  new_hist py_sorted tree_sorted nodefs (w_axes w) (w_weight w) (w_filter w) = Ok h ->
  Permutation srcs (sources (hist_goals h)) -> driven h A len ->
  written_ready cast rnd user w A len rows CNone ->
  (forall r, In r rows -> keyed r) ->
  map fst group = map fst (axes_of is_group w) -> axes_distinct group ->
  asks_for (parse_top py_sorted nodefs) group fixed prof arg i -> nth_error (axes_of is_group w) i = Some (a, s) ->
  exists c l, hist_fill cast rnd user order srcs h A CNone = (c, None) /\
    groupkeys py_sorted nodefs group fixed prof c arg = Ok l /\ NoDup l /\
    forall k, In k l <-> exists n v, n < len /\ src_value user (field_at A n) s = Ok v /\ key_of rnd a v = Ok (Some k).
Proof.
  intros cast rnd user order w h srcs A len rows group fixed prof arg i a s Hb Hp Ho Hnew Hs HD HR KD EG AD AF Ni.
  destruct (written_is_ready cast rnd user Hb Hp w h A len rows CNone Hnew HD HR) as (WF & NB & AO & RDY & _).
  pose proof (ready_pre _ _ _ _ _ _ _ _ WF RDY) as PRE.
  pose proof (whole_ngroup w h Hnew) as NG.
  assert (LG : List.length group = List.length (h_group h)) by (rewrite NG, <- (map_length fst group), EG, map_length; auto).
  assert (FR := fill_is_rows cast rnd user order h srcs Ho Hs WF NB A len rows CNone AO (proj1 RDY)).
  destruct (fill_ok _ _ _ _ _ PRE) as (c & E & _).
  assert (EA : fill_all (hist_layout h) (List.length group) (hist_mode h) [rows] CNone = (c, None)) by (cbn [fill_all]; rewrite LG, E; auto).
  assert (Hi : i < List.length group) by (rewrite <- (map_length fst group), EG, map_length; apply nth_error_Some; congruence).
  destruct (C68_groupkeys_are_the_values nodefs group fixed prof arg i (hist_layout h) (hist_mode h) [rows] c AD AF Hi) as (l & G1 & G2 & G3); auto.
  { cbn [concat]. rewrite app_nil_r, LG. auto. } { discriminate. } { cbn [concat]. rewrite app_nil_r. auto. }
  exists c, l. rewrite FR, E. split; auto. split; auto. split; auto. intros k. rewrite G3. cbn [concat]. rewrite app_nil_r.
  destruct HR as (_ & _ & _ & _ & RW & _). unfold written_rows in RW. apply mapM_ok in RW.
  assert (Key : forall n r, written_row cast rnd user (field_at A n) w = Ok r ->
    exists v, src_value user (field_at A n) s = Ok v /\ key_of rnd a v = Ok (nth i (r_keys r) None)).
  { intros n r Er. unfold written_row in Er. apply bind_ok in Er as (ks & Ks & Er). apply bind_ok in Er as (ss & _ & Er).
    apply bind_ok in Er as (ps & _ & Er). apply bind_ok in Er as (x & _ & Er). injection Er as <-. cbn [r_keys].
    apply mapM_ok in Ks. clear - Ks Ni. revert i Ni. induction Ks as [|p k ps ks K Ks IH]; intros i Ni; [destruct i; discriminate|].
    destruct i as [|i]; [|apply IH; auto]. cbn [nth_error] in Ni. injection Ni as ->. cbn [nth fst snd] in *. apply bind_ok in K as (v & V & K). eauto. }
  split.
  - intros (r & Hr & Hk). assert (X : exists n, In n (seq 0 len) /\ written_row cast rnd user (field_at A n) w = Ok r).
    { clear - RW Hr. induction RW as [|n r' ns rs X RW IH]; [destruct Hr|]. destruct Hr as [->|Hr]; [exists n; split; [left|]; auto|].
      destruct (IH Hr) as (n' & N1 & N2). exists n'. split; [right|]; auto. }
    destruct X as (n & Hn & Er). apply in_seq in Hn. destruct (Key n r Er) as (v & V & K). exists n, v. split; [lia|]. split; auto. rewrite K, Hk. auto.
  - intros (n & v & Hn & V & K). assert (X : exists r, In r rows /\ written_row cast rnd user (field_at A n) w = Ok r).
    { assert (I : In n (seq 0 len)) by (apply in_seq; lia). clear - RW I. induction RW as [|n' r ns rs X RW IH]; [destruct I|].
      destruct I as [->|I]; [exists r; split; [left|]; auto|]. destruct (IH I) as (r' & R1 & R2). exists r'. split; [right|]; auto. }
    destruct X as (r & Hr & Er). exists r. split; auto. destruct (Key n r Er) as (v' & V' & K'). rewrite V in V'. injection V' as <-. rewrite K in K'. injection K' as K'. symmetry. exact K'.
Qed.

(** ** hist[...]: all group keys, a bin number for each fixed axis, and the column. *)
Definition means_slots (L : layout) (zs : list Z) (ss : list nat) : Prop :=
  List.length zs = List.length ss /\ Forall2 (fun n zi => means_index n (fst zi) (snd zi)) (l_tots L) (combine zs ss).

(** After any history of fills the number found is the sum over the rows of the cell. *)
Theorem C68_index_is_the_sum : forall L ng m chunks c its ks zs ss z kd,
  fill_pre L ng m (concat chunks) CNone -> chunks <> [] -> fill_all L ng m chunks CNone = (c, None) ->
  Forall2 writes_key its ks -> List.length ks = ng -> means_slots L zs ss ->
  has_column L kd -> means_index (l_last L) z (column_of L kd) ->
  (exists r, In r (concat chunks) /\ r_keys r = map Some ks) ->
  getitem L ng c (its ++ map AtInt (zs ++ [z])) =
  (c, Ok (Arr [] [nsum (map (row_adds m kd) (filter (in_cell ks ss) (concat chunks)))])).
Proof.
  intros L ng m chunks c its ks zs ss z kd PRE NE E W LK (SL & SF) HC HZ (r & Hr & Hk).
  destruct (fills_levels _ _ _ _ _ _ PRE E) as (_ & CO & _). specialize (CO NE).
  destruct (c14_chunks L ng m chunks CNone PRE NE) as (c1 & c2 & E1 & E2 & _ & SC). rewrite E in E1. injection E1 as <-.
  destruct (c10_fill L ng m (concat chunks) CNone PRE) as (c2' & E2' & _ & V). rewrite E2 in E2'. injection E2' as <-.
  assert (IS : in_shape L ss).
  { unfold in_shape. clear - SL SF. revert ss SL SF. generalize (l_tots L). induction zs as [|a zs IH]; intros t [|s ss] SL SF; try discriminate; inversion SF; subst; constructor.
    - unfold means_index in *. simpl in *. tauto.
    - apply IH; auto. }
  assert (B : block c ks <> None).
  { clear V E2 SC c2. destruct PRE as (P1 & P2 & P3 & P4 & P5). revert Hr. assert (PRE : fill_pre L ng m (concat chunks) CNone) by (split; auto).
    clear P1 P2 P3 P4 P5. revert E PRE. clear NE CO. assert (G : forall chunks c0, hist_ok L ng c0 -> fill_all L ng m chunks c0 = (c, None) -> fill_pre L ng m (concat chunks) c0 ->
       (block c0 ks <> None \/ In r (concat chunks)) -> block c ks <> None).
    { clear - Hk LK. induction chunks as [|a rest IH]; intros c0 HO E PRE H; cbn [fill_all concat] in *.
      - injection E as <-. destruct H as [H|[]]; auto.
      - destruct (proj1 (pre_app _ _ _ _ _ _) PRE) as (PA & PB).
        destruct (fill_rows L ng m a c0) as [c1 [e|]] eqn:E1; [discriminate|].
        destruct (fill_levels _ _ _ _ _ _ PA E1) as (CO1 & _).
        destruct (c10_blocks L ng m a c0 PA) as (c1' & E1' & B1). rewrite E1 in E1'. injection E1' as <-.
        apply (IH c1); auto; [right; auto|apply (pre_content _ _ _ _ _ _ PB CO1)|].
        rewrite in_app_iff in H. destruct H as [H|[H|H]]; [left|left|right; auto]; rewrite (B1 ks LK).
        + left. destruct c0; auto. destruct ks; simpl in H; congruence.
        + right. intros j Hj. destruct (nth_error ks j) as [k|] eqn:Nk; [|apply nth_error_None in Nk; lia].
          exists r, k. split; auto. split; auto. rewrite Hk. apply nth_error_nth. rewrite nth_error_map, Nk. reflexivity. }
    intros E PRE Hr. apply (G chunks CNone); auto. left; auto. }
  unfold getitem. assert (EP : prefill L ng c = c) by (unfold prefill; destruct c; auto; destruct ng; contradiction).
  rewrite EP. f_equal. rewrite (get_cell L ng c its ks zs ss z (column_of L kd)) by auto.
  destruct (block c ks); [|congruence]. do 3 f_equal. rewrite SC, V by auto.
  replace (cell L CNone ks ss (column_of L kd)) with nzero by (unfold cell; destruct ks; reflexivity). apply nadd_0_l.
Qed.

(** Any content: the number found is the cell; a group that is not there raises KeyError. *)
Theorem C68_index_is_the_cell : forall L ng c its ks zs ss z col,
  content_ok L ng c -> Forall2 writes_key its ks -> List.length ks = ng -> means_slots L zs ss -> means_index (l_last L) z col ->
  getitem L ng c (its ++ map AtInt (zs ++ [z])) =
  (c, match block c ks with Some _ => Ok (Arr [] [cell L c ks ss col]) | None => Err KeyError end).
Proof.
  intros L ng c its ks zs ss z col CO W LK (SL & SF) HZ. unfold getitem.
  assert (EP : prefill L ng c = c) by (unfold prefill; destruct c; auto; destruct ng; contradiction). rewrite EP. f_equal.
  apply (get_cell L ng); auto.
Qed.

(** A histogram that was never filled: every number is 0 without group axes, every group is missing
    with them.  Looking allocates the content but changes no cell. *)
Theorem C68_index_unfilled : forall L zs ss z col,
  means_slots L zs ss -> means_index (l_last L) z col ->
  snd (getitem L 0 CNone (map AtInt (zs ++ [z]))) = Ok (Arr [] [nzero]).
Proof.
  intros L zs ss z col (SL & SF) HZ. unfold getitem. cbn [prefill Nat.eqb snd].
  pose proof (get_cell L 0 (CArr (zeros (l_size L))) [] [] zs ss z col) as G. cbn [app] in G. rewrite G; auto; [|apply repeat_length].
  cbn [block]. do 3 f_equal. unfold cell. cbn [block]. unfold zeros. apply nth_repeat_zero.
Qed.
Theorem C68_index_unfilled_group : forall L ng i k rest, item_key i = Some k -> snd (getitem L (S ng) CNone (i :: rest)) = Err KeyError.
Proof. intros L ng i k rest E. unfold getitem. cbn [prefill Nat.eqb snd enter get_all get1 assoc]. rewrite E. reflexivity. Qed.
Theorem C68_index_changes_no_cell : forall L ng c where_, hist_ok L ng c ->
  same_cells L (fst (getitem L ng c where_)) c /\ hist_ok L ng (fst (getitem L ng c where_)).
Proof.
  intros L ng c w H. unfold getitem. cbn [fst]. destruct H as [->|CO].
  - split.
    + intros ks ss j. unfold cell. cbn [prefill]. destruct ng; cbn [Nat.eqb]; destruct ks; cbn [block]; auto. unfold zeros. apply nth_repeat_zero.
    + right. destruct ng; simpl; [apply repeat_length|repeat split; constructor].
  - assert (EP : prefill L ng c = c) by (unfold prefill; destruct c; auto; destruct ng; contradiction). rewrite EP. split; [intros ks ss j; auto|right; auto].
Qed.

(** hist[a, b] is hist[a][b]. *)
Theorem C68_index_in_steps : forall L ng c a b,
  snd (getitem L ng c (a ++ b)) = (do o <- snd (getitem L ng c a); get_all L o b).
Proof. intros. unfold getitem. cbn [snd]. apply get_all_app. Qed.

(** ** hist.axis["..."] gives an axis whose written expression has the value of the text asked for, in
    every row in which both are in the class of C21 and C22; and an axis is found by its own text. *)
Definition parsed_axes (axes : list (axis * src)) : res (list (axis * expr)) :=
  mapM (fun p => do e <- parsed (snd p); Ok (fst p, e)) axes.
Theorem C68_axis_means_the_text : forall axes es s a e,
  parsed_axes axes = Ok es -> axis_get py_sorted nodefs es (AtExpr s) = Ok (a, e) ->
  exists s', In (a, s') axes /\ forall user field v v', broadcasts user -> powers user ->
    faithful user field s -> faithful user field s' ->
    src_value user field s = Ok v -> src_value user field s' = Ok v' -> v = v'.
Proof.
  intros axes es s a e P G. cbn [axis_get] in G. apply bind_ok in G as (e0 & P0 & G).
  destruct (first_axis _ 0 es) as [[j q]|] eqn:F; [|discriminate]. injection G as ->.
  apply first_axis_some in F. destruct F as (n & _ & N & Q & _). cbn [snd] in Q. apply expr_same_eq in Q. subst e0.
  apply nth_error_In in N. unfold parsed_axes in P. apply mapM_ok in P.
  assert (X : exists s', In (a, s') axes /\ parsed s' = Ok e).
  { clear - P N. induction P as [|p y ps ys Y P IH]; [destruct N|]. apply bind_ok in Y as (e' & E' & Y). injection Y as <-. destruct N as [N|N].
    - injection N as <- <-. destruct p as [a s']. exists s'. split; [left|]; auto.
    - destruct (IH N) as (s' & S1 & S2). exists s'. split; [right|]; auto. }
  destruct X as (s' & I & P'). exists s'. split; auto. intros user field v v' Hb Hp Fs Fs' V V'.
  destruct (parsed_value user Hb Hp field s e v Fs P0 V) as (t & T & E).
  destruct (parsed_value user Hb Hp field s' e v' Fs' P' V') as (t' & T' & E'). congruence.
Qed.
Theorem C68_axis_by_its_own_text : forall axes es a s,
  parsed_axes axes = Ok es -> In (a, s) axes -> exists b e, axis_get py_sorted nodefs es (AtExpr s) = Ok (b, e) /\ parsed s = Ok e.
Proof.
  intros axes es a s P I. unfold parsed_axes in P. apply mapM_ok in P.
  assert (X : exists e, parsed s = Ok e /\ In (a, e) es).
  { clear - P I. induction P as [|p y ps ys Y P IH]; [destruct I|]. apply bind_ok in Y as (e' & E' & Y). injection Y as <-. destruct I as [->|I].
    - exists e'. split; [|left]; auto.
    - destruct (IH I) as (e & E1 & E2). exists e. split; [|right]; auto. }
  destruct X as (e & E & Ie).
  destruct (first_axis_hit (fun p => expr_same e (snd p)) es (a, e) Ie (expr_same_refl e) 0) as (j & [b e'] & F).
  pose proof (first_axis_some _ _ _ _ _ F) as (_ & _ & _ & Q & _). apply expr_same_eq in Q. cbn [snd] in Q. subst e'.
  exists b, e. split; auto. unfold axis_get. assert (E0 : parse_top py_sorted nodefs s = Ok e) by exact E. rewrite E0. cbn [bind]. rewrite F. reflexivity.
Qed.

(** A row's value on one group axis is missing from groupkeys if an earlier group axis drops every
    row of the fill (here a NaN on a groupbin axis without nanflow), although it is present if the
    dropping axis comes later. *)
Definition row2 (a b : option gkey) : row := {| r_keys := [a; b]; r_slots := []; r_prof := []; r_w := none1; r_w2 := none1 |}.
Definition count2 : layout := {| l_tots := []; l_nprof := 0; l_weighted := false |}.
Theorem C68_groupkeys_dropped_rows_refuted :
  level 1 (fst (fill_rows count2 2 Unweighted [row2 None (Some (GStr "a"))] CNone)) = Ok [] /\
  level 0 (fst (fill_rows count2 2 Unweighted [row2 (Some (GStr "a")) None] CNone)) = Ok [GStr "a"].
Proof. vm_compute. auto. Qed.

Print Assumptions C68_groupkeys_are_the_values.
Print Assumptions C68_groupkeys_grow.
Print Assumptions C68_groupkeys_unfilled_refuted.
Print Assumptions C68_groupkeys_without_groups_refuted.
Print Assumptions C68_groupkeys_other_axis.
Print Assumptions C68_groupkeys_of_written.
Print Assumptions C68_index_is_the_sum.
Print Assumptions C68_index_is_the_cell.
Print Assumptions C68_index_unfilled.
Print Assumptions C68_index_unfilled_group.
Print Assumptions C68_index_changes_no_cell.
Print Assumptions C68_index_in_steps.
Print Assumptions C68_axis_means_the_text.
Print Assumptions C68_axis_by_its_own_text.
Print Assumptions C68_groupkeys_dropped_rows_refuted.

(** ** Examples.  Two groupby axes, filled twice. *)
Definition group68 : list (axis * expr) := [(AGroupby "g", EName "g"); (AGroupby "h", EName "h")].
Definition fixed68 : list (axis * expr) := [(ABin "x + y" 3 (nz 0) (nz 3) false false false true, EName "x")].
Definition L68 : layout := {| l_tots := [3]; l_nprof := 0; l_weighted := false |}.
Definition row68 (a b : string) (s : Z) : row :=
  {| r_keys := [Some (GStr a); Some (GStr b)]; r_slots := [Some s]; r_prof := []; r_w := none1; r_w2 := none1 |}.
Definition chunks68 : list (list row) := [[row68 "a" "u" 0; row68 "b" "v" 1; row68 "a" "u" 0]; [row68 "a" "w" 2]].
Example distinct68 : axes_distinct group68.
Proof. split; [repeat constructor; simpl; intuition discriminate|intros p H; in_cases H; exact I]. Qed.
Example pre68 : fill_pre L68 2 Unweighted (concat chunks68) CNone.
Proof.
  split; [unfold layout_ok; simpl; lia|]. split; [reflexivity|]. split; [unfold chunks68; cbn [concat app]; row_ok_tac; simpl; row_ok_tac|].
  split; [left; reflexivity|left; reflexivity].
Qed.
(** groupkeys("h"), groupkeys(1) and groupkeys(-2) ask for the second group axis. *)
Example asks68 : asks_for (parse_top py_sorted nodefs) group68 fixed68 [] (GivenItem (AtExpr (XName "h"))) 1 /\
  asks_for (parse_top py_sorted nodefs) group68 fixed68 [] (GivenItem (AtPosition 1)) 1 /\
  asks_for (parse_top py_sorted nodefs) group68 fixed68 [] (GivenItem (AtPosition (-2))) 1.
Proof.
  split; [|split].
  - apply asks_expr with (a := AGroupby "h") (e := EName "h"); [vm_compute; reflexivity|reflexivity|]. intros [|i'] b H; [simpl; congruence|lia].
  - apply asks_position; [simpl; lia|]. split; [simpl; lia|left; reflexivity].
  - apply asks_position; [simpl; lia|]. split; [simpl; lia|right; reflexivity].
Qed.
Example C68_example : exists c l, fill_all L68 2 Unweighted chunks68 CNone = (c, None) /\
  groupkeys py_sorted nodefs group68 fixed68 [] c (GivenItem (AtExpr (XName "h"))) = Ok l /\
  In (GStr "w") l /\ In (GStr "u") l /\ ~ In (GStr "a") l.
Proof.
  destruct (fill_all L68 2 Unweighted chunks68 CNone) as [c [e|]] eqn:E; [vm_compute in E; discriminate|].
  destruct (C68_groupkeys_are_the_values nodefs group68 fixed68 [] (GivenItem (AtExpr (XName "h"))) 1 L68 Unweighted chunks68 c
    distinct68 (proj1 asks68) ltac:(simpl; lia) pre68 ltac:(discriminate)) as (l & G & _ & K); auto.
  { intros r H. unfold chunks68 in H. cbn [concat app] in H. in_cases H; unfold keyed; simpl; intuition discriminate. }
  exists c, l. split; auto. split; auto. unfold chunks68 in K. cbn [concat app] in K. split; [|split].
  - apply K. exists (row68 "a" "w" 2). split; [simpl; auto|reflexivity].
  - apply K. exists (row68 "a" "u" 0). split; [simpl; auto|reflexivity].
  - rewrite K. intros (r & H & X). in_cases H; unfold row_has in X; simpl in X; discriminate X.
Qed.
(** hist["a", "u", -3, 0] counts the rows of that cell. *)
Example C68_index_example : exists c, fill_all L68 2 Unweighted chunks68 CNone = (c, None) /\
  getitem L68 2 c [AtStr "a"; AtStr "u"; AtInt (-3); AtInt 0] = (c, Ok (Arr [] [nz 2])).
Proof.
  destruct (fill_all L68 2 Unweighted chunks68 CNone) as [c [e|]] eqn:E; [vm_compute in E; discriminate|].
  exists c. split; auto.
  refine (eq_trans (C68_index_is_the_sum L68 2 Unweighted chunks68 c [AtStr "a"; AtStr "u"] [GStr "a"; GStr "u"] [(-3)%Z] [0] 0%Z SumW
    pre68 _ E _ _ _ _ _ _) _).
  - discriminate.
  - repeat constructor.
  - reflexivity.
  - split; [reflexivity|]. constructor; [|constructor]. split; [simpl; lia|right; reflexivity].
  - exact I.
  - split; [vm_compute; repeat constructor|left; reflexivity].
  - exists (row68 "a" "u" 0). split; [left; reflexivity|reflexivity].
  - vm_compute. reflexivity.
Qed.
(** The written histogram of Props_HistNew.v, asked for "g". *)
Definition group62 : list (axis * expr) := [(AGroupby "g", EName "g")].
Example C68_written_example : exists c l, hist_fill cast_x86 Fin powlib (fun _ l => l) (sources (hist_goals h62)) h62 exA CNone = (c, None) /\
  groupkeys py_sorted nodefs group62 [] [] c (GivenItem (AtExpr (XName "g"))) = Ok l /\ NoDup l /\
  forall k, In k l <-> exists n v, n < 3 /\ src_value powlib (field_at exA n) (XName "g") = Ok v /\ key_of Fin (AGroupby "g") v = Ok (Some k).
Proof.
  apply (C68_groupkeys_of_written cast_x86 Fin powlib (fun _ l => l) w62 h62 (sources (hist_goals h62)) exA 3 rows62 group62 [] []
    (GivenItem (AtExpr (XName "g"))) 0 (AGroupby "g") (XName "g")); auto.
  - exact powlib_broadcasts.
  - exact powlib_powers.
  - intros t l; apply Permutation_refl.
  - exact driven62.
  - exact ready62.
  - intros r H. in_cases H; unfold keyed; simpl; intuition discriminate.
  - split; [repeat constructor; simpl; tauto|intros p H; in_cases H; exact I].
  - apply asks_expr with (a := AGroupby "g") (e := EName "g"); [vm_compute; reflexivity|reflexivity|intros; lia].
Qed.
(** axis["y + x"] is the axis written "x + y". *)
Example C68_axis_example : exists es e, parsed_axes (w_axes w62) = Ok es /\
  axis_get py_sorted nodefs es (AtExpr (XBin OAdd (XName "y") (XName "x"))) = Ok (ABin "x + y" 4 (nz 0) (nz 8) true true true true, e).
Proof. eexists. eexists. split; vm_compute; reflexivity. Qed.
