(** C80: what axes, histograms and bins print reads back as what they are. *)
From Coq Require Import String.
From Verif Require Import Base Num NumFacts Axis Content Fill AxisAttr AxisAttrSpec AxisAttrProofs HistAlg Json JsonProofs Repr.
Open Scope string_scope.
Local Open Scope list_scope.

Lemma zero_is x : neqb x nzero = true -> x = nzero.
Proof. destruct x as [q| | |]; intros H; try discriminate H. change (qeqb q qc0 = true) in H. apply qeqb_iff in H as ->. reflexivity. Qed.

(** ** Axes *)
(** Python, reading what an axis prints, calls the constructor so that it returns that axis. *)
Theorem C80_axis_reads_back : forall a, built a \/ a = ANull -> call_axis (axis_repr a) = Ok a.
Proof.
  intros a [H| ->]; [|reflexivity].
  inversion H as [e|e w o nf cl b E|e n low high u o nf cl b E|e mn mx u o b E|e es u o nf cl b Hn E|e|e]; subst; try reflexivity.
  - assert (E' := E). unfold mk_groupbin in E'. destruct (nleb w nzero) eqn:Ew; [discriminate|]. injection E' as <-.
    destruct (neqb o nzero) eqn:Eo.
    + assert (o = nzero) as -> by (apply zero_is; exact Eo).
      destruct nf, cl; unfold axis_repr; cbn -[nleb]; rewrite Ew; reflexivity.
    + unfold axis_repr. rewrite Eo. destruct nf, cl; cbn -[nleb]; rewrite Ew; reflexivity.
  - assert (E' := E). unfold mk_bin in E'. destruct (_ || _) eqn:C; [discriminate|]. destruct (Nat.eqb _ 0) eqn:D; [discriminate|]. injection E' as <-.
    assert (N : new_bin e (YInt (Z.of_nat n)) (YFloat low) (YFloat high) (YBool u) (YBool o) (YBool nf) (YBool cl) = Ok (ABin e n low high u o nf cl)).
    { unfold new_bin, to_nonneg. cbn [to_int]. destruct (Z.ltb_spec (Z.of_nat n) 0); [lia|]. rewrite Nat2Z.id. cbn [bind to_real y_num to_bool]. rewrite C. cbn [bind]. rewrite D. reflexivity. }
    rewrite <- N. unfold axis_repr. destruct u, o, nf, cl; reflexivity.
  - assert (E' := E). unfold mk_intbin in E'. destruct (mx <? mn)%Z eqn:Em; [discriminate|]. injection E' as <-.
    destruct u, o; unfold axis_repr; cbn -[Z.ltb]; rewrite Em; reflexivity.
  - destruct (mk_split_shape _ _ _ _ _ _ _ E) as (es' & ->). pose proof (mk_split_idem _ _ _ _ _ _ _ Hn E) as I.
    assert (N : new_split e (YTuple (map Some es')) (YBool u) (YBool o) (YBool nf) (YBool cl) = Ok (ASplit e es' u o nf cl)).
    { apply new_split_iff. exists es', u, o, nf, cl. split; [|repeat split; try constructor; exact I]. constructor. destruct es'; [discriminate I|discriminate]. }
    rewrite <- N. unfold axis_repr. destruct u, o, nf, cl; reflexivity.
Qed.

(** Two axes that print the same are the same. *)
Theorem C80_axis_prints_all : forall a b, axis_repr a = axis_repr b -> a = b.
Proof.
  assert (NT : forall n b b' k k', (forall v, ~ In (n, v) k) -> (forall v, ~ In (n, v) k') -> not_true n b ++ k = not_true n b' ++ k' -> b = b' /\ k = k').
  { intros n b b' k k' K K' H. destruct b, b'; cbn in H; auto.
    - exfalso. apply (K (YBool false)). rewrite H. left. auto.
    - exfalso. apply (K' (YBool false)). rewrite <- H. left. auto.
    - injection H as ->. auto. }
  assert (NI : forall n m b k v, n <> m -> ~ In (n, v) k -> ~ In (n, v) (not_true m b ++ k)).
  { intros n m b k v N K H. apply in_app_iff in H as [H|H]; auto. destruct b; cbn in H; [auto|]. destruct H as [H|[]]. congruence. }
  assert (NL : forall n b b', not_true n b = not_true n b' -> b = b') by (intros n [] [] H; cbn in H; congruence).
  assert (N1 : forall n m b v, n <> m -> ~ In (n, v) (not_true m b)).
  { intros n m b v N H. destruct b; cbn in H; [auto|]. destruct H as [H|[]]. congruence. }
  intros a b H. destruct a, b; cbn [axis_repr] in H; try discriminate (f_equal c_class H);
    pose proof (f_equal c_args H) as HA; pose proof (f_equal c_kwargs H) as HK; cbn [c_args c_kwargs] in HA, HK; clear H.
  - congruence.
  - injection HA as -> ->. assert (O : origin = origin0 /\ not_true "nanflow" nanflow ++ not_true "closedlow" closedlow = not_true "nanflow" nanflow0 ++ not_true "closedlow" closedlow0).
    { assert (Z : forall x, neqb x nzero = true -> x = nzero) by (exact zero_is).
      destruct (neqb origin nzero) eqn:E1, (neqb origin0 nzero) eqn:E2; cbn [negb app] in HK.
      - rewrite (Z _ E1), (Z _ E2). auto.
      - exfalso. destruct nanflow, closedlow; discriminate HK.
      - exfalso. destruct nanflow0, closedlow0; discriminate HK.
      - injection HK as -> HK. auto. }
    destruct O as (-> & O). apply NT in O as (-> & O); [|intros; apply N1; discriminate..]. apply NL in O as ->. reflexivity.
  - injection HA as -> Hn -> ->. apply Nat2Z.inj in Hn as ->.
    apply NT in HK as (-> & HK); [|intros; repeat (apply NI; [discriminate|]); apply N1; discriminate..].
    apply NT in HK as (-> & HK); [|intros; repeat (apply NI; [discriminate|]); apply N1; discriminate..].
    apply NT in HK as (-> & HK); [|intros; apply N1; discriminate..]. apply NL in HK as ->. reflexivity.
  - injection HA as -> -> ->. apply NT in HK as (-> & HK); [|intros; apply N1; discriminate..]. apply NL in HK as ->. reflexivity.
  - injection HA as -> He. assert (edges = edges0) as ->.
    { clear - He. revert edges0 He. induction edges as [|x l IH]; intros [|y m] H; cbn in H; try discriminate; auto. injection H as -> H. f_equal. auto. }
    apply NT in HK as (-> & HK); [|intros; repeat (apply NI; [discriminate|]); apply N1; discriminate..].
    apply NT in HK as (-> & HK); [|intros; repeat (apply NI; [discriminate|]); apply N1; discriminate..].
    apply NT in HK as (-> & HK); [|intros; apply N1; discriminate..]. apply NL in HK as ->. reflexivity.
  - congruence.
  - reflexivity.
  - congruence.
Qed.

(** An option is printed if and only if the axis does not have its default. *)
Definition options_of (a : axis) : list param :=
  match a with
  | AGroupbin _ _ _ _ _ => [("origin", Some (YFloat nzero)); option_true "nanflow"; option_true "closedlow"]
  | ABin _ _ _ _ _ _ _ _ | ASplit _ _ _ _ _ _ => [option_true "underflow"; option_true "overflow"; option_true "nanflow"; option_true "closedlow"]
  | AIntbin _ _ _ _ _ => [option_true "underflow"; option_true "overflow"]
  | _ => []
  end.
Theorem C80_axis_prints_what_is_not_default : forall bw a n d, In (n, Some d) (options_of a) ->
  exists v, attr bw a n = Ok v /\ (forall x, In (n, x) (c_kwargs (axis_repr a)) <-> x = v /\ y_eqb v d = false).
Proof.
  intros bw a n d H.
  destruct a; cbn [options_of] in H; repeat (destruct H as [H|H]; [injection H as <- <-|]); try (destruct H; fail); (eexists; split; [reflexivity|]).
  - intros x. cbn [axis_repr c_kwargs y_eqb y_num]. destruct (neqb origin nzero), nanflow, closedlow; cbn; intuition congruence.
  - intros x. cbn [axis_repr c_kwargs]. destruct (neqb origin nzero), nanflow, closedlow; cbn; intuition congruence.
  - intros x. cbn [axis_repr c_kwargs]. destruct (neqb origin nzero), nanflow, closedlow; cbn; intuition congruence.
  - intros x. destruct underflow, overflow, nanflow, closedlow; cbn; intuition congruence.
  - intros x. destruct underflow, overflow, nanflow, closedlow; cbn; intuition congruence.
  - intros x. destruct underflow, overflow, nanflow, closedlow; cbn; intuition congruence.
  - intros x. destruct underflow, overflow, nanflow, closedlow; cbn; intuition congruence.
  - intros x. destruct underflow, overflow; cbn; intuition congruence.
  - intros x. destruct underflow, overflow; cbn; intuition congruence.
  - intros x. destruct underflow, overflow, nanflow, closedlow; cbn; intuition congruence.
  - intros x. destruct underflow, overflow, nanflow, closedlow; cbn; intuition congruence.
  - intros x. destruct underflow, overflow, nanflow, closedlow; cbn; intuition congruence.
  - intros x. destruct underflow, overflow, nanflow, closedlow; cbn; intuition congruence.
Qed.

(** ** Histograms *)
Section Hist.
  Variable axis_check : list (string * wsrc) -> string -> option err.
  Variable weight_check : list (string * wsrc) -> option wsrc -> option wsrc -> option err.
  Notation constructed := (constructed axis_check weight_check).
  Notation read := (call_hist axis_check weight_check).
  Definition same_but_content_and_attachment (h g : hobj) : Prop :=
    o_group h = o_group g /\ o_fixed h = o_fixed g /\ o_prof h = o_prof g /\
    o_weight h = o_weight g /\ o_filter h = o_filter g /\ o_defs h = o_defs g.

  (** What a histogram prints reads back as the empty histogram with its axes, weight, filter and
      definitions. *)
  Theorem C80_hist_reads_back : forall h, constructed h ->
    exists g, read (hist_repr h) = Ok g /\ same_but_content_and_attachment h g /\ o_content g = CNone /\ o_attach g = [].
  Proof.
    intros h H. destruct (rebuild _ _ h H) as (B & M). unfold call_hist, hist_repr. cbn [hc_axes hc_weight hc_filter hc_defs].
    assert (A : mapM call_axis (map axis_repr (o_axes h)) = Ok (o_axes h)).
    { clear M. induction B as [|a l Ha B IH]; auto. cbn [map mapM]. rewrite (C80_axis_reads_back a (or_introl Ha)). cbn [bind]. rewrite IH. reflexivity. }
    unfold o_axes in A at 1. rewrite A. cbn [bind].
    replace (match match o_defs h with [] => None | d :: l => Some (d :: l) end with Some d => d | None => [] end) with (o_defs h) by (destruct (o_defs h); auto).
    unfold mk_hist in *. destruct (check_axes _ _ _); [discriminate|]. destruct (weight_check _ _ _); [discriminate|]. injection M as E1 E2 E3.
    eexists. split; [reflexivity|]. cbn [o_content o_attach]. repeat split; auto; cbn; congruence.
  Qed.
  (** Two histograms that print the same differ at most in content and attachment. *)
  Theorem C80_hist_prints_all : forall h g, constructed h -> constructed g -> hist_repr h = hist_repr g -> same_but_content_and_attachment h g.
  Proof.
    intros h g H G E. destruct (C80_hist_reads_back h H) as (x & X & S & _). destruct (C80_hist_reads_back g G) as (y & Y & T & _).
    rewrite E in X. assert (x = y) by congruence. subst y. unfold same_but_content_and_attachment in *. intuition congruence.
  Qed.
  Theorem C80_hist_prints_only : forall h g, same_but_content_and_attachment h g -> hist_repr h = hist_repr g.
  Proof. intros h g (A & B & C & D & E & F). unfold hist_repr. rewrite A, B, C, D, E, F. reflexivity. Qed.
End Hist.
(** The attachment is not printed. *)
Definition tagged : hobj := {|
  o_group := []; o_fixed := [ACut "c"]; o_prof := []; o_weight := Some (XStr "w"); o_filter := None;
  o_defs := [("w", XStr "u*v")]; o_attach := [("run", "12")]; o_content := CNone |}.
Example tagged_constructed : constructed (fun _ _ => None) (fun _ _ _ => None) tagged.
Proof. split; [|left; reflexivity]. exists (o_axes tagged). split; [|reflexivity]. constructor; [apply built_cut|constructor]. Qed.
Theorem C80_attachment_printed_refuted : ~ (forall h, constructed (fun _ _ => None) (fun _ _ _ => None) h -> o_content h = CNone ->
  call_hist (fun _ _ => None) (fun _ _ _ => None) (hist_repr h) = Ok h).
Proof. intros H. specialize (H tagged tagged_constructed eq_refl). discriminate H. Qed.

(** ** Bins *)
Theorem C80_interval_reads_back : forall k c, interval_repr k = Some c -> call_interval c = Ok k.
Proof. intros [l h [] []| | |] c H; injection H as <- || discriminate H; reflexivity. Qed.
Theorem C80_interval_prints_all : forall k k' c, interval_repr k = Some c -> interval_repr k' = Some c -> k = k'.
Proof. intros k k' c H H'. apply C80_interval_reads_back in H, H'. congruence. Qed.

Print Assumptions C80_axis_reads_back.
Print Assumptions C80_axis_prints_all.
Print Assumptions C80_axis_prints_what_is_not_default.
Print Assumptions C80_hist_reads_back.
Print Assumptions C80_hist_prints_all.
Print Assumptions C80_hist_prints_only.
Print Assumptions C80_attachment_printed_refuted.
Print Assumptions C80_interval_reads_back.
Print Assumptions C80_interval_prints_all.

(** ** Examples *)
Definition bin80 : axis := ABin "x + y" 4 (nz 0) (nz 8) true false true false.
Example built80 : built bin80.
Proof. apply (built_bin "x + y" 4 (nz 0) (nz 8) true false true false). vm_compute. reflexivity. Qed.
(** bin('x + y', 4, 0.0, 8.0, overflow=False, closedlow=False) *)
Example repr80 : axis_repr bin80 = {| c_class := "bin"; c_args := [YStr "x + y"; YInt 4; YFloat (nz 0); YFloat (nz 8)];
  c_kwargs := [("overflow", YBool false); ("closedlow", YBool false)] |}.
Proof. reflexivity. Qed.
Example reads80 : call_axis (axis_repr bin80) = Ok bin80.
Proof. exact (C80_axis_reads_back bin80 (or_introl built80)). Qed.
Example groupbin80 : c_kwargs (axis_repr (AGroupbin "x" (nz 2) (nz 1) true false)) = [("origin", YFloat (nz 1)); ("closedlow", YBool false)].
Proof. reflexivity. Qed.
Example hist80 : exists g, call_hist (fun _ _ => None) (fun _ _ _ => None) (hist_repr tagged) = Ok g /\ o_weight g = Some (XStr "w").
Proof. eexists. split; reflexivity. Qed.
Example interval80 : interval_repr (KIv NInf (nz 3) true true) =
  Some {| c_class := "Interval"; c_args := [YFloat NInf; YFloat (nz 3)]; c_kwargs := [("closedhigh", YBool true)] |}.
Proof. reflexivity. Qed.
