(** When copies and products of books and sample books can be made: C50, C51. *)
From Coq Require Import String.
From Verif Require Import Base Num Axis Calc Content Fill HistAlg AlgSpec HistAlgProofs HistAlgMain Heap HeapSpec HeapProofs HeapAdd HeapMain HeapMain2
  Tree Instr Elem HistFill Glob GlobProofs Book BookSpec BookProofs BookPaths BookIter BookFill BookHeap BookHeapSpec BookHeapProofs BookHeapAdd BookHeapFrame BookHeapActs BookHeapMain BookHeapIadd BookHeapSamples
  Props_Alg Props_Heap Props_BookHeap Props_BookHeap2.
Local Open Scope string_scope.
Local Open Scope list_scope.

(** ** C50 *)
Section Copies.
  Variables (limit : nat) (W : world) (b : nat).
  Hypothesis HW : reachable limit W.
  Hypothesis Hb : present W (EBook b).
  Hypothesis Sh : shallow limit (w_books W) (EBook b).
  (** cleared() does not fail. *)
  Theorem C50_cleared_succeeds : exists W' y, book_cleared limit W b = (W', Ok y).
  Proof.
    destruct (book_cleared limit W b) as [W' [y|e]] eqn:E; [eauto|]. exfalso.
    destruct (copy_facts limit W b HW Hb OCleared (fun h => Ok (hist_cleared h)) (fun _ => True)) as (_ & He); auto; [exact mk_cleared|].
    destruct (He W' e E) as [(_ & p & c & Ep & Lp)|(p & i & h & _ & _ & H)]; [|discriminate]. specialize (Sh p c Ep). lia.
  Qed.
  Theorem C50_copyonfill_succeeds : all_unfilled W (EBook b) -> exists W' y, book_copyonfill limit W b = (W', Ok y).
  Proof.
    intros U. destruct (book_copyonfill limit W b) as [W' [y|e]] eqn:E; [eauto|]. exfalso.
    destruct (copy_facts limit W b HW Hb OCopyOnFill (fun h => Ok h) (unfilled (vals W))) as (_ & He); auto; [exact mk_copyonfill| | |].
    - intros i vs' Ui Li. apply unfilled_app; auto.
    - apply all_unfilled_spec. auto.
    - destruct (He W' e E) as [(_ & p & c & Ep & Lp)|(p & i & h & _ & _ & H)]; [|discriminate]. specialize (Sh p c Ep). lia.
  Qed.
  (** b * v succeeds if and only if every histogram in b can be multiplied; if it fails, with the
      exception of one of them. *)
  Theorem C50_mul_succeeds v :
    (exists W' y, book_mul limit v W b = (W', Ok y)) <->
    (forall p i h, at_path (w_books W) b p = Some (EHist i) -> hist_value W i = Some h -> exists s, hist_mul h v = Ok s).
  Proof.
    destruct (copy_facts limit W b HW Hb (fun i => OMul i v) (fun h => hist_mul h v) (fun _ => True)) as (Ho & He); auto; [apply mk_mul|]. split.
    - intros (W' & y & E) p i h Ep Eh. destruct (Ho W' y E) as ((_ & R & _) & _). specialize (R p). unfold at_path in Ep. rewrite Ep in R.
      destruct R as (k & h1 & h' & _ & _ & E2 & _ & E4). rewrite value_vals in Eh. assert (h1 = h) by congruence. subst. eauto.
    - intros Hm. destruct (book_mul limit v W b) as [W' [y|e]] eqn:E; [eauto|]. exfalso.
      destruct (He W' e E) as [(_ & p & c & Ep & Lp)|(p & i & h & Ep & Eh & H)]; [specialize (Sh p c Ep); lia|]. destruct (Hm p i h Ep) as (s & Es); [rewrite value_vals; auto|congruence].
  Qed.
  Theorem C50_mul_fails_only v W' e : book_mul limit v W b = (W', Err e) ->
    exists p i h, at_path (w_books W) b p = Some (EHist i) /\ hist_value W i = Some h /\ hist_mul h v = Err e.
  Proof.
    intros E. destruct (copy_facts limit W b HW Hb (fun i => OMul i v) (fun h => hist_mul h v) (fun _ => True)) as (_ & He); auto; [apply mk_mul|].
    destruct (He W' e E) as [(_ & p & c & Ep & Lp)|(p & i & h & Ep & Eh & H)]; [specialize (Sh p c Ep); lia|]. exists p, i, h. rewrite value_vals. auto.
  Qed.
End Copies.
Print Assumptions C50_cleared_succeeds.
Print Assumptions C50_copyonfill_succeeds.
Print Assumptions C50_mul_succeeds.
Print Assumptions C50_mul_fails_only.

(** ** C51 *)
(** No book among the given entries is nested deeper than the limit. *)
Definition given_shallow (limit : nat) (W : world) (l : list (string * entry)) : Prop :=
  forall n x p c, In (n, x) l -> follow (w_books W) x p = Some (EBook c) -> S (List.length p) < limit.
Section Samples.
  Variables (W0 : world) (l : list (string * entry)) (m : nat).
  Hypothesis S0 : sound W0.
  Hypothesis Pl : plain_keys l.
  Hypothesis Hl : forall n x, In (n, x) l -> fine W0 x /\ all_unfilled W0 x.
  Hypothesis Hm : 0 < m.
  Hypothesis Sh : given_shallow m W0 l.
  Lemma samples_total self : forall samples W acc, later W0 self W -> content_of (w_books W) self = Some acc -> NoDup (map fst acc ++ samples) ->
    (forall s, In s samples -> cut_slash s = None) -> exists W', add_samples m W self samples l = (W', None).
  Proof.
    induction samples as [|s samples IH]; intros W acc Lt Ca Nd Hs; cbn [add_samples]; [eauto|].
    assert (Sd := proj1 Lt). destruct (new_dict_ok W l Sd Pl) as (En & S1); [intros k x I; exact (proj2 (later_same W0 l S0 Hl self W k x Lt I))|].
    rewrite En. set (c := length (w_books W)) in *. set (W1 := with_books W (w_books W ++ [book_of l])) in *.
    assert (M1 : more W W1) by (exists [book_of l], []; rewrite app_nil_r; split; auto).
    assert (C1 : content_of (w_books W1) c = Some l) by (unfold content_of; cbn [W1 with_books w_books]; unfold c; rewrite nth_last; auto).
    assert (Lc : c < length (w_books W1)) by (apply content_some; eauto). assert (HV : vals W1 = vals W) by reflexivity. clearbody W1.
    assert (F1 : forall n p z, follow (w_books W1) (EBook c) (n :: p) = Some z -> exists x, In (n, x) l /\ follow (w_books W0) x p = Some z /\ unchanged W0 W x).
    { intros n p z. rewrite follow_cons. unfold look. rewrite C1. destruct (dget n l) as [x|] eqn:D; [|discriminate]. apply dget_in in D. destruct (later_same W0 l S0 Hl self W n x Lt D) as (U & O).
      rewrite (more_follow W W1 x p M1 Sd (entry_exists _ _ _ O)), (proj1 (U p)). eauto. }
    assert (Un : forall p i, at_path (w_books W1) c p = Some (EHist i) -> unfilled (vals W1) i).
    { intros p i Ep. unfold at_path in Ep. destruct p as [|n p]; [discriminate|]. destruct (F1 _ _ _ Ep) as (x & I & Ex & U). unfold unfilled. destruct (nth_error (vals W1) i) as [h|] eqn:Eh; auto.
      destruct (Hl n x I) as (_ & Hu). apply (Hu p i h Ex). rewrite <- (proj2 (U p) i Ex), value_vals, <- HV. auto. }
    destruct (book_copyonfill m W1 c) as [W2 [y|e]] eqn:Ec.
    2:{ exfalso. destruct (derive_err OCopyOnFill (fun h => Ok h) mk_copyonfill W1 (unfilled (vals W1)) (fun i vs' Ui Li => unfilled_app _ vs' i Ui Li) S1 m W1 c W2 e S1 (grows_refl W1) (conj Lc Un) Ec)
          as [(_ & p & d & Ep & Lp)|(p & i & h & _ & _ & H)]; [|discriminate].
        destruct p as [|n p]; [cbn in Lp; lia|]. destruct (F1 _ _ _ Ep) as (x & I & Ex & _). specialize (Sh n x p d I Ex). cbn in Lp. lia. }
    destruct (copyonfill_ok (fun _ => True) W1 c (sound_framed W1 S1) Lc Un m W2 _ Ec) as (Fr & G & _ & R). specialize (R y eq_refl). assert (S2 : sound W2) by apply Fr. assert (M2 := grows_more _ _ G).
    assert (M : more W W2) by (eapply more_trans; eauto). assert (LM := more_len _ _ M).
    assert (Cs : cut_slash s = None) by (apply Hs; left; auto).
    assert (Ca2 : content_of (w_books W2) self = Some acc) by (rewrite (more_content W W2); auto; apply Lt).
    destruct (set_step W2 self acc s y S2 Ca2 Cs (proj1 R)) as (B3 & Es & S3 & K3 & C3). rewrite Es. set (W3 := with_books W2 B3) in *.
    assert (Ns : ~ In s (map fst acc)) by (apply NoDup_remove_2 in Nd; intros I; apply Nd; apply in_or_app; auto).
    rewrite (dset_new s y acc Ns) in C3.
    assert (K13 : kept (fun z => z = EBook self) W W3) by (eapply kept_trans; [apply more_kept; exact M|exact K3]).
    assert (Lt3 : later W0 self W3).
    { split; auto. split; [assert (H := k_books _ _ _ K3); destruct Lt as (_ & ? & _); lia|]. eapply kept_trans; [apply Lt|exact K13]. }
    apply (IH W3 (acc ++ [(s, y)]) Lt3 C3).
    - rewrite map_app. cbn [map fst]. rewrite <- app_assoc. exact Nd.
    - intros s' I. apply Hs. right. auto.
  Qed.
End Samples.
(** SamplesBook(samples, l) of histograms that are not filled, and books of them, can always be made. *)
Theorem C51_samples_succeeds limit W samples l : reachable limit W -> plain_names samples -> plain_names (map fst l) -> safe W (ASamples samples l) ->
  0 < limit -> given_shallow limit W l -> exists W' b, samples_book limit W samples l = (W', Ok b).
Proof.
  intros HW (Nd & Ps) Pl Sf Hl Sh. assert (S0 := reachable_sound _ _ HW). unfold samples_book. cbn [new_book].
  set (W1 := with_books W (w_books W ++ [empty_book])) in *. set (self := length (w_books W)) in *.
  assert (S1 : sound W1) by (apply (new_book_frame (fun _ => True) W (sound_framed W S0))).
  assert (M1 : more W W1) by (exists [empty_book], []; rewrite app_nil_r; split; auto).
  assert (C1 : content_of (w_books W1) self = Some []) by (unfold content_of; cbn [W1 with_books w_books]; unfold self; rewrite nth_last; auto).
  assert (L1 : self < length (w_books W1)) by (apply content_some; eauto).
  destruct (samples_total W l limit S0 (plain_names_keys l Pl) (unfilled_given W l Sf) Hl Sh self samples W1 []) as (W' & E); auto.
  - split; auto. split; [unfold self in *; lia|]. apply more_kept. auto.
  - intros s I. apply slash_free. auto.
  - rewrite E. eauto.
Qed.
Print Assumptions C51_samples_succeeds.

(** The book {"sub": {"h": h0}, "u": h1} of C49_example can be cleared and multiplied; with one more
    histogram that was never filled it cannot be multiplied. *)
Lemma walk_shallow limit W b L : reachable limit W -> 0 < limit -> walk limit (w_books W) b = Ok L -> forallb (fun e => Nat.ltb (List.length (fst e)) limit) L = true -> shallow limit (w_books W) (EBook b).
Proof.
  intros HW Hl E F p c Ep. apply (walk_places limit W b L) in Ep; auto. destruct Ep as [Ep|Ep]; [inversion Ep; exact Hl|].
  rewrite forallb_forall in F. specialize (F _ Ep). apply Nat.ltb_lt in F. exact F.
Qed.
Example C50_mul_succeeds_example : reachable 10 exW2 /\ present exW2 (EBook 0) /\ shallow 10 (w_books exW2) (EBook 0) /\
  (forall p i h, at_path (w_books exW2) 0 p = Some (EHist i) -> hist_value exW2 i = Some h -> exists s, hist_mul h (nz 3) = Ok s) /\
  let W := act_all 10 exW2 [ASet 0 "v" (EHist 4)] in
  reachable 10 W /\ (exists W', book_mul 10 (nz 3) W 0 = (W', Err TypeError)) /\ exists W' y, book_cleared 10 W 0 = (W', Ok y).
Proof.
  split; [apply exW2_reachable|]. split; [apply Nat.ltb_lt; reflexivity|].
  split; [eapply walk_shallow; [apply exW2_reachable|repeat constructor|vm_compute; reflexivity|reflexivity]|]. split.
  - intros p i h Ep Eh. apply (C50_mul_succeeds 10 exW2 0 exW2_reachable) with (p := p) (i := i); auto.
    + apply Nat.ltb_lt; reflexivity.
    + eapply walk_shallow; [apply exW2_reachable|repeat constructor|vm_compute; reflexivity|reflexivity].
    + eexists. eexists. vm_compute. reflexivity.
  - cbn zeta. split; [apply reachable_all; [apply exW2_reachable|]; split; [eexists; reflexivity|exact I]|]. split; [eexists; vm_compute; reflexivity|]. eexists. eexists. vm_compute. reflexivity.
Qed.
(** The given entries of C51_example. *)
Example C51_samples_succeeds_example : reachable 10 exS /\ given_shallow 10 exS exl.
Proof.
  split; [apply exS_reachable|]. intros n x p c [[= <- <-]|[[= <- <-]|[]]] Ep.
  - destruct p; discriminate.
  - assert (H : shallow 1 (w_books exS) (EBook 0)).
    { intros q d Eq. apply (walk_places 10 exS 0 [(["h"], EHist 2); (["u"], EHist 3)]) in Eq; [|apply exS_reachable|vm_compute; reflexivity]. destruct Eq as [Eq|[Eq|[Eq|[]]]]; inversion Eq. repeat constructor. }
    specialize (H p c Ep). lia.
Qed.
