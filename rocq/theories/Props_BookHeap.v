(** Properties of copies, sums, sample books and views of books: C49, C50, C51. *)
From Coq Require Import String Ascii.
From Verif Require Import Base Num Axis Calc Content Fill HistAlg AlgSpec HistAlgProofs HistAlgMain Heap HeapSpec HeapProofs HeapAdd HeapMain HeapMain2
  Tree Instr Elem HistFill Glob GlobProofs Book BookSpec BookProofs BookPaths BookIter BookFill BookHeap BookHeapSpec BookHeapProofs BookHeapAdd BookHeapFrame BookHeapActs BookHeapMain BookHeapIadd BookHeapSamples
  Props_Alg Props_Heap.
Local Open Scope string_scope.
Local Open Scope list_scope.

Lemma result_derived f W W' x y : result f W W W' x y -> derived_from f (HeapSpec.values (w_hists W)) (HeapSpec.values (w_hists W')) (w_books W) (w_books W') x y.
Proof. intros (_ & H & T). split; auto. Qed.
Lemma more_unchanged W W' x : sound W -> more W W' -> present W x -> unchanged W W' x.
Proof. intros S M P. apply (kept_unchanged (fun _ => False)); auto; [apply more_kept; auto|]. apply present_fine. auto. Qed.

(** ** C50: copies of books *)
Section Copies.
  Variables (limit : nat) (W : world) (b : nat).
  Hypothesis HW : reachable limit W.
  Hypothesis Hb : present W (EBook b).
  Let S0 : sound W := reachable_sound limit W HW.
  Let F0 : framed (fun _ => True) W := sound_framed W S0.

  Lemma copy_facts mk f (ok : nat -> Prop) : (forall vs i h, nth_error vs i = Some h -> value_step vs (mk i) = new vs (f h)) ->
    (forall i vs', ok i -> i < length (vals W) -> safe_op (vals W ++ vs') (mk i)) -> (forall p i, at_path (w_books W) b p = Some (EHist i) -> ok i) ->
    (forall W' y, derive limit mk W b = (W', Ok y) -> result f W W W' (EBook b) y /\ sound W' /\ grows W W') /\
    (forall W' e, derive limit mk W b = (W', Err e) -> reason f W limit (EBook b) e).
  Proof.
    intros H1 H2 H3. split; intros W' r E.
    - destruct (derive_frame (fun _ => True) W b mk f ok F0 H1 H2 H3 limit W' _ E) as (Fr & G & S' & R). split; [apply R; auto|]. auto.
    - apply (derive_err mk f H1 W ok H2 S0 limit W b W' r S0 (grows_refl W) (conj Hb H3) E).
  Qed.
  Lemma copied_facts W' y : copied limit W b W' y -> exists f, result f W W W' (EBook b) y /\ sound W' /\ grows W W'.
  Proof.
    intros [E|[E|[(v & E)|(E & U)]]].
    - exists (fun h => Ok h). apply (copy_facts OCopy _ (fun _ => True)); auto. exact mk_copy.
    - exists (fun h => Ok (hist_cleared h)). apply (copy_facts OCleared _ (fun _ => True)); auto. exact mk_cleared.
    - exists (fun h => hist_mul h v). apply (copy_facts (fun i => OMul i v) _ (fun _ => True)); auto. apply mk_mul.
    - exists (fun h => Ok h). apply (copy_facts OCopyOnFill _ (unfilled (vals W))); auto; [exact mk_copyonfill| |].
      + intros i vs' Ui Li. apply unfilled_app; auto.
      + apply all_unfilled_spec. auto.
  Qed.
  Let vs := HeapSpec.values (w_hists W).

  (** copy(): the same names, a new histogram with the same value for every histogram. *)
  Theorem C50_copy W' y : book_copy limit W b = (W', Ok y) ->
    derived_from (fun h => Ok h) vs (HeapSpec.values (w_hists W')) (w_books W) (w_books W') (EBook b) y.
  Proof. intros E. apply result_derived. apply (copy_facts OCopy _ (fun _ => True)); auto. exact mk_copy. Qed.
  Theorem C50_cleared W' y : book_cleared limit W b = (W', Ok y) ->
    derived_from (fun h => Ok (hist_cleared h)) vs (HeapSpec.values (w_hists W')) (w_books W) (w_books W') (EBook b) y.
  Proof. intros E. apply result_derived. apply (copy_facts OCleared _ (fun _ => True)); auto. exact mk_cleared. Qed.
  Theorem C50_mul v W' y : book_mul limit v W b = (W', Ok y) ->
    derived_from (fun h => hist_mul h v) vs (HeapSpec.values (w_hists W')) (w_books W) (w_books W') (EBook b) y.
  Proof. intros E. apply result_derived. apply (copy_facts (fun i => OMul i v) _ (fun _ => True)); auto. apply mk_mul. Qed.
  Theorem C50_copyonfill W' y : all_unfilled W (EBook b) -> book_copyonfill limit W b = (W', Ok y) ->
    derived_from (fun h => Ok h) vs (HeapSpec.values (w_hists W')) (w_books W) (w_books W') (EBook b) y.
  Proof.
    intros U E. apply result_derived. apply (copy_facts OCopyOnFill _ (unfilled (vals W))); auto; [exact mk_copyonfill| |].
    - intros i vs' Ui Li. apply unfilled_app; auto.
    - apply all_unfilled_spec. auto.
  Qed.
  (** copy() of a book that is not nested too deep does not fail. *)
  Theorem C50_copy_succeeds : shallow limit (w_books W) (EBook b) -> exists W' y, book_copy limit W b = (W', Ok y).
  Proof.
    intros Sh. destruct (book_copy limit W b) as [W' [y|e]] eqn:E; [eauto|]. exfalso.
    destruct (copy_facts OCopy (fun h => Ok h) (fun _ => True)) as (_ & He); auto; [exact mk_copy|].
    destruct (He W' e E) as [(_ & p & c & Ep & Lp)|(p & i & h & _ & _ & H)]; [|discriminate]. specialize (Sh p c Ep). lia.
  Qed.
  (** Making the copy changes nothing there was. *)
  Theorem C50_copy_changes_nothing W' y : copied limit W b W' y -> forall x, present W x -> unchanged W W' x.
  Proof. intros C x P. destruct (copied_facts W' y C) as (f & _ & _ & G). apply more_unchanged; auto. apply grows_more. auto. Qed.
  (** Whatever is done afterwards with the copy (and with what is made from then on) changes nothing
      there was before. *)
  Theorem C50_copy_isolated W' y l : copied limit W b W' y -> safe_all limit W' l -> works_on W' y l ->
    forall x, present W x -> unchanged W (act_all limit W' l) x.
  Proof.
    intros C Sf U x P. destruct (copied_facts W' y C) as (f & R & S' & G). assert (M := grows_more _ _ G). assert (F := below_framed W' y S').
    apply (unchanged_trans W W'); [apply more_unchanged; auto|]. apply present_fine in P.
    assert (P' : fine W' x) by (assert (L := more_len _ _ M); destruct x; cbn in *; lia).
    apply (frame_unchanged _ W' _ x F (acts_frame _ limit l W' F Sf U) P').
    intros p z Ez. assert (Oz : fine W z).
    { eapply follow_entry; [apply (so_entries _ S0)|exact P|]. rewrite <- (more_follow W W' x p M S0 (entry_exists _ _ _ P)). eauto. }
    intros [(q & Eq)|N].
    - assert (Fz := result_fresh _ _ _ _ _ _ _ _ R Eq). destruct z; cbn in *; lia.
    - apply new_spec in N. apply N. assert (L := more_len _ _ M). destruct z; cbn in *; lia.
  Qed.
  (** Whatever is done afterwards without the copy does not change the copy. *)
  Theorem C50_original_isolated W' y l : copied limit W b W' y -> safe_all limit W' l -> works_on_old W W' l ->
    unchanged W' (act_all limit W' l) y.
  Proof.
    intros C Sf U. destruct (copied_facts W' y C) as (f & R & S' & G). assert (M := grows_more _ _ G). assert (F := old_framed W W' M S0 S').
    apply (frame_unchanged _ W' _ y F); [apply acts_frame; auto| |].
    - eapply Forall_impl; [|exact U]. intros a Ha x I. destruct (Ha x I) as [P|N]; auto. left. apply present_fine. auto.
    - apply R.
    - intros p z Ez. assert (Fz := result_fresh _ _ _ _ _ _ _ _ R Ez). intros [O|N]; [destruct z; cbn in *; lia|].
      apply new_spec in N. apply N. destruct z; cbn in *; lia.
  Qed.
End Copies.
Print Assumptions C50_copy.
Print Assumptions C50_cleared.
Print Assumptions C50_mul.
Print Assumptions C50_copyonfill.
Print Assumptions C50_copy_succeeds.
Print Assumptions C50_copy_changes_nothing.
Print Assumptions C50_copy_isolated.
Print Assumptions C50_original_isolated.

(** ** C49: sums of books *)
Section Sums.
  Variables (limit : nat) (W : world) (a b : nat).
  Hypothesis HW : reachable limit W.
  Hypothesis Ha : present W (EBook a).
  Hypothesis Hb : present W (EBook b).
  Let S0 : sound W := reachable_sound limit W HW.
  Section Plus.
    Hypothesis Hg : safe W (AAdd a b).
    Variables (W' : world) (z : entry).
    Hypothesis E : book_add limit W a b = (W', Ok z).
    Lemma add_facts : sound W' /\ more W W' /\ fine W' z /\ (no_wildcards (w_books W) (EBook b) -> sum_result W W W' (EBook a) (EBook b) z).
    Proof.
      destruct (add_ok W S0 limit W a b W' (Ok z) S0 (more_refl W)) as (S' & M & _ & R); auto; [split; auto|].
      destruct (R z eq_refl) as (N & R'). split; auto. split; auto. split; auto. destruct z; cbn; lia.
    Qed.
    (** a + b: at every path the sum of the two histograms, or the one entry there is. *)
    Theorem C49_add : no_wildcards (w_books W) (EBook b) ->
      summed W W' (EBook a) (EBook b) z /\
      (forall p q e, is_new W e -> follow (w_books W') z p = Some e -> follow (w_books W') z q = Some e -> p = q).
    Proof.
      intros Nw. destruct add_facts as (S' & M & Fz & R). destruct (R Nw) as (_ & R1 & R2). split.
      - intros p. specialize (R1 p). unfold sum_at in R1. destruct (follow (w_books W) (EBook a) p) as [[i|c]|], (follow (w_books W) (EBook b) p) as [[j|d]|]; auto.
        + destruct R1 as (k & h & g & s & E1 & L & E2 & E3 & E4 & E5). exists k, h, g, s. split; auto. split; [apply new_spec; cbn; lia|]. auto.
        + destruct R1 as (k & E1 & L). exists k. split; auto. apply L.
      - intros p q e N E1 E2. apply (R2 p q e); auto. assert (O := follow_entry _ _ p (so_entries _ S') z e Fz E1). apply new_spec in N. destruct e; cbn in *; lia.
    Qed.
    Theorem C49_add_changes_nothing x : present W x -> unchanged W W' x.
    Proof. intros P. destruct add_facts as (S' & M & _). apply more_unchanged; auto. Qed.
    (** Whatever is done afterwards with the sum does not change what is not part of it. *)
    Theorem C49_sum_isolated l x : safe_all limit W' l -> works_on W' z l -> present W x -> disjoint (w_books W') z x ->
      unchanged W (act_all limit W' l) x.
    Proof.
      intros Sf U P D. destruct add_facts as (S' & M & _). assert (F := below_framed W' z S').
      apply (unchanged_trans W W'); [apply more_unchanged; auto|]. apply present_fine in P.
      assert (P' : fine W' x) by (assert (L := more_len _ _ M); destruct x; cbn in *; lia).
      apply (frame_unchanged _ W' _ x F (acts_frame _ limit l W' F Sf U) P').
      intros p y Ey [(q & Eq)|N]; [exact (D _ _ _ Eq Ey)|]. apply new_spec in N. apply N. eapply follow_entry; [apply (so_entries _ S')|exact P'|eauto].
    Qed.
    (** If both books have entries at the same paths, this is true of everything there was. *)
    Theorem C49_same_paths_isolated l : no_wildcards (w_books W) (EBook b) ->
      (forall p, follow (w_books W) (EBook a) p = None <-> follow (w_books W) (EBook b) p = None) ->
      safe_all limit W' l -> works_on W' z l -> forall x, present W x -> unchanged W (act_all limit W' l) x.
    Proof.
      intros Nw Sm Sf U x P. apply C49_sum_isolated; auto. destruct (C49_add Nw) as (R & _). destruct add_facts as (S' & M & _). apply present_fine in P.
      intros p q e E1 E2. assert (O : fine W e).
      { eapply follow_entry; [apply (so_entries _ S0)|exact P|]. rewrite <- (more_follow W W' x q M S0 (entry_exists _ _ _ P)). eauto. }
      specialize (R p). specialize (Sm p). destruct (follow (w_books W) (EBook a) p) as [[i|c]|], (follow (w_books W) (EBook b) p) as [[j|d]|]; try contradiction.
      - destruct R as (k & h & g & s & Ek & N & _). rewrite E1 in Ek. inversion Ek; subst. apply new_spec in N. auto.
      - destruct Sm as (_ & Sm). discriminate Sm. auto.
      - destruct R as (k & Ek & N). rewrite E1 in Ek. inversion Ek; subst. apply (proj1 (new_spec _ _) N). auto.
      - destruct Sm as (_ & Sm). discriminate Sm. auto.
      - destruct Sm as (Sm & _). discriminate Sm. auto.
      - destruct Sm as (Sm & _). discriminate Sm. auto.
      - congruence.
    Qed.
  End Plus.

  Section PlusInPlace.
    Hypothesis Ta : tree_like (w_books W) (EBook a).
    Hypothesis Tb : tree_like (w_books W) (EBook b).
    Hypothesis Dj : disjoint (w_books W) (EBook a) (EBook b).
    Variable W' : world.
    Hypothesis E : book_iadd limit W a b = (W', None).
    (** a += b: the histograms of a at paths that b also has get the other added, in place; entries that
        only b has are stored in a by reference. *)
    Theorem C49_iadd : merged W W' (EBook a) (EBook b).
    Proof. apply (iadd_ok limit W a b W' S0 Ha Hb Ta Tb Dj E). Qed.
    (** Nothing changes but a and what is below a: b does not. *)
    Theorem C49_iadd_changes_only_a x : present W x -> disjoint (w_books W) (EBook a) x -> unchanged W W' x.
    Proof.
      intros P D. destruct (iadd_ok limit W a b W' S0 Ha Hb Ta Tb Dj E) as (_ & K & _). apply (kept_unchanged _ W W' x S0 K); [apply present_fine; auto|].
      intros p y Ey (q & Eq). exact (D _ _ _ Eq Ey).
    Qed.
    (** It agrees with +: the same names, the same values. *)
    Theorem C49_iadd_agrees W2 z : safe W (AAdd a b) -> no_wildcards (w_books W) (EBook b) -> book_add limit W a b = (W2, Ok z) ->
      (forall p i j h g, at_path (w_books W) a p = Some (EHist i) -> at_path (w_books W) b p = Some (EHist j) -> hist_value W i = Some h -> hist_value W j = Some g ->
         hobj_ok h /\ hobj_ok g /\ addable h g) ->
      forall p, match follow (w_books W2) z p with
        | Some (EHist k) => exists i, at_path (w_books W') a p = Some (EHist i) /\ hist_value W' i = hist_value W2 k
        | Some (EBook _) => exists c, at_path (w_books W') a p = Some (EBook c)
        | None => at_path (w_books W') a p = None
        end.
    Proof.
      intros Hg Nw E2 Hadd p. destruct (C49_add Hg W2 z E2 Nw) as (Sm & _). destruct (add_facts Hg W2 z E2) as (_ & M2 & _). assert (Mg := C49_iadd p). specialize (Sm p). specialize (Hadd p). unfold at_path in *.
      assert (V2 : forall i, follow (w_books W) (EBook a) p = Some (EHist i) \/ follow (w_books W) (EBook b) p = Some (EHist i) -> hist_value W2 i = hist_value W i).
      { intros i Hi. assert (O : fine W (EHist i)) by (destruct Hi as [Ei|Ei]; [exact (follow_entry _ _ p (so_entries _ S0) (EBook a) (EHist i) Ha Ei)|exact (follow_entry _ _ p (so_entries _ S0) (EBook b) (EHist i) Hb Ei)]). cbn in O. rewrite !value_vals.
        destruct (nth_error (vals W) i) as [h|] eqn:Eh; [|apply nth_error_None in Eh; lia]. eapply more_value; eauto. }
      destruct (follow (w_books W) (EBook a) p) as [[i|c]|], (follow (w_books W) (EBook b) p) as [[j|d]|]; try contradiction.
      - destruct Sm as (k & h & g & s & -> & _ & E3 & E4 & E5 & E6). destruct Mg as (-> & h' & g' & s' & E7 & E8 & E9 & E10). exists i. split; auto.
        rewrite E3 in E7. rewrite E4 in E8. inversion E7; inversion E8; subst. destruct (Hadd i j h' g') as (O1 & O2 & O3); auto. destruct (C27_iadd h' g' O1 O2 O3) as (s2 & E11 & E12). congruence.
      - rewrite Sm. destruct Mg as (-> & Vi). exists i. split; auto. cbn in Vi. rewrite Vi. symmetry. apply V2. auto.
      - destruct Sm as (k & -> & _). eauto.
      - rewrite Sm. destruct Mg as (-> & _). eauto.
      - rewrite Sm. destruct Mg as (-> & Vi). exists j. split; auto. cbn in Vi. rewrite Vi. symmetry. apply V2. auto.
      - rewrite Sm. destruct Mg as (-> & _). eauto.
      - rewrite Sm. auto.
    Qed.
  End PlusInPlace.
End Sums.
Print Assumptions C49_add.
Print Assumptions C49_add_changes_nothing.
Print Assumptions C49_sum_isolated.
Print Assumptions C49_same_paths_isolated.
Print Assumptions C49_iadd.
Print Assumptions C49_iadd_changes_only_a.
Print Assumptions C49_iadd_agrees.

(** ** C51: sample books and views *)
Lemma slash_free k : ~ In "/"%char (list_ascii_of_string k) <-> cut_slash k = None.
Proof.
  induction k as [|c k IH]; cbn [list_ascii_of_string In cut_slash]; [tauto|]. destruct (Ascii.eqb_spec c "/") as [->|N].
  - split; [intros H; exfalso; apply H; left; auto|discriminate].
  - destruct (cut_slash k) as [[x r]|]; split; try discriminate.
    + intros H. exfalso. apply H. right. destruct (in_dec ascii_dec "/"%char (list_ascii_of_string k)) as [I|I]; auto. apply IH in I. discriminate.
    + auto.
    + intros _ [Q|Q]; [congruence|]. revert Q. apply IH. auto.
Qed.
Lemma plain_names_keys l : plain_names (map fst l) -> plain_keys l.
Proof. intros (N & P). split; auto. intros k I. apply slash_free. auto. Qed.
Lemma combine_fst {A B} (l : list A) (m : list B) : length m = length l -> map fst (combine l m) = l.
Proof. revert m. induction l as [|x l IH]; intros [|y m] L; cbn in *; try discriminate; auto. f_equal. auto. Qed.
Lemma dget_combine s ss ys : length ys = length ss -> NoDup ss -> match dget s (combine ss ys) with
  | Some y => exists n, nth_error ss n = Some s /\ nth_error ys n = Some y
  | None => ~ In s ss
  end.
Proof.
  revert ys. induction ss as [|a ss IH]; intros [|y ys] L Nd; cbn in *; try discriminate; auto. destruct (String.eqb_spec s a) as [->|N].
  - exists 0. auto.
  - inversion Nd; subst. specialize (IH ys). destruct (dget s (combine ss ys)) as [z|].
    + destruct IH as (n & H); auto. exists (Datatypes.S n). auto.
    + intros [Q|Q]; [auto|]. apply IH; auto.
Qed.
Lemma unfilled_given W l : safe W (ASamples [] l) -> forall n x, In (n, x) l -> fine W x /\ all_unfilled W x.
Proof. intros H n x I. destruct (H n x I). split; auto. apply present_fine. auto. Qed.

(** SamplesBook(samples, l): every sample has its own copy of every given histogram: new histograms,
    none of them at two places. *)
Theorem C51_samples limit W samples l W' b : reachable limit W -> plain_names samples -> plain_names (map fst l) -> safe W (ASamples samples l) ->
  samples_book limit W samples l = (W', Ok b) ->
  (forall s n p, ~ In s samples \/ given W l (n :: p) = None -> at_path (w_books W') b (s :: n :: p) = None) /\
  (forall s n p i, In s samples -> given W l (n :: p) = Some (EHist i) ->
     exists k h, at_path (w_books W') b (s :: n :: p) = Some (EHist k) /\ is_new W (EHist k) /\ hist_value W i = Some h /\ hist_value W' k = Some h) /\
  (forall s n p c, In s samples -> given W l (n :: p) = Some (EBook c) ->
     exists d, at_path (w_books W') b (s :: n :: p) = Some (EBook d) /\ is_new W (EBook d)) /\
  tree_like (w_books W') (EBook b) /\ (forall x, present W x -> unchanged W W' x).
Proof.
  intros HW (Nd & Ps) Pl Sf E. assert (S0 := reachable_sound _ _ HW). unfold samples_book in E. cbn [new_book] in E.
  set (W1 := with_books W (w_books W ++ [empty_book])) in *. set (self := length (w_books W)) in *.
  destruct (add_samples limit W1 self samples l) as [W2 [e|]] eqn:Ea; inversion E; subst W2 b. clear E.
  assert (S1 : sound W1) by (apply (new_book_frame (fun _ => True) W (sound_framed W S0))).
  assert (M1 : more W W1) by (exists [empty_book], []; rewrite app_nil_r; split; auto).
  assert (C1 : content_of (w_books W1) self = Some []) by (unfold content_of; cbn [W1 with_books w_books]; unfold self; rewrite nth_last; auto).
  assert (L1 : self < length (w_books W1)) by (apply content_some; eauto). clearbody W1.
  destruct (samples_loop W l S0 (plain_names_keys l Pl) (unfilled_given W l Sf) self limit samples W1 W' []) as (Lt & K & ys & Cy & Ly & Hy & Dy); auto.
  { split; auto. split; [unfold self in *; lia|]. apply more_kept. auto. }
  { intros s I. apply slash_free. auto. }
  cbn [app] in Cy. assert (Dg := fun s => dget_combine s samples ys Ly Nd). assert (LM := more_len _ _ M1).
  assert (Fl : forall s p, at_path (w_books W') self (s :: p) = match dget s (combine samples ys) with Some y => follow (w_books W') y p | None => None end).
  { intros s p. rewrite at_path_cons. unfold look. rewrite Cy. auto. }
  assert (Sam : forall s, In s samples -> exists y, dget s (combine samples ys) = Some y /\ copy_of_all W l W1 W' y).
  { intros s I. specialize (Dg s). destruct (dget s (combine samples ys)) as [y|]; [|contradiction]. exists y. split; auto. destruct Dg as (n & _ & En). rewrite Forall_forall in Hy. apply Hy. eapply nth_error_In; eauto. }
  split; [|split; [|split; [|split]]].
  - intros s n p H. rewrite Fl. destruct (in_dec string_dec s samples) as [I|I].
    + destruct (Sam s I) as (y & -> & _ & _ & C & _). specialize (C n p). destruct H as [H|H]; [contradiction|]. rewrite H in C. auto.
    + specialize (Dg s). destruct (dget s (combine samples ys)) as [y|]; auto. destruct Dg as (m & Em & _). apply nth_error_In in Em. contradiction.
  - intros s n p i I Eg. rewrite Fl. destruct (Sam s I) as (y & -> & _ & F & C & _). specialize (C n p). rewrite Eg in C. destruct C as (k & h & E1 & E2 & E3). exists k, h. split; auto. split; auto.
    specialize (F _ _ E1). apply new_spec. cbn in *. lia.
  - intros s n p c I Eg. rewrite Fl. destruct (Sam s I) as (y & -> & _ & F & C & _). specialize (C n p). rewrite Eg in C. destruct C as (d & E1). exists d. split; auto.
    specialize (F _ _ E1). cbn in *. lia.
  - assert (At : forall s p z, at_path (w_books W') self (s :: p) = Some z -> exists n y, nth_error samples n = Some s /\ nth_error ys n = Some y /\ follow (w_books W') y p = Some z /\ copy_of_all W l W1 W' y).
    { intros s p z. rewrite Fl. specialize (Dg s). destruct (dget s (combine samples ys)) as [y|] eqn:D; [|discriminate]. destruct Dg as (n & Es & Ey). intros Ez. exists n, y. split; auto. split; auto. split; auto.
      rewrite Forall_forall in Hy. apply Hy. eapply nth_error_In; eauto. }
    assert (Root : forall s p, at_path (w_books W') self (s :: p) <> Some (EBook self)).
    { intros s p Ez. destruct (At s p _ Ez) as (n & y & _ & _ & Ey & (_ & F & _)). specialize (F _ _ Ey). cbn in F. lia. }
    intros p q z Ep Eq. fold (at_path (w_books W') self p) in Ep. fold (at_path (w_books W') self q) in Eq. destruct p as [|s p], q as [|t q]; auto.
    + exfalso. cbn in Ep. inversion Ep; subst z. eapply Root; eauto.
    + exfalso. cbn in Eq. inversion Eq; subst z. eapply Root; eauto.
    + destruct (At _ _ _ Ep) as (n & y & Es & Ey & Fy & (_ & _ & _ & T)), (At _ _ _ Eq) as (m & y' & Es' & Ey' & Fy' & _). destruct (Nat.eq_dec n m) as [->|N].
      * rewrite Es in Es'. rewrite Ey in Ey'. inversion Es'; inversion Ey'; subst. f_equal. eapply T; eauto.
      * destruct (Dy y y' n m Ey Ey' N _ _ _ Fy Fy').
  - intros x P. assert (Px := proj1 (present_fine W x) P). eapply (kept_unchanged (fun z => z = EBook self) W W' x S0); auto.
    + eapply kept_trans; [apply more_kept; exact M1|exact K].
    + intros p z Ez ->. assert (O := follow_entry _ _ p (so_entries _ S0) x _ Px Ez). cbn in O. unfold self in O. lia.
Qed.
Print Assumptions C51_samples.

(** view(pattern): exactly the histograms whose path matches the pattern, at the same paths, the
    histograms themselves and not copies. *)
Theorem C51_view limit W b pattern B' d : reachable limit W -> present W (EBook b) -> book_view limit (w_books W) b pattern = (B', Ok d) ->
  (forall p i, at_path B' d p = Some (EHist i) <-> at_path (w_books W) b p = Some (EHist i) /\ matches_pattern pattern (path_name p)) /\
  is_new W (EBook d) /\ (forall x, present W x -> unchanged W (with_books W B') x).
Proof.
  intros HW Hb E. assert (S0 := reachable_sound _ _ HW). unfold book_view in E. destruct (view_ limit pattern (w_books W) b None) as [B1 [[d1|]|e]] eqn:Ev; inversion E; subst B1 d1. clear E.
  destruct (view_ok pattern (length (vals W)) (w_books W) (so_keys _ S0) (so_entries _ S0) limit (w_books W) b None B' _ (so_keys _ S0) (so_entries _ S0) (ex_intro _ [] (eq_sym (app_nil_r _))) Hb Ev) as ((_ & _ & (Y & EY) & _) & R).
  destruct (R _ eq_refl) as (Ld & Sh). split; [|split].
  - intros p i. rewrite <- fnmatchcase_spec. exact (Sh p i).
  - apply Ld.
  - intros x P. apply more_unchanged; auto. exists Y, []. rewrite app_nil_r. split; auto.
Qed.
Print Assumptions C51_view.
Lemma view_err pattern n0 B0 m : keys_ok B0 -> entries_ok B0 n0 -> forall B b path B' e, keys_ok B -> entries_ok B n0 -> (exists X, B = B0 ++ X) -> b < length B0 -> view_ m pattern B b path = (B', Err e) ->
  e = RecursionError /\ exists p c, follow B0 (EBook b) p = Some (EBook c) /\ m <= length p.
Proof.
  intros K0 E0. induction m as [|m IH]; intros B b path B' e K E PX Lb V; cbn [view_] in V.
  - inversion V; subst. split; auto. exists [], b. split; auto.
  - change (content_or B b) with (content_of B b) in V. assert (CB : content_of B b = content_of B0 b) by (destruct PX as (X & ->); apply content_app_old; auto). rewrite CB in V.
    destruct (content_of B0 b) as [la|] eqn:Cb; [|apply content_some in Lb; destruct Lb; congruence].
    assert (Items : forall l B B1 e, incl l la -> plain_keys l -> keys_ok B -> entries_ok B n0 -> (exists X, B = B0 ++ X) -> view_items (view_ m pattern) pattern path B l = (B1, Err e) ->
      e = RecursionError /\ exists n c p c', In (n, EBook c) la /\ follow B0 (EBook c) p = Some (EBook c') /\ m <= length p).
    { clear V K E PX B B' e CB. induction l as [|(n, x) l IHl]; intros B B1 e Il Pl K E PX V; cbn [view_items] in V; fold (view_items (view_ m pattern) pattern path) in V; [discriminate|].
      assert (Il' : incl l la) by (intros z I; apply Il; right; auto). assert (Pl' : plain_keys l) by (destruct Pl as (N & P); split; [inversion N; auto|intros k I; apply P; right; auto]).
      destruct x as [i|c].
      - destruct (view_items (view_ m pattern) pattern path B l) as [B2 [t|e']] eqn:E2; [discriminate|]. inversion V; subst. eapply IHl; eauto.
      - assert (Ix : In (n, EBook c) la) by (apply Il; left; auto). assert (Lc : c < length B0) by (apply (E0 b la n (EBook c)); auto).
        destruct (view_ m pattern B c (Some (under path n))) as [B2 r] eqn:E2. destruct (view_ok pattern n0 B0 K0 E0 m B c _ B2 r K E PX Lc E2) as ((K2 & En2 & (Y2 & EY2) & _) & _).
        destruct r as [o|e']; cbn [rmap] in V.
        + destruct (view_items (view_ m pattern) pattern path B2 l) as [B3 [t|e']] eqn:E3; [discriminate|]. inversion V; subst B3 e'. eapply (IHl B2); eauto. destruct PX as (X & ->). exists (X ++ Y2). rewrite EY2, app_assoc. auto.
        + inversion V; subst. destruct (IH _ _ _ _ _ K E PX Lc E2) as (-> & p & c' & Ep & Lp). split; auto. exists n, c, p, c'. auto. }
    assert (Kla : plain_keys la) by (apply (K0 b la Cb)).
    destruct (view_items (view_ m pattern) pattern path B la) as [B1 [l'|e1]] eqn:E1.
    + destruct (view_items_ok pattern n0 B0 E0 m b la Cb (view_ok pattern n0 B0 K0 E0 m) path la B B1 _ (incl_refl _) Kla K E PX E1) as (_ & R1). destruct (R1 l' eq_refl) as (_ & P1 & _).
      destruct l' as [|kx l']; [discriminate|]. rewrite fromdicts_plain in V by auto. discriminate.
    + inversion V; subst. destruct (Items la B B' e (incl_refl _) Kla K E PX E1) as (-> & n & c & p & c' & I & Ep & Lp). split; auto. exists (n :: p), c'.
      rewrite (follow_item B0 b la n (EBook c) p Cb); [split; auto; cbn; lia|]. apply in_dget; auto. apply Kla.
Qed.
Lemma view_nonempty pattern n0 B0 m : keys_ok B0 -> entries_ok B0 n0 -> forall B b path B' d, keys_ok B -> entries_ok B n0 -> (exists X, B = B0 ++ X) -> b < length B0 ->
  view_ m pattern B b path = (B', Ok (Some d)) -> exists p i, follow B' (EBook d) p = Some (EHist i).
Proof.
  intros K0 E0. induction m as [|m IH]; intros B b path B' d K E PX Lb V; cbn [view_] in V; [discriminate|].
  change (content_or B b) with (content_of B b) in V. assert (CB : content_of B b = content_of B0 b) by (destruct PX as (X & ->); apply content_app_old; auto). rewrite CB in V.
  destruct (content_of B0 b) as [la|] eqn:Cb; [|apply content_some in Lb; destruct Lb; congruence].
  assert (Items : forall l B B1 l', incl l la -> plain_keys l -> keys_ok B -> entries_ok B n0 -> (exists X, B = B0 ++ X) -> view_items (view_ m pattern) pattern path B l = (B1, Ok l') ->
    forall n y, In (n, y) l' -> exists p i, follow B1 y p = Some (EHist i)).
  { clear V K E PX B B' d CB. induction l as [|(n, x) l IHl]; intros B B1 l' Il Pl K E PX V; cbn [view_items] in V; fold (view_items (view_ m pattern) pattern path) in V; [inversion V; intros n y []|].
    assert (Il' : incl l la) by (intros z I; apply Il; right; auto). assert (Pl' : plain_keys l) by (destruct Pl as (N & P); split; [inversion N; auto|intros k I; apply P; right; auto]).
    destruct x as [i|c].
    - destruct (view_items (view_ m pattern) pattern path B l) as [B2 [t|e']] eqn:E2; [|discriminate]. inversion V; subst. intros k y I. apply in_app_or in I. destruct I as [I|I]; [|eapply IHl; eauto].
      destruct (fnmatchcase (under path n) pattern); [|destruct I]. destruct I as [I|[]]. inversion I; subst. exists [], i. auto.
    - assert (Ix : In (n, EBook c) la) by (apply Il; left; auto). assert (Lc : c < length B0) by (apply (E0 b la n (EBook c)); auto).
      destruct (view_ m pattern B c (Some (under path n))) as [B2 r] eqn:E2. destruct (view_ok pattern n0 B0 K0 E0 m B c _ B2 r K E PX Lc E2) as ((K2 & En2 & (Y2 & EY2) & _) & _).
      destruct r as [o|e']; cbn [rmap] in V; [|discriminate]. assert (PX2 : exists X, B2 = B0 ++ X) by (destruct PX as (X & ->); exists (X ++ Y2); rewrite EY2, app_assoc; auto).
      destruct (view_items (view_ m pattern) pattern path B2 l) as [B3 [t|e']] eqn:E3; [|discriminate]. inversion V; subst B3 l'. intros k y I. apply in_app_or in I. destruct I as [I|I]; [|eapply (IHl B2); eauto].
      destruct o as [d|]; [|destruct I]. destruct I as [I|[]]. inversion I; subst k y. destruct (IH B c _ B2 d K E PX Lc E2) as (p & i & Ep). exists p, i.
      destruct (view_items_ok pattern n0 B0 E0 m b la Cb (view_ok pattern n0 B0 K0 E0 m) path l B2 B1 _ Il' Pl' K2 En2 PX2 E3) as ((_ & _ & (Y3 & EY3) & _) & _). rewrite EY3, follow_more; auto; [apply (entries_valid _ _ En2)|].
      destruct (view_ok pattern n0 B0 K0 E0 m B c _ B2 _ K E PX Lc E2) as (_ & Rd). destruct (Rd _ eq_refl) as (Ld & _). cbn. lia. }
  assert (Kla : plain_keys la) by (apply (K0 b la Cb)).
  destruct (view_items (view_ m pattern) pattern path B la) as [B1 [l'|e1]] eqn:E1; [|discriminate].
  destruct (view_items_ok pattern n0 B0 E0 m b la Cb (view_ok pattern n0 B0 K0 E0 m) path la B B1 _ (incl_refl _) Kla K E PX E1) as ((_ & En1 & _) & R1). destruct (R1 l' eq_refl) as (_ & P1 & O1 & _).
  destruct l' as [|(k, y) l']; [discriminate|]. rewrite fromdicts_plain in V by auto. cbn [rmap] in V. inversion V; subst B' d. destruct (Items la B B1 _ (incl_refl _) Kla K E PX E1 k y (or_introl eq_refl)) as (p & i & Ep).
  exists (k :: p), i. rewrite follow_cons. unfold look, content_of. rewrite nth_last. cbn [option_map b_content book_of dget]. rewrite String.eqb_refl, follow_more; auto; [apply (entries_valid _ _ En1)|].
  eapply entry_exists. eapply O1. left. reflexivity.
Qed.
(** view(pattern) succeeds if some path matches, and only then. *)
Theorem C51_view_succeeds limit W b pattern : reachable limit W -> present W (EBook b) -> shallow limit (w_books W) (EBook b) ->
  ((exists p i, at_path (w_books W) b p = Some (EHist i) /\ matches_pattern pattern (path_name p)) <-> exists B' d, book_view limit (w_books W) b pattern = (B', Ok d)) /\
  ((forall p i, at_path (w_books W) b p = Some (EHist i) -> ~ matches_pattern pattern (path_name p)) <-> exists B', book_view limit (w_books W) b pattern = (B', Err ValueError)).
Proof.
  intros HW Hb Sh. assert (S0 := reachable_sound _ _ HW). unfold book_view. destruct (view_ limit pattern (w_books W) b None) as [B' r] eqn:Ev.
  destruct (view_ok pattern (length (vals W)) (w_books W) (so_keys _ S0) (so_entries _ S0) limit (w_books W) b None B' _ (so_keys _ S0) (so_entries _ S0) (ex_intro _ [] (eq_sym (app_nil_r _))) Hb Ev) as (_ & R).
  destruct r as [o|e].
  2:{ exfalso. destruct (view_err pattern _ _ limit (so_keys _ S0) (so_entries _ S0) _ b None B' e (so_keys _ S0) (so_entries _ S0) (ex_intro _ [] (eq_sym (app_nil_r _))) Hb Ev) as (_ & p & c & Ep & Lp). specialize (Sh p c Ep). lia. }
  specialize (R o eq_refl). destruct o as [d|].
  - destruct R as (_ & Sw). assert (Ex : exists p i, at_path (w_books W) b p = Some (EHist i) /\ matches_pattern pattern (path_name p)).
    { destruct (view_nonempty pattern _ _ limit (so_keys _ S0) (so_entries _ S0) _ b None B' d (so_keys _ S0) (so_entries _ S0) (ex_intro _ [] (eq_sym (app_nil_r _))) Hb Ev) as (p & i & Ep).
      exists p, i. apply Sw in Ep. rewrite <- fnmatchcase_spec. exact Ep. }
    split; split; eauto.
    + intros H. exfalso. destruct Ex as (p & i & E & M). exact (H p i E M).
    + intros (B2 & E2). discriminate.
  - split; split.
    + intros (p & i & E & M). exfalso. apply fnmatchcase_spec in M. specialize (R p i E). cbn in R. congruence.
    + intros (B2 & d & E2). discriminate.
    + eauto.
    + intros _ p i E M. apply fnmatchcase_spec in M. specialize (R p i E). cbn in R. congruence.
Qed.
Print Assumptions C51_view_succeeds.

(** Whatever is done with a view changes only histograms at matching paths. *)
Theorem C51_view_isolated limit W b pattern B' d l i : reachable limit W -> present W (EBook b) -> book_view limit (w_books W) b pattern = (B', Ok d) ->
  safe_all limit (with_books W B') l -> works_on (with_books W B') (EBook d) l ->
  present W (EHist i) -> (forall p, at_path (w_books W) b p = Some (EHist i) -> ~ matches_pattern pattern (path_name p)) ->
  hist_value (act_all limit (with_books W B') l) i = hist_value W i.
Proof.
  intros HW Hb E Sf U P N. destruct (C51_view _ _ _ _ _ _ HW Hb E) as (Sh & Nd & Un).
  assert (Sr : sound (with_books W B')).
  { assert (HV : reachable limit (fst (act limit W (AView b pattern)))) by (constructor; [auto|exact I]). cbn [act] in HV. rewrite E in HV. apply (reachable_sound limit). exact HV. }
  assert (F := below_framed _ (EBook d) Sr). assert (Fr := acts_frame _ limit l _ F Sf U).
  assert (H := frame_unchanged _ _ _ (EHist i) F Fr (proj1 (present_fine W _) P)). destruct (H) with (p := @nil string) as (_ & H2); [|apply H2; reflexivity].
  intros p y Ey. destruct p; [|discriminate]. cbn in Ey. inversion Ey; subst y. intros [(q & Eq)|Nw].
  - apply Sh in Eq. destruct Eq as (E1 & E2). exact (N q E1 E2).
  - destruct P as (h & Eh). cbn in Nw. unfold hist_value in *. cbn [with_books w_hists] in Nw. congruence.
Qed.
Print Assumptions C51_view_isolated.

(** The pattern s/* of a sample s. *)
Lemma glob_literal a s : forallb (fun c => negb (is_wild c)) a = true -> (glob (a ++ ["*"%char]) s <-> exists t, s = a ++ t).
Proof.
  revert s. induction a as [|c a IH]; intros s; cbn [forallb app].
  - intros _. split; [intros _; exists s; auto|]. intros _. rewrite <- (app_nil_r s). apply glob_star. constructor.
  - intros H. apply andb_true_iff in H. destruct H as (Hc & Ha). assert (Hc' : c <> "*"%char /\ c <> "?"%char /\ c <> "["%char) by (repeat split; intros ->; discriminate). destruct Hc' as (C1 & C2 & C3). split.
    + intros G. inversion G; subst; try congruence. destruct (proj1 (IH t Ha)) as (t' & ->); auto. exists t'. auto.
    + intros (t & ->). apply glob_char; auto. apply IH; eauto.
Qed.
Lemma ascii_app a b : list_ascii_of_string (a ++ b) = (list_ascii_of_string a ++ list_ascii_of_string b)%list.
Proof. induction a as [|c a IH]; cbn; auto. f_equal. auto. Qed.
Lemma string_of_app a b : string_of_list_ascii (a ++ b) = (string_of_list_ascii a ++ string_of_list_ascii b)%string.
Proof. induction a as [|c a IH]; cbn; auto. f_equal. auto. Qed.
Lemma sample_pattern s t p : wild s = false -> ~ In "/"%char (list_ascii_of_string s) -> ~ In "/"%char (list_ascii_of_string t) ->
  (matches_pattern (s ++ "/*") (path_name (t :: p)) <-> t = s /\ p <> []).
Proof.
  intros Ws Ss St. apply slash_free in Ss, St. unfold matches_pattern. rewrite ascii_app. change (list_ascii_of_string "/*") with (["/"%char] ++ ["*"%char]). rewrite app_assoc, glob_literal.
  2:{ rewrite forallb_app. apply andb_true_iff. split; auto. apply forallb_forall. intros c I. unfold wild in Ws. destruct (is_wild c) eqn:E; auto. assert (existsb is_wild (list_ascii_of_string s) = true) by (apply existsb_exists; eauto). congruence. }
  assert (Cs : forall r, cut_slash (s ++ String "/" r) = Some (s, r)) by (intros r; apply cut_app; auto).
  split.
  - intros (u & Eu). assert (Es : path_name (t :: p) = (s ++ String "/" (string_of_list_ascii u))%string).
    { rewrite <- (string_of_list_ascii_of_string (path_name (t :: p))), Eu, <- app_assoc, string_of_app, string_of_list_ascii_of_string. auto. }
    destruct p as [|k p].
    + cbn [path_name] in Es. rewrite Es, Cs in St. discriminate.
    + split; [|discriminate]. change (path_name (t :: k :: p)) with (t ++ String "/" (path_name (k :: p)))%string in Es. assert (C := cut_app t (path_name (k :: p)) St). rewrite Es, Cs in C. congruence.
  - intros (-> & Np). destruct p as [|k p]; [contradiction|]. exists (list_ascii_of_string (path_name (k :: p))). change (path_name (s :: k :: p)) with (s ++ String "/" (path_name (k :: p)))%string. rewrite ascii_app, <- app_assoc. auto.
Qed.
(** Whatever is done with the view of one sample leaves the histograms of other samples unchanged. *)
Theorem C51_sample_isolated limit W samples l W1 b s t B' d prog n p i : reachable limit W -> plain_names samples -> plain_names (map fst l) -> safe W (ASamples samples l) ->
  samples_book limit W samples l = (W1, Ok b) -> In s samples -> In t samples -> s <> t -> wild s = false ->
  book_view limit (w_books W1) b (s ++ "/*") = (B', Ok d) -> safe_all limit (with_books W1 B') prog -> works_on (with_books W1 B') (EBook d) prog ->
  at_path (w_books W1) b (t :: n :: p) = Some (EHist i) -> hist_value (act_all limit (with_books W1 B') prog) i = hist_value W1 i.
Proof.
  intros HW Ps Pl Sf E Is It Nst Ws Ev Sp Wk Ei. destruct (C51_samples _ _ _ _ _ _ HW Ps Pl Sf E) as (_ & _ & _ & T & _).
  assert (HW1 : reachable limit W1). { assert (H := reach_act limit W (ASamples samples l) HW Sf). cbn [act] in H. rewrite E in H. exact H. }
  assert (S1 := reachable_sound _ _ HW1).
  assert (Hb : present W1 (EBook b)).
  { cbn. unfold at_path in Ei. rewrite follow_cons in Ei. unfold look in Ei. destruct (content_of (w_books W1) b) eqn:C; [|discriminate]. apply content_some. eauto. }
  eapply (C51_view_isolated limit W1 b); eauto.
  - apply present_fine. exact (follow_entry _ _ _ (so_entries _ S1) (EBook b) (EHist i) Hb Ei).
  - intros q Eq M. assert (Q := T _ _ _ Ei Eq). subst q. apply sample_pattern in M; [|auto|apply Ps; auto|apply Ps; auto]. destruct M as (-> & _). auto.
Qed.
Print Assumptions C51_sample_isolated.
