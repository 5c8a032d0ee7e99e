(** Books and sharing, part 7: what a sample book contains. *)
From Coq Require Import String.
From Verif Require Import Base Num Axis Calc Content Fill HistAlg AlgSpec HistAlgProofs HistAlgMain Heap HeapSpec HeapProofs HeapAdd HeapMain HeapMain2
  Tree Instr Elem HistFill Glob Book BookSpec BookProofs BookPaths BookIter BookFill BookHeap BookHeapSpec BookHeapProofs BookHeapAdd BookHeapFrame BookHeapActs BookHeapMain BookHeapIadd.
Local Open Scope string_scope.
Local Open Scope list_scope.

Section Samples.
  Variables (W0 : world) (l : list (string * entry)).
  Hypothesis S0 : sound W0.
  Hypothesis Pl : plain_keys l.
  Hypothesis Hl : forall n x, In (n, x) l -> fine W0 x /\ all_unfilled W0 x.

  Notation given := (given W0 l).
  Definition copy_of_all (W W' : world) (y : entry) : Prop :=
    (exists d, y = EBook d) /\
    (forall p z, follow (w_books W') y p = Some z -> fresh_entry W W' z) /\
    (forall n p, match given (n :: p) with
       | None => follow (w_books W') y (n :: p) = None
       | Some (EHist i) => exists k h, follow (w_books W') y (n :: p) = Some (EHist k) /\ hist_value W0 i = Some h /\ hist_value W' k = Some h
       | Some (EBook _) => exists d, follow (w_books W') y (n :: p) = Some (EBook d)
       end) /\ tree_like (w_books W') y.
  Lemma copy_unchanged W W1 W' W2 y : unchanged W1 W2 y -> length (vals W) <= length (vals W') -> length (w_books W) <= length (w_books W') ->
    length (vals W1) <= length (vals W2) -> length (w_books W1) <= length (w_books W2) -> copy_of_all W' W1 y -> copy_of_all W W2 y.
  Proof.
    intros U L1 L2 L3 L4 (D & F & C & T). split; auto. split.
    - intros p z. rewrite (proj1 (U p)). intros E. specialize (F p z E). destruct z; cbn in *; lia.
    - split.
      + intros n p. specialize (C n p). destruct (U (n :: p)) as (A & B). rewrite A. destruct (given (n :: p)) as [[i|c]|]; auto.
        destruct C as (k & h & E1 & E2 & E3). exists k, h. split; auto. split; auto. rewrite B; auto.
      + intros p q z. rewrite (proj1 (U p)), (proj1 (U q)). apply T.
  Qed.
  (** What is below the given entries in a later world. *)
  Definition later (self : nat) (W : world) : Prop := sound W /\ length (w_books W0) <= self < length (w_books W) /\ kept (fun z => z = EBook self) W0 W.
  Lemma later_same self W n x : later self W -> In (n, x) l -> unchanged W0 W x /\ fine W x.
  Proof.
    intros (Sd & Lb & K) I. destruct (Hl n x I) as (O & _). split; [|eapply fine_kept; eauto]. eapply kept_unchanged; eauto. intros p z Ez ->.
    assert (H := follow_entry _ _ p (so_entries _ S0) x _ O Ez). cbn in H. lia.
  Qed.
  Lemma samples_loop self m : forall samples W W' acc, later self W -> content_of (w_books W) self = Some acc -> NoDup (map fst acc ++ samples) ->
    (forall s, In s samples -> cut_slash s = None) -> add_samples m W self samples l = (W', None) ->
    later self W' /\ kept (fun z => z = EBook self) W W' /\
    exists ys, content_of (w_books W') self = Some (acc ++ combine samples ys) /\ length ys = length samples /\ Forall (copy_of_all W W') ys /\
      (forall a b i j, nth_error ys i = Some a -> nth_error ys j = Some b -> i <> j -> disjoint (w_books W') a b).
  Proof.
    induction samples as [|s samples IH]; intros W W' acc Lt Ca Nd Hs E; cbn [add_samples] in E.
    { inversion E; subst W'. split; auto. split; [apply kept_refl|]. exists []. cbn [combine]. rewrite app_nil_r. split; auto. split; auto. split; auto. intros a b [|i]; discriminate. }
    assert (Sd := proj1 Lt). destruct (new_dict_ok W l Sd Pl) as (En & S1); [intros k x I; eapply later_same; eauto|].
    rewrite En in E. set (c := length (w_books W)) in *. set (W1 := with_books W (w_books W ++ [book_of l])) in *.
    assert (M1 : more W W1) by (exists [book_of l], []; rewrite app_nil_r; split; auto).
    assert (C1 : content_of (w_books W1) c = Some l) by (unfold content_of; cbn [W1 with_books w_books]; unfold c; rewrite nth_last; auto).
    assert (Lc : c < length (w_books W1)) by (apply content_some; eauto). assert (HV : vals W1 = vals W) by reflexivity. clearbody W1.
    assert (F1 : forall n p, follow (w_books W1) (EBook c) (n :: p) = given (n :: p)).
    { intros n p. rewrite follow_cons. unfold look. rewrite C1. cbn [BookHeapSpec.given]. destruct (dget n l) as [x|] eqn:D; auto. apply dget_in in D. destruct (later_same self W n x Lt D) as (U & O).
      rewrite (more_follow W W1 x p M1 Sd (entry_exists _ _ _ O)). apply U. }
    assert (V1 : forall n p i h, given (n :: p) = Some (EHist i) -> hist_value W1 i = Some h -> hist_value W0 i = Some h).
    { intros n p i h Eg Ev. cbn [BookHeapSpec.given] in Eg. destruct (dget n l) as [x|] eqn:D; [|discriminate]. apply dget_in in D. destruct (later_same self W n x Lt D) as (U & _). rewrite <- (proj2 (U p) i Eg). rewrite value_vals in Ev. rewrite HV in Ev. exact Ev. }
    assert (Un : forall p i, at_path (w_books W1) c p = Some (EHist i) -> unfilled (vals W1) i).
    { intros p i Ep. unfold at_path in Ep. destruct p as [|n p]; [discriminate|]. rewrite F1 in Ep. unfold unfilled. destruct (nth_error (vals W1) i) as [h|] eqn:Eh; auto.
      assert (Ev := V1 n p i h Ep Eh). cbn [BookHeapSpec.given] in Ep. destruct (dget n l) as [x|] eqn:D; [|discriminate]. apply dget_in in D. destruct (Hl n x D) as (_ & Hu). exact (Hu p i h Ep Ev). }
    destruct (book_copyonfill m W1 c) as [W2 [y|e]] eqn:Ec; [|discriminate].
    destruct (copyonfill_ok (fun _ => True) W1 c (sound_framed W1 S1) Lc Un m W2 _ Ec) as (Fr & G & _ & R). specialize (R y eq_refl). assert (S2 : sound W2) by apply Fr. assert (M2 := grows_more _ _ G).
    assert (M : more W W2) by (eapply more_trans; eauto). assert (LM := more_len _ _ M). assert (LM1 := more_len _ _ M1).
    assert (Cs : cut_slash s = None) by (apply Hs; left; auto).
    assert (Ca2 : content_of (w_books W2) self = Some acc) by (rewrite (more_content W W2); auto; apply Lt).
    destruct (set_step W2 self acc s y S2 Ca2 Cs (proj1 R)) as (B3 & Es & S3 & K3 & C3). rewrite Es in E. set (W3 := with_books W2 B3) in *.
    assert (Ns : ~ In s (map fst acc)) by (apply NoDup_remove_2 in Nd; intros I; apply Nd; apply in_or_app; auto).
    rewrite (dset_new s y acc Ns) in C3.
    assert (K13 : kept (fun z => z = EBook self) W W3) by (eapply kept_trans; [apply more_kept; exact M|exact K3]).
    assert (Lt3 : later self W3).
    { split; auto. split; [assert (H := k_books _ _ _ K3); destruct Lt as (_ & ? & _); lia|]. eapply kept_trans; [apply Lt|exact K13]. }
    assert (Fy : forall p z, follow (w_books W2) y p = Some z -> fresh_entry W1 W2 z) by (intros p z Ez; eapply result_fresh; eauto).
    assert (U23 : unchanged W2 W3 y).
    { eapply kept_unchanged; eauto; [apply R|]. intros p z Ez ->. specialize (Fy p _ Ez). cbn in Fy. destruct Lt as (_ & ? & _). lia. }
    destruct (IH W3 W' (acc ++ [(s, y)]) Lt3 C3) as (Lt' & K' & ys & Cy & Ly & Hy & Dy); auto.
    { rewrite map_app. cbn [map fst]. rewrite <- app_assoc. exact Nd. }
    { intros s' I. apply Hs. right. auto. }
    assert (L3 := conj (k_hists _ _ _ K3) (k_books _ _ _ K3)). assert (L' := conj (k_hists _ _ _ K') (k_books _ _ _ K')).
    assert (Lself : self < length (w_books W)) by apply Lt.
    assert (U3' : unchanged W3 W' y).
    { eapply kept_unchanged; [exact S3|exact K'| |].
      - eapply fine_kept; [exact K3|]. apply R.
      - intros p z Ez ->. rewrite (proj1 (U23 p)) in Ez. specialize (Fy p _ Ez). cbn in Fy. lia. }
    assert (U2' := unchanged_trans _ _ _ _ U23 U3').
    split; auto. split; [eapply kept_trans; eauto|]. exists (y :: ys). cbn [combine]. rewrite Cy, <- app_assoc. split; auto. split; [cbn; lia|]. split.
    - constructor.
      + eapply (copy_unchanged W W2 W1 W'); eauto; try lia. split; [|split; [auto|split]].
        * destruct R as (_ & R & _). specialize (R []). cbn [follow] in R. destruct R as (d & Ed & _). exists d. inversion Ed. auto.
        * intros n p. destruct R as (_ & R & _). specialize (R (n :: p)). rewrite F1 in R. destruct (given (n :: p)) as [[i|b]|] eqn:Eg; auto.
          -- destruct R as (k & h & h' & E1 & _ & E2 & E3 & E4). exists k, h. split; auto. split; [eapply V1; eauto|]. rewrite copy_same in E4. inversion E4; subst. exact E3.
          -- destruct R as (d & Ed & _). eauto.
        * exact (proj2 (proj2 R)).
      + eapply Forall_impl; [|exact Hy]. intros z Hz. eapply (copy_unchanged W W' W3 W'); eauto; try lia. apply unchanged_refl.
    - assert (Hfirst : forall b j, nth_error ys j = Some b -> disjoint (w_books W') y b).
      { intros b j Eb p q z E1 E2. rewrite (proj1 (U2' p)) in E1. assert (F2 := Fy p z E1). rewrite Forall_forall in Hy. destruct (Hy b (nth_error_In _ _ Eb)) as (_ & F3 & _). specialize (F3 q z E2). destruct z; cbn in *; lia. }
      intros a b [|i] [|j] Ea Eb Nij; cbn [nth_error] in Ea, Eb.
      + contradiction.
      + inversion Ea; subst. eauto.
      + inversion Eb; subst. intros p q z E1 E2. exact (Hfirst a i Ea q p z E2 E1).
      + eapply Dy; eauto.
  Qed.
End Samples.
