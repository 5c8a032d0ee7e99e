(** When sums of books succeed, and why they fail: C49. *)
From Coq Require Import String.
From Verif Require Import Base Num Axis Calc Content Fill HistAlg AlgSpec HistAlgProofs HistAlgMain Heap HeapSpec HeapProofs HeapAdd HeapMain HeapMain2
  Tree Instr Elem HistFill Glob Book BookSpec BookProofs BookPaths BookIter BookFill BookHeap BookHeapSpec BookHeapProofs BookHeapAdd BookHeapActs BookHeapMain BookHeapTotal BookHeapITotal
  Props_Alg Props_Heap Props_BookHeap Props_BookHeap2.
Local Open Scope string_scope.
Local Open Scope list_scope.

Section Sums.
  Variables (limit : nat) (W : world) (a b : nat).
  Hypothesis HW : reachable limit W.
  Hypothesis Ha : present W (EBook a).
  Hypothesis Hb : present W (EBook b).
  Hypothesis Hg : safe W (AAdd a b).
  Hypothesis Na : no_wildcards (w_books W) (EBook a).
  Hypothesis Nb : no_wildcards (w_books W) (EBook b).
  (** a + b fails only because of entries at a common path, with the exception that belongs to them. *)
  Theorem C49_add_fails_only W' e : book_add limit W a b = (W', Err e) -> sum_fails limit W (EBook a) (EBook b) e.
  Proof. intros E. assert (S0 := reachable_sound _ _ HW). apply (add_err W S0 limit W a b W' e S0 (more_refl W)); auto. split; auto. Qed.
  (** If nothing there stands in the way, a + b succeeds. *)
  Theorem C49_add_succeeds : summable limit W (EBook a) (EBook b) -> exists W' c, book_add limit W a b = (W', Ok (EBook c)).
  Proof.
    intros Sm. destruct (book_add limit W a b) as [W' [z|e]] eqn:E.
    - destruct z as [i|c]; eauto. exfalso. destruct (C49_add limit W a b HW Ha Hb Hg W' _ E Nb) as (R & _). destruct (R []) as (d & F & _). discriminate.
    - exfalso. destruct (C49_add_fails_only W' e E) as (p & F). specialize (Sm p).
      destruct (follow (w_books W) (EBook a) p) as [[i|c]|], (follow (w_books W) (EBook b) p) as [[j|d]|]; auto.
      + destruct F as (h & g & F1 & F2 & F3), Sm as (h' & g' & s & G1 & G2 & G3). congruence.
      + destruct F. lia.
  Qed.
End Sums.
Section SumsInPlace.
  Variables (limit : nat) (W : world) (a b : nat).
  Hypothesis HW : reachable limit W.
  Hypothesis Ha : present W (EBook a).
  Hypothesis Hb : present W (EBook b).
  Hypothesis Ta : tree_like (w_books W) (EBook a).
  Hypothesis Tb : tree_like (w_books W) (EBook b).
  Hypothesis Dj : disjoint (w_books W) (EBook a) (EBook b).
  Hypothesis Nb : no_wildcards (w_books W) (EBook b).
  (** The same for a += b. *)
  Theorem C49_iadd_fails_only W' e : book_iadd limit W a b = (W', Some e) -> iadd_fails limit W (EBook a) (EBook b) e.
  Proof. apply (iadd_err limit W a b W' e (reachable_sound _ _ HW)); auto. Qed.
  Theorem C49_iadd_succeeds : mergeable limit W (EBook a) (EBook b) -> exists W', book_iadd limit W a b = (W', None).
  Proof.
    intros Sm. destruct (book_iadd limit W a b) as [W' [e|]] eqn:E; eauto. exfalso. destruct (C49_iadd_fails_only W' e E) as (p & F). specialize (Sm p).
    destruct (follow (w_books W) (EBook a) p) as [[i|c]|], (follow (w_books W) (EBook b) p) as [[j|d]|]; auto.
    - destruct F as (h & g & k & F1 & F2 & F3), Sm as (h' & g' & s & G1 & G2 & G3). congruence.
    - destruct F. lia.
  Qed.
End SumsInPlace.
Print Assumptions C49_iadd_fails_only.
Print Assumptions C49_iadd_succeeds.
Print Assumptions C49_add_fails_only.
Print Assumptions C49_add_succeeds.

(** The books of C49_example, one more histogram in the second: the sum succeeds. With a book in the
    second where the first has a histogram it fails with TypeError. *)
Definition sums_at (limit : nat) (W : world) (e f : list string * entry) : bool :=
  if list_eq_dec string_dec (fst e) (fst f) then
    match snd e, snd f with
    | EHist i, EHist j => match hist_value W i, hist_value W j with
                          | Some h, Some g => match hist_add h g with Ok _ => true | Err _ => false end
                          | _, _ => false end
    | EBook _, EBook _ => Nat.ltb (List.length (fst e)) limit
    | _, _ => false
    end
  else true.
Lemma walk_summable limit W a b La Lb : reachable limit W -> 0 < limit -> walk limit (w_books W) a = Ok La -> walk limit (w_books W) b = Ok Lb ->
  forallb (fun e => forallb (sums_at limit W e) Lb) La = true -> summable limit W (EBook a) (EBook b).
Proof.
  intros HW Hl Ea Eb F p. destruct p as [|k p]; [exact Hl|].
  destruct (follow (w_books W) (EBook a) (k :: p)) as [x|] eqn:Ex; [|exact I].
  destruct (follow (w_books W) (EBook b) (k :: p)) as [y|] eqn:Ey; [|destruct x; exact I].
  apply (walk_places limit W a La) in Ex; auto. apply (walk_places limit W b Lb) in Ey; auto. destruct Ex as [Ex|Ex]; [discriminate|]. destruct Ey as [Ey|Ey]; [discriminate|].
  rewrite forallb_forall in F. specialize (F _ Ex). cbn beta in F. rewrite forallb_forall in F. specialize (F _ Ey). unfold sums_at in F. cbn [fst snd] in F.
  destruct (list_eq_dec string_dec (k :: p) (k :: p)); [|congruence]. destruct x as [i|c], y as [j|d]; try discriminate.
  - destruct (hist_value W i) as [h|], (hist_value W j) as [g|]; try discriminate. destruct (hist_add h g) as [s|] eqn:Es; [|discriminate]. exists h, g, s. auto.
  - apply Nat.ltb_lt in F. exact F.
Qed.
Example C49_add_succeeds_example : reachable 10 exW3 /\ present exW3 (EBook 0) /\ present exW3 (EBook 2) /\ safe exW3 (AAdd 0 2) /\
  no_wildcards (w_books exW3) (EBook 0) /\ no_wildcards (w_books exW3) (EBook 2) /\ summable 10 exW3 (EBook 0) (EBook 2).
Proof.
  split; [apply exW3_reachable|]. split; [apply Nat.ltb_lt; reflexivity|]. split; [apply Nat.ltb_lt; reflexivity|].
  split; [eapply walk_sum_safe; [apply exW3_reachable|vm_compute; reflexivity|vm_compute; reflexivity|vm_compute; reflexivity]|].
  split; [eapply walk_plain; [apply exW3_reachable|vm_compute; reflexivity|repeat constructor]|].
  split; [eapply walk_plain; [apply exW3_reachable|vm_compute; reflexivity|repeat constructor]|].
  eapply walk_summable; [apply exW3_reachable|repeat constructor|vm_compute; reflexivity|vm_compute; reflexivity|vm_compute; reflexivity].
Qed.
Definition exW4 : world := act_all 10 exW3 [ADel 2 "u"; ASet 2 "u/inner" (EHist 4)].
Example C49_add_fails_example : reachable 10 exW4 /\ safe exW4 (AAdd 0 2) /\ (exists W', book_add 10 exW4 0 2 = (W', Err TypeError)) /\
  sum_fails 10 exW4 (EBook 0) (EBook 2) TypeError.
Proof.
  assert (R : reachable 10 exW4) by (apply reachable_all; [apply exW3_reachable|]; cbn [safe_all]; split; [exact I|]; split; [eexists; reflexivity|exact I]).
  split; auto. split; [eapply walk_sum_safe; [exact R|vm_compute; reflexivity|vm_compute; reflexivity|vm_compute; reflexivity]|].
  split; [eexists; vm_compute; reflexivity|]. exists ["u"]. vm_compute. reflexivity.
Qed.

Lemma summable_mergeable limit W a b La Lb : reachable limit W -> walk limit (w_books W) a = Ok La -> walk limit (w_books W) b = Ok Lb -> 0 < limit ->
  forallb (fun e => forallb (fun f => if list_eq_dec string_dec (fst e) (fst f) then
    match snd e, snd f with
    | EHist i, EHist j => match hist_value W i, hist_value W j with
                          | Some h, Some g => match hist_iadd h g with (_, None) => true | _ => false end
                          | _, _ => false end
    | EBook _, EBook _ => Nat.ltb (List.length (fst e)) limit
    | _, _ => false
    end else true) Lb) La = true -> mergeable limit W (EBook a) (EBook b).
Proof.
  intros HW Ea Eb Hl F p. destruct p as [|k p]; [exact Hl|].
  destruct (follow (w_books W) (EBook a) (k :: p)) as [x|] eqn:Ex; [|exact I].
  destruct (follow (w_books W) (EBook b) (k :: p)) as [y|] eqn:Ey; [|destruct x; exact I].
  apply (walk_places limit W a La) in Ex; auto. apply (walk_places limit W b Lb) in Ey; auto. destruct Ex as [Ex|Ex]; [discriminate|]. destruct Ey as [Ey|Ey]; [discriminate|].
  rewrite forallb_forall in F. specialize (F _ Ex). cbn beta in F. rewrite forallb_forall in F. specialize (F _ Ey). cbn [fst snd] in F.
  destruct (list_eq_dec string_dec (k :: p) (k :: p)); [|congruence]. destruct x as [i|c], y as [j|d]; try discriminate.
  - destruct (hist_value W i) as [h|], (hist_value W j) as [g|]; try discriminate. destruct (hist_iadd h g) as [s [e0|]] eqn:Es; [discriminate|]. exists h, g, s. auto.
  - apply Nat.ltb_lt in F. exact F.
Qed.
Example C49_iadd_succeeds_example : reachable 10 exW3 /\ present exW3 (EBook 0) /\ present exW3 (EBook 2) /\
  tree_like (w_books exW3) (EBook 0) /\ tree_like (w_books exW3) (EBook 2) /\ disjoint (w_books exW3) (EBook 0) (EBook 2) /\
  no_wildcards (w_books exW3) (EBook 2) /\ mergeable 10 exW3 (EBook 0) (EBook 2).
Proof.
  split; [apply exW3_reachable|]. split; [apply Nat.ltb_lt; reflexivity|]. split; [apply Nat.ltb_lt; reflexivity|].
  split; [eapply walk_tree_like; [apply exW3_reachable|vm_compute; reflexivity|nodup]|].
  split; [eapply walk_tree_like; [apply exW3_reachable|vm_compute; reflexivity|nodup]|].
  split; [eapply walk_disjoint; [apply exW3_reachable|vm_compute; reflexivity|vm_compute; reflexivity|nodup]|].
  split; [eapply walk_plain; [apply exW3_reachable|vm_compute; reflexivity|repeat constructor]|].
  eapply summable_mergeable; [apply exW3_reachable|vm_compute; reflexivity|vm_compute; reflexivity|repeat constructor|vm_compute; reflexivity].
Qed.
Example C49_iadd_fails_example : (exists W', book_iadd 10 exW4 0 2 = (W', Some TypeError)) /\ iadd_fails 10 exW4 (EBook 0) (EBook 2) TypeError.
Proof. split; [eexists; vm_compute; reflexivity|]. exists ["u"]. vm_compute. reflexivity. Qed.

(** A name with wildcard characters in b makes a += b fail. *)
Theorem C49_iadd_wildcard_refuted : exists limit W a b W' e i, reachable limit W /\ present W (EBook a) /\ present W (EBook b) /\
  tree_like (w_books W) (EBook a) /\ tree_like (w_books W) (EBook b) /\ disjoint (w_books W) (EBook a) (EBook b) /\ mergeable limit W (EBook a) (EBook b) /\
  at_path (w_books W) b ["pt [GeV]"] = Some (EHist i) /\ at_path (w_books W) a ["pt [GeV]"] = None /\ book_iadd limit W a b = (W', Some e).
Proof.
  exists 10, (act_all 10 exW2 [ASet 2 "pt [GeV]" (EHist 4)]), 0, 2. eexists. exists TypeError, 4.
  assert (R : reachable 10 (act_all 10 exW2 [ASet 2 "pt [GeV]" (EHist 4)])) by (apply reachable_all; [apply exW2_reachable|]; split; [eexists; reflexivity|exact I]).
  split; [exact R|]. split; [apply Nat.ltb_lt; reflexivity|]. split; [apply Nat.ltb_lt; reflexivity|].
  split; [eapply walk_tree_like; [exact R|vm_compute; reflexivity|nodup]|].
  split; [eapply walk_tree_like; [exact R|vm_compute; reflexivity|nodup]|].
  split; [eapply walk_disjoint; [exact R|vm_compute; reflexivity|vm_compute; reflexivity|nodup]|].
  split; [eapply summable_mergeable; [exact R|vm_compute; reflexivity|vm_compute; reflexivity|repeat constructor|vm_compute; reflexivity]|].
  split; [reflexivity|]. split; [reflexivity|]. vm_compute. reflexivity.
Qed.
Print Assumptions C49_iadd_wildcard_refuted.
