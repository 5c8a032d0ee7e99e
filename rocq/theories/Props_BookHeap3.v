(** Scaling and clearing a book in place: C50. *)
From Coq Require Import String.
From Verif Require Import Base Num NumFacts Axis Calc Content Fill HistAlg AlgSpec Heap HeapSpec HeapAdd Tree Instr Elem HistFill Glob Book BookSpec BookIter BookFill BookFillSpec
  BookHeap BookHeapSpec BookHeapProofs BookHeapAdd BookHeapFrame BookHeapActs BookHeapMain BookHeapIadd BookHeapFill Props_Alg Props_Heap Props_Hist Props_Book Props_BookFill Props_BookHeap Props_BookHeap2.
Local Open Scope string_scope.
Local Open Scope list_scope.

Lemma set_nth_get {A} (l : list A) i j x : nth_error (set_nth l i x) j = if Nat.eqb i j then match nth_error l i with Some _ => Some x | None => None end else nth_error l j.
Proof.
  revert i j. induction l as [|y l IH]; intros i j; [destruct i, j; cbn; auto; destruct (Nat.eqb i j); auto|].
  destruct i as [|i], j as [|j]; cbn [set_nth nth_error Nat.eqb]; auto. apply IH.
Qed.
Lemma until_each (mk : nat -> op) (f : hobj -> hobj * option err) ids : (forall vs i, value_step vs (mk i) = on vs i f) -> forall vs, NoDup ids ->
  (forall i, In i ids -> exists h, nth_error vs i = Some h /\ snd (f h) = None) ->
  exists vs', value_until vs (map mk ids) = (vs', None) /\
    forall i, (In i ids -> nth_error vs' i = option_map (fun h => fst (f h)) (nth_error vs i)) /\ (~ In i ids -> nth_error vs' i = nth_error vs i).
Proof.
  intros Hmk. induction ids as [|i ids IH]; intros vs N H.
  - exists vs. split; [reflexivity|]. intros i. split; [intros []|auto].
  - inversion N as [|? ? Ni N']; subst. destruct (H i) as (h & Eh & Ee); [left; auto|]. cbn [map value_until]. rewrite Hmk. unfold on. rewrite Eh.
    destruct (f h) as [h' e] eqn:Ef. cbn in Ee. subst e.
    destruct (IH (set_nth vs i h') N') as (vs' & E & Hv).
    { intros j Hj. rewrite set_nth_get. destruct (Nat.eqb_spec i j) as [->|_]; [contradiction|]. apply H. right; auto. }
    exists vs'. split; auto. intros j. destruct (Hv j) as (H1 & H2). destruct (Nat.eqb_spec i j) as [->|Hij].
    + split; [intros _|intros X; contradiction X; left; auto]. rewrite H2 by auto. rewrite set_nth_get, Nat.eqb_refl, Eh. cbn. rewrite Ef. reflexivity.
    + rewrite set_nth_get in H1, H2. destruct (Nat.eqb_spec i j) as [->|_]; [congruence|]. split; intros X; [apply H1|apply H2]; cbn in X; intuition congruence.
Qed.

(** [changed f W W' b]: every histogram in the book [b] is changed by [f], once; nothing else is, and the
    books are the same. *)
Definition changed (f : hobj -> hobj) (W W' : world) (b : nat) : Prop :=
  w_books W' = w_books W /\
  forall i h, hist_value W i = Some h ->
    ((exists p, at_path (w_books W) b p = Some (EHist i)) -> hist_value W' i = Some (f h)) /\
    ((forall p, at_path (w_books W) b p <> Some (EHist i)) -> hist_value W' i = Some h).
Lemma on_hists_changed limit W b mk f : reachable limit W -> present W (EBook b) -> (forall vs i, value_step vs (mk i) = on vs i f) ->
  (forall i, target (mk i) = Some i) -> (forall vs i, steady vs (mk i)) ->
  forall ids, book_hists limit (w_books W) b = Ok ids -> NoDup ids ->
  (forall p i h, at_path (w_books W) b p = Some (EHist i) -> hist_value W i = Some h -> snd (f h) = None) ->
  exists W', on_hists limit W b (map mk) = (W', None) /\ changed (fun h => fst (f h)) W W' b.
Proof.
  intros HR HP Hmk Ht Hs ids Eids N Hok. pose proof (reachable_sound _ _ HR) as S0.
  assert (F := sound_framed W S0). pose proof (hists_below limit _ b ids (so_keys _ S0) Eids) as Hb.
  destruct (on_hists_frame (fun _ => True) W limit b (map mk) F I) as (_ & V).
  { intros ids' E'. rewrite Eids in E'. inversion E'; subst ids'. split; apply Forall_forall; intros o Ho; apply in_map_iff in Ho; destruct Ho as (i & <- & Hi); auto. exists i. auto. }
  rewrite Eids in V.
  destruct (until_each mk f ids Hmk (vals W) N) as (vs' & Ev & Hv).
  { intros i Hi. apply Hb in Hi. destruct Hi as (p & Ep).
    assert (Fi : fine W (EHist i)). { eapply follow_entry; [apply (so_entries _ S0)| |exact Ep]. apply present_fine. exact HP. }
    cbn in Fi. destruct (nth_error (vals W) i) as [h|] eqn:Eh; [|apply nth_error_None in Eh; lia].
    exists h. split; auto. apply (Hok p i h); auto. }
  rewrite Ev in V. inversion V as [[V1 V2]]. exists (fst (on_hists limit W b (map mk))). split; [destruct (on_hists limit W b (map mk)); cbn in *; congruence|].
  split.
  - unfold on_hists. rewrite Eids. destruct (run_until (w_hists W) (map mk ids)) as [s e]. reflexivity.
  - intros i h Eh. unfold hist_value, value_of in *. change (HeapSpec.values (w_hists (fst (on_hists limit W b (map mk))))) with (vals (fst (on_hists limit W b (map mk)))).
    rewrite V1. destruct (Hv i) as (H1 & H2). unfold vals in *. split.
    + intros X. apply Hb in X. rewrite H1 by auto. rewrite Eh. reflexivity.
    + intros X. rewrite H2; auto. intros Y. apply Hb in Y. destruct Y as (p & Ep). apply (X p Ep).
Qed.

(** [book *= v] multiplies every histogram of the book, when no histogram is in it twice and none is
    refused; nothing else changes. *)
Theorem C50_imul limit W b v ids : reachable limit W -> present W (EBook b) -> book_hists limit (w_books W) b = Ok ids -> NoDup ids ->
  (forall p i h, at_path (w_books W) b p = Some (EHist i) -> hist_value W i = Some h -> snd (hist_imul h v) = None) ->
  exists W', act limit W (AIMul b v) = (W', None) /\ changed (fun h => fst (hist_imul h v)) W W' b.
Proof. intros HR HP E N H. apply (on_hists_changed limit W b (fun i => OIMul i v) (fun h => hist_imul h v) HR HP) with (ids := ids); auto. intros; exact I. Qed.
Print Assumptions C50_imul.
(** book.clear() clears every histogram of the book, and nothing else. *)
Theorem C50_clear limit W b ids : reachable limit W -> present W (EBook b) -> book_hists limit (w_books W) b = Ok ids -> NoDup ids ->
  exists W', act limit W (AClear b) = (W', None) /\ changed hist_clear W W' b.
Proof. intros HR HP E N. apply (on_hists_changed limit W b OClear (fun h => (hist_clear h, None)) HR HP) with (ids := ids); auto. intros; exact I. Qed.
Print Assumptions C50_clear.
Example C50_imul_example : reachable 10 exW /\ present exW (EBook 0) /\ book_hists 10 (w_books exW) 0 = Ok [0; 1] /\ NoDup [0; 1] /\
  (forall p i h, at_path (w_books exW) 0 p = Some (EHist i) -> hist_value exW i = Some h -> snd (hist_imul h (nz 3)) = None) /\
  let W' := fst (act 10 exW (AIMul 0 (nz 3))) in
  map o_content (HeapSpec.values (w_hists W')) = [CDict [(GStr "a", arr [9; 27; 0; 0]%Z)]; arr [3; 3]%Z].
Proof.
  split; [apply exW_reachable|]. split; [apply Nat.ltb_lt; reflexivity|]. split; [vm_compute; reflexivity|]. split; [nodup|]. split.
  - intros p i h _ E. unfold hist_value, value_of in E. destruct i as [|[|i]]; [vm_compute in E; inversion E; subst; reflexivity|vm_compute in E; inversion E; subst; reflexivity|].
    exfalso. assert (X : length (HeapSpec.values (w_hists exW)) = 2) by reflexivity. assert (Y : S (S i) < length (HeapSpec.values (w_hists exW))) by (apply nth_error_Some; congruence). lia.
  - cbn zeta. vm_compute. unfold arr. repeat f_equal; apply Qc_is_canon; reflexivity.
Qed.
(** A histogram that the book has under two names is multiplied twice. *)
Theorem C50_imul_twice_refuted : exists limit W b W', reachable limit W /\ present W (EBook b) /\
  act limit W (AIMul b (nz 3)) = (W', None) /\ exists h h', hist_value W 0 = Some h /\ hist_value W' 0 = Some h' /\ o_content h = arr [1; 1]%Z /\ o_content h' = arr [9; 9]%Z.
Proof.
  exists 10, (act_all 10 (start [heap_u]) [ANew; ASet 0 "u" (EHist 0); ASet 0 "v" (EHist 0); AHist (OFill 0 fill_u)]), 0. eexists.
  split. { apply reachable_all; [constructor; repeat constructor; discriminate|]. cbn [safe_all]. split; [exact I|]. split; [eexists; reflexivity|]. split; [eexists; reflexivity|]. split; [exact fill_u_filler|exact I]. }
  split; [apply Nat.ltb_lt; reflexivity|]. split; [vm_compute; reflexivity|]. do 2 eexists. split; [vm_compute; reflexivity|]. split; [vm_compute; reflexivity|].
  split; cbn [o_content]; unfold arr; repeat f_equal; apply Qc_is_canon; reflexivity.
Qed.
Print Assumptions C50_imul_twice_refuted.
