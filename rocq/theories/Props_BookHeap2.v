(** Cases that meet the hypotheses of the theorems of Props_BookHeap.v, and cases that show where
    the claims fail without them: C49, C50, C51; and C48 for books with the histograms they refer to. *)
From Coq Require Import String.
From Verif Require Import Base Num NumFacts Axis Calc Content Fill HistAlg AlgSpec Heap HeapSpec HeapAdd Tree Instr Elem HistFill Glob Book BookSpec BookIter BookFill BookFillSpec
  BookHeap BookHeapSpec BookHeapFrame BookHeapMain BookHeapIadd BookHeapFill Props_Alg Props_Heap Props_Hist Props_Book Props_BookFill Props_BookHeap.
Local Open Scope string_scope.
Local Open Scope list_scope.

(** ** Helpers *)
Lemma fill_part_safe W b pre post ns : map ngroups (HeapSpec.values (w_hists W)) = ns ->
  (forall i n, nth_error ns i = Some n -> is_filler n (pre i) /\ is_filler n (post i)) -> safe W (AFill b pre post).
Proof.
  intros E H p i h _ Eh. apply H. rewrite <- E, nth_error_map. unfold hist_value, value_of in Eh. rewrite Eh. auto.
Qed.
(** Everything at or below a book, with its path. *)
Lemma walk_places limit W b L p x : reachable limit W -> walk limit (w_books W) b = Ok L -> follow (w_books W) (EBook b) p = Some x -> In (p, x) (([], EBook b) :: L).
Proof.
  intros HW E Ex. destruct (walk_lists limit _ b L (BookHeapProofs.so_keys _ (reachable_sound _ _ HW)) E) as (H & _).
  destruct p as [|k p]; [left; cbn in Ex; congruence|]. right. apply H. split; [discriminate|auto].
Qed.
Lemma NoDup_map_inj {A B} (f : A -> B) l x y : NoDup (map f l) -> In x l -> In y l -> f x = f y -> x = y.
Proof.
  induction l as [|z l IH]; cbn [map In]; [tauto|]. intros N. inversion N; subst. intros [->|Ix] [->|Iy] E; auto.
  - exfalso. apply H1. rewrite E. apply in_map. auto.
  - exfalso. apply H1. rewrite <- E. apply in_map. auto.
Qed.
Lemma walk_tree_like limit W b L : reachable limit W -> walk limit (w_books W) b = Ok L -> NoDup (EBook b :: map snd L) -> tree_like (w_books W) (EBook b).
Proof.
  intros HW E N p q z Ep Eq. apply (walk_places limit W b L) in Ep, Eq; auto. 
  pose proof (NoDup_map_inj snd (([], EBook b) :: L) _ _ N Ep Eq eq_refl) as X. congruence.
Qed.
Lemma walk_disjoint limit W a b La Lb : reachable limit W -> walk limit (w_books W) a = Ok La -> walk limit (w_books W) b = Ok Lb ->
  NoDup ((EBook a :: map snd La) ++ EBook b :: map snd Lb) -> disjoint (w_books W) (EBook a) (EBook b).
Proof.
  intros HW Ea Eb N p q z Ep Eq. apply (walk_places limit W a La) in Ep; auto. apply (walk_places limit W b Lb) in Eq; auto.
  apply (in_map snd) in Ep, Eq. cbn [map snd] in Ep, Eq. revert N Ep Eq. generalize (EBook b :: map snd Lb). generalize (EBook a :: map snd La).
  induction l as [|y l IH]; cbn [app In]; [tauto|]. intros l0 N. inversion N; subst. intros [->|I1] I2; [|eauto]. apply H1, in_app_iff. auto.
Qed.
Lemma walk_unfilled limit W b L : reachable limit W -> walk limit (w_books W) b = Ok L ->
  Forall (fun x => match x with EHist i => option_map o_content (hist_value W i) = Some CNone | _ => True end) (map snd L) -> all_unfilled W (EBook b).
Proof.
  intros HW E F p i h Ep Eh. apply (walk_places limit W b L) in Ep; auto. destruct Ep as [Ep|Ep]; [discriminate|]. apply (in_map snd) in Ep.
  rewrite Forall_forall in F. specialize (F _ Ep). cbn [snd] in F. rewrite Eh in F. cbn in F. congruence.
Qed.
Ltac nodup := vm_compute; repeat constructor; cbn; intuition discriminate.
(** the fills of histograms like [heap_h], [heap_u], [heap_h], [heap_u], ... *)
Definition exfill (i : nat) : filler := if Nat.even i then fill_g "b" else fill_u.
Lemma exfill_safe W b pre post m : (pre = exfill \/ pre = fun _ c => (c, None)) -> (post = exfill \/ post = fun _ c => (c, None)) ->
  map ngroups (HeapSpec.values (w_hists W)) = map (fun i => if Nat.even i then 1 else 0) (seq 0 m) -> safe W (AFill b pre post).
Proof.
  intros Hp Hq E. apply (fill_part_safe W b pre post _ E). intros i n En. rewrite nth_error_map in En. destruct (nth_error (seq 0 m) i) as [j|] eqn:Ej; [|discriminate].
  assert (j = i). { assert (L : i < m) by (rewrite <- (seq_length m 0); apply nth_error_Some; congruence). rewrite (nth_error_nth' _ 0) in Ej by (rewrite seq_length; auto). rewrite seq_nth in Ej; auto. cbn in Ej. congruence. }
  subst j. cbn in En. injection En as <-.
  assert (Id : forall n, is_filler n (fun c => (c, None))) by (intros n c D; split; [apply extends_refl|exact D]).
  assert (Ex : is_filler (if Nat.even i then 1 else 0) (exfill i)) by (unfold exfill; destruct (Nat.even i); [apply fill_g_filler|apply fill_u_filler]).
  destruct Hp as [->| ->], Hq as [->| ->]; auto.
Qed.

(** ** C50 *)
(** {"sub": {"h": h}, "u": u}, both filled *)
Definition exb1 : list action :=
  [ANew; ASet 0 "sub/h" (EHist 0); ASet 0 "u" (EHist 1); AHist (OFill 0 (fill_g "a")); AHist (OFill 1 fill_u)].
Definition exW : world := act_all 10 (start [heap_h; heap_u]) exb1.
Lemma exW_reachable : reachable 10 exW.
Proof.
  apply reachable_all.
  - constructor. repeat constructor; discriminate.
  - cbn [safe_all]. split; [exact I|]. split; [eexists; reflexivity|]. split; [eexists; reflexivity|]. split; [exact (fill_g_filler "a")|]. split; [exact fill_u_filler|exact I].
Qed.

(** The copy is {"sub": {"h": h2}, "u": h3}; a program that fills, scales, deletes and stores in it. *)
Definition exprog : list action := [AFill 3 exfill (fun _ c => (c, None)); AIMul 3 (nz 2); ADel 3 "sub"; ASet 3 "x/y" (EHist 2)].
Example C50_example : exists W' y, book_copy 10 exW 0 = (W', Ok y) /\ y = EBook 3 /\
  safe_all 10 W' exprog /\ works_on W' y exprog /\
  at_path (w_books W') 3 ["sub"; "h"] = Some (EHist 2) /\ at_path (w_books W') 3 ["u"] = Some (EHist 3) /\
  let W2 := act_all 10 W' exprog in
  map o_content (HeapSpec.values (w_hists W2)) =
    [CDict [(GStr "a", arr [3; 9; 0; 0]%Z)]; arr [1; 1]%Z;
     CDict [(GStr "a", arr [6; 18; 0; 0]%Z); (GStr "b", arr [6; 18; 0; 0]%Z)]; arr [4; 4]%Z] /\
  at_path (w_books W2) 3 ["sub"; "h"] = None /\ at_path (w_books W2) 3 ["x"; "y"] = Some (EHist 2).
Proof.
  eexists. eexists. split; [vm_compute; reflexivity|]. split; [reflexivity|]. split; [|split; [|split; [reflexivity|split; [reflexivity|split; [|split; reflexivity]]]]].
  - cbn [exprog safe_all]. split; [apply (exfill_safe _ _ _ _ 4); auto|]. split; [exact I|]. split; [exact I|]. split; [eexists; vm_compute; reflexivity|exact I].
  - repeat (constructor; [intros x Ix; cbn in Ix; intuition subst; left; first [exists []; reflexivity|exists ["sub"; "h"]; reflexivity]|]). constructor.
  - vm_compute. unfold arr. repeat f_equal; apply Qc_is_canon; reflexivity.
Qed.
(** copyonfill of a book whose histograms are not filled yet; then both are filled. *)
Definition exU : world := act_all 10 (start [heap_h; heap_u]) (firstn 3 exb1).
Lemma exU_reachable : reachable 10 exU.
Proof.
  apply reachable_all.
  - constructor. repeat constructor; discriminate.
  - cbn [safe_all firstn exb1]. split; [exact I|]. split; [eexists; reflexivity|]. split; [eexists; reflexivity|exact I].
Qed.
Definition exold : list action := [AFill 0 exfill (fun _ c => (c, None)); AIMul 0 (nz 5); ADel 0 "u"].
Example C50_copyonfill_example : all_unfilled exU (EBook 0) /\ exists W' y, book_copyonfill 10 exU 0 = (W', Ok y) /\ y = EBook 3 /\
  safe_all 10 W' (exold ++ [AFill 3 exfill exfill]) /\ works_on_old exU W' exold /\
  map o_content (HeapSpec.values (w_hists (act_all 10 W' exold))) = [CDict [(GStr "b", arr [15; 45; 0; 0]%Z)]; arr [5; 5]%Z; CNone; CNone] /\
  map o_content (HeapSpec.values (w_hists (act_all 10 W' (exold ++ [AFill 3 exfill exfill])))) =
    [CDict [(GStr "b", arr [15; 45; 0; 0]%Z)]; arr [5; 5]%Z; CDict [(GStr "b", arr [6; 18; 0; 0]%Z)]; arr [2; 2]%Z].
Proof.
  split; [eapply walk_unfilled; [apply exU_reachable|vm_compute; reflexivity|repeat constructor]|].
  eexists. eexists. split; [vm_compute; reflexivity|]. split; [reflexivity|]. split; [|split; [|split]].
  - cbn [exold app safe_all]. split; [apply (exfill_safe _ _ _ _ 4); auto|]. split; [exact I|]. split; [exact I|]. split; [apply (exfill_safe _ _ _ _ 4); auto|exact I].
  - repeat (constructor; [intros x Ix; cbn in Ix; intuition subst; left; apply Nat.ltb_lt; reflexivity|]). constructor.
  - vm_compute. unfold arr. repeat f_equal; apply Qc_is_canon; reflexivity.
  - vm_compute. unfold arr. repeat f_equal; apply Qc_is_canon; reflexivity.
Qed.
(** copyonfill of a book that is already filled: filling the result changes the original, because
    the fill of a book never looks at the mark that copyonfill leaves (book.py 569-584, hist.py 457). *)
Theorem C50_copyonfill_of_filled_refuted : exists limit W b W' c pre post i h h', reachable limit W /\ present W (EBook b) /\
  book_copyonfill limit W b = (W', Ok (EBook c)) /\ safe W' (AFill c pre post) /\ works_on W' (EBook c) [AFill c pre post] /\
  at_path (w_books W) b ["u"] = Some (EHist i) /\ hist_value W i = Some h /\
  hist_value (fst (act limit W' (AFill c pre post))) i = Some h' /\ o_content h = arr [1; 1]%Z /\ o_content h' = arr [2; 2]%Z.
Proof.
  exists 10, exW, 0. eexists. exists 3, exfill, (fun _ c => (c, None)), 1. eexists. eexists. split; [apply exW_reachable|]. split; [apply Nat.ltb_lt; reflexivity|].
  split; [vm_compute; reflexivity|]. split; [apply (exfill_safe _ _ _ _ 4); auto|].
  split; [constructor; [|constructor]; intros x Ix; cbn in Ix; intuition subst; left; exists []; reflexivity|].
  split; [reflexivity|]. split; [vm_compute; reflexivity|]. split; [vm_compute; reflexivity|]. split; unfold arr; cbn [o_content]; repeat f_equal; apply Qc_is_canon; reflexivity.
Qed.
Print Assumptions C50_copyonfill_of_filled_refuted.

(** ** C49 *)
(** {"sub": {"h": h0}, "u": h1} and {"sub": {"h": h2}, "u": h3, "v": h4} with the groups "a" in both h *)
Definition exb2 : list action :=
  exb1 ++ [ANew; ASet 2 "sub/h" (EHist 2); ASet 2 "u" (EHist 3); AHist (OFill 2 (fill_g "a")); AHist (OFill 3 fill_u)].
Definition exW2 : world := act_all 10 (start [heap_h; heap_u; heap_h; heap_u; heap_h]) exb2.
Lemma exW2_reachable : reachable 10 exW2.
Proof.
  apply reachable_all.
  - constructor. repeat constructor; discriminate.
  - cbn [safe_all exb2 exb1 app]. repeat (split; [first [exact I|eexists; reflexivity|exact (fill_g_filler "a")|exact fill_u_filler]|]). exact I.
Qed.
Lemma walk_plain limit W b L : reachable limit W -> walk limit (w_books W) b = Ok L -> Forall (fun e => existsb wild (fst e) = false) L -> no_wildcards (w_books W) (EBook b).
Proof.
  intros HW E F p k z Ez. apply (walk_places limit W b L) in Ez; auto. destruct Ez as [Ez|Ez]; [destruct p; discriminate|].
  rewrite Forall_forall in F. specialize (F _ Ez). cbn [fst] in F. rewrite existsb_app in F. cbn in F. destruct (wild k); auto. rewrite Bool.orb_true_r in F. discriminate.
Qed.
Lemma walk_same limit W a b La Lb : reachable limit W -> walk limit (w_books W) a = Ok La -> walk limit (w_books W) b = Ok Lb -> map fst La = map fst Lb ->
  forall p, follow (w_books W) (EBook a) p = None <-> follow (w_books W) (EBook b) p = None.
Proof.
  intros HW Ea Eb M. pose proof (BookHeapProofs.so_keys _ (reachable_sound _ _ HW)) as K.
  assert (G : forall a b La Lb, walk limit (w_books W) a = Ok La -> walk limit (w_books W) b = Ok Lb -> map fst La = map fst Lb -> forall p, follow (w_books W) (EBook a) p = None -> follow (w_books W) (EBook b) p = None).
  { clear - HW K. intros a b La Lb Ea Eb M p N. destruct (follow (w_books W) (EBook b) p) as [x|] eqn:Ex; auto. exfalso.
    destruct p as [|k p]; [discriminate|]. apply (walk_places limit W b Lb) in Ex; auto. destruct Ex as [Ex|Ex]; [discriminate|].
    apply (in_map fst) in Ex. rewrite <- M in Ex. apply in_map_iff in Ex. destruct Ex as ((q, y) & Eq & Iy). cbn in Eq. subst q.
    destruct (walk_lists limit _ a La K Ea) as (H & _). apply H in Iy. unfold at_path in Iy. rewrite N in Iy. destruct Iy; discriminate. }
  intros p. split; [apply (G a b La Lb)|apply (G b a Lb La)]; auto.
Qed.
Definition can_sum (W : world) (e f : list string * entry) : bool :=
  match snd e, snd f with
  | EHist i, EHist j => if list_eq_dec string_dec (fst e) (fst f) then
      match hist_value W i, hist_value W j with Some h, Some k => same_groups (o_content h) (o_content k) | _, _ => true end else true
  | _, _ => true
  end.
Lemma walk_sum_safe limit W a b La Lb : reachable limit W -> walk limit (w_books W) a = Ok La -> walk limit (w_books W) b = Ok Lb ->
  forallb (fun e => forallb (can_sum W e) Lb) La = true -> safe W (AAdd a b).
Proof.
  intros HW Ea Eb F p i j h k Ei Ej Eh Ek. apply (walk_places limit W a La) in Ei; auto. apply (walk_places limit W b Lb) in Ej; auto.
  destruct Ei as [Ei|Ei]; [discriminate|]. destruct Ej as [Ej|Ej]; [discriminate|].
  rewrite forallb_forall in F. specialize (F _ Ei). cbn beta in F. rewrite forallb_forall in F. specialize (F _ Ej). unfold can_sum in F. cbn [fst snd] in F. rewrite Eh, Ek in F.
  destruct (list_eq_dec string_dec p p); [auto|congruence].
Qed.

Example C49_example : present exW2 (EBook 0) /\ present exW2 (EBook 2) /\ tree_like (w_books exW2) (EBook 0) /\ tree_like (w_books exW2) (EBook 2) /\
  disjoint (w_books exW2) (EBook 0) (EBook 2) /\ safe exW2 (AAdd 0 2) /\ no_wildcards (w_books exW2) (EBook 2) /\
  (forall p, follow (w_books exW2) (EBook 0) p = None <-> follow (w_books exW2) (EBook 2) p = None) /\
  (exists W' z, book_add 10 exW2 0 2 = (W', Ok z) /\ z = EBook 5 /\
     at_path (w_books W') 5 ["sub"; "h"] = Some (EHist 5) /\ at_path (w_books W') 5 ["u"] = Some (EHist 6) /\
     map o_content (HeapSpec.values (w_hists W')) =
       [CDict [(GStr "a", arr [3; 9; 0; 0]%Z)]; arr [1; 1]%Z; CDict [(GStr "a", arr [3; 9; 0; 0]%Z)]; arr [1; 1]%Z; CNone;
        CDict [(GStr "a", arr [6; 18; 0; 0]%Z)]; arr [2; 2]%Z] /\
     safe_all 10 W' [AIMul 5 (nz 7); ADel 5 "u"] /\ works_on W' z [AIMul 5 (nz 7); ADel 5 "u"]) /\
  (exists W', book_iadd 10 exW2 0 2 = (W', None) /\
     map o_content (HeapSpec.values (w_hists W')) =
       [CDict [(GStr "a", arr [6; 18; 0; 0]%Z)]; arr [2; 2]%Z; CDict [(GStr "a", arr [3; 9; 0; 0]%Z)]; arr [1; 1]%Z; CNone]).
Proof.
  split; [apply Nat.ltb_lt; reflexivity|]. split; [apply Nat.ltb_lt; reflexivity|].
  split; [eapply walk_tree_like; [apply exW2_reachable|vm_compute; reflexivity|nodup]|].
  split; [eapply walk_tree_like; [apply exW2_reachable|vm_compute; reflexivity|nodup]|].
  split; [eapply walk_disjoint; [apply exW2_reachable|vm_compute; reflexivity|vm_compute; reflexivity|nodup]|].
  split; [eapply walk_sum_safe; [apply exW2_reachable|vm_compute; reflexivity|vm_compute; reflexivity|vm_compute; reflexivity]|].
  split; [eapply walk_plain; [apply exW2_reachable|vm_compute; reflexivity|repeat constructor]|].
  split; [eapply walk_same; [apply exW2_reachable|vm_compute; reflexivity|vm_compute; reflexivity|reflexivity]|].
  split.
  - eexists. eexists. split; [vm_compute; reflexivity|]. split; [reflexivity|]. split; [reflexivity|]. split; [reflexivity|]. split; [|split].
    + vm_compute. unfold arr. repeat f_equal; apply Qc_is_canon; reflexivity.
    + cbn [safe_all]. split; [exact I|]. split; exact I.
    + repeat (constructor; [intros x Ix; cbn in Ix; intuition subst; left; exists []; reflexivity|]). constructor.
  - eexists. split; [vm_compute; reflexivity|]. vm_compute. unfold arr. repeat f_equal; apply Qc_is_canon; reflexivity.
Qed.
(** b1 + b2 contains the histograms that only one of them has, not copies: filling the sum changes
    the operand. *)
Definition exW3 : world := act_all 10 exW2 [ASet 2 "v" (EHist 4); AHist (OFill 4 (fill_g "a"))].
Lemma exW3_reachable : reachable 10 exW3.
Proof.
  apply reachable_all; [apply exW2_reachable|]. cbn [safe_all]. split; [eexists; reflexivity|]. split; [exact (fill_g_filler "a")|exact I].
Qed.
Theorem C49_sum_independent_refuted : exists limit W a b W' c l i h h', reachable limit W /\ present W (EBook a) /\ present W (EBook b) /\ safe W (AAdd a b) /\
  book_add limit W a b = (W', Ok (EBook c)) /\ safe_all limit W' l /\ works_on W' (EBook c) l /\
  at_path (w_books W) b ["v"] = Some (EHist i) /\ hist_value W i = Some h /\ hist_value (act_all limit W' l) i = Some h' /\
  o_content h = CDict [(GStr "a", arr [3; 9; 0; 0]%Z)] /\ o_content h' = CDict [(GStr "a", arr [6; 18; 0; 0]%Z)].
Proof.
  exists 10, exW3, 0, 2. eexists. exists 5, [AIMul 5 (nz 2)], 4. eexists. eexists. split; [apply exW3_reachable|].
  split; [apply Nat.ltb_lt; reflexivity|]. split; [apply Nat.ltb_lt; reflexivity|].
  split; [eapply walk_sum_safe; [apply exW3_reachable|vm_compute; reflexivity|vm_compute; reflexivity|vm_compute; reflexivity]|].
  split; [vm_compute; reflexivity|]. split; [split; exact I|].
  split; [constructor; [|constructor]; intros x Ix; cbn in Ix; intuition subst; left; exists []; reflexivity|].
  split; [reflexivity|]. split; [vm_compute; reflexivity|]. split; [vm_compute; reflexivity|]. split; unfold arr; cbn [o_content]; repeat f_equal; apply Qc_is_canon; reflexivity.
Qed.
Print Assumptions C49_sum_independent_refuted.
(** An entry of the second book whose name contains a wildcard character is missing from the sum. *)
Theorem C49_wildcard_names_refuted : exists limit W a b W' c i, reachable limit W /\ present W (EBook a) /\ present W (EBook b) /\
  book_add limit W a b = (W', Ok (EBook c)) /\ at_path (w_books W) a ["pt [GeV]"] = None /\ at_path (w_books W) b ["pt [GeV]"] = Some (EHist i) /\
  at_path (w_books W') c ["pt [GeV]"] = None.
Proof.
  exists 10, (act_all 10 exW2 [ASet 2 "pt [GeV]" (EHist 4)]), 0, 2. eexists. exists 5, 4. split.
  { apply reachable_all; [apply exW2_reachable|]. split; [eexists; reflexivity|exact I]. }
  split; [apply Nat.ltb_lt; reflexivity|]. split; [apply Nat.ltb_lt; reflexivity|]. split; [vm_compute; reflexivity|]. split; [reflexivity|]. split; reflexivity.
Qed.
Print Assumptions C49_wildcard_names_refuted.

(** ** C51 *)
(** SamplesBook(["data", "mc"], {"h": h0, "sub": {"h": h2, "u": h3}}) with unfilled histograms, filled
    through the view "mc/*". *)
Definition exS : world := act_all 10 (start [heap_h; heap_u; heap_h; heap_u]) [ANew; ASet 0 "h" (EHist 2); ASet 0 "u" (EHist 3)].
Lemma exS_reachable : reachable 10 exS.
Proof.
  apply reachable_all.
  - constructor. repeat constructor; discriminate.
  - cbn [safe_all]. repeat (split; [first [exact I|eexists; reflexivity]|]). exact I.
Qed.
Definition exl : list (string * entry) := [("h", EHist 0); ("sub", EBook 0)].
Definition exWS : world := fst (samples_book 10 exS ["data"; "mc"] exl).
Definition sfill (i : nat) : filler := if existsb (Nat.eqb i) [1; 3; 6; 9] then fill_u else fill_g "b".
Example C51_example : plain_names ["data"; "mc"] /\ plain_names (map fst exl) /\ safe exS (ASamples ["data"; "mc"] exl) /\
  samples_book 10 exS ["data"; "mc"] exl = (exWS, Ok 1) /\ wild "mc" = false /\
  at_path (w_books exWS) 1 ["mc"; "sub"; "u"] = Some (EHist 9) /\ at_path (w_books exWS) 1 ["data"; "sub"; "u"] = Some (EHist 6) /\
  exists B' d, book_view 10 (w_books exWS) 1 "mc/*" = (B', Ok d) /\
    let W' := with_books exWS B' in let prog := [AFill d sfill (fun _ c => (c, None)); AIMul d (nz 2)] in
    safe_all 10 W' prog /\ works_on W' (EBook d) prog /\
    at_path B' d ["mc"; "sub"; "u"] = Some (EHist 9) /\
    map (fun h => o_content h) (skipn 4 (HeapSpec.values (w_hists (act_all 10 W' prog)))) =
      [CNone; CNone; CNone; CDict [(GStr "b", arr [6; 18; 0; 0]%Z)]; CDict [(GStr "b", arr [6; 18; 0; 0]%Z)]; arr [2; 2]%Z].
Proof.
  split; [split; [repeat constructor; cbn; intuition discriminate|intros k [<-|[<-|[]]]; cbn; intuition discriminate]|].
  split; [split; [repeat constructor; cbn; intuition discriminate|intros k [<-|[<-|[]]]; cbn; intuition discriminate]|].
  split.
  { intros n x [[= <- <-]|[[= <- <-]|[]]]; split.
    - eexists; reflexivity.
    - intros p i h Ep Eh. destruct p; [|discriminate]. injection Ep as <-. vm_compute in Eh. injection Eh as <-. reflexivity.
    - apply Nat.ltb_lt; reflexivity.
    - eapply walk_unfilled; [apply exS_reachable|vm_compute; reflexivity|repeat constructor]. }
  split; [vm_compute; reflexivity|]. split; [reflexivity|]. split; [reflexivity|]. split; [reflexivity|].
  eexists. eexists. split; [vm_compute; reflexivity|]. cbn zeta. split; [|split; [|split; [reflexivity|]]].
  - cbn [safe_all]. split; [|split; exact I]. eapply fill_part_safe; [vm_compute; reflexivity|]. intros i n En.
    assert (Id : forall n, is_filler n (fun c => (c, None))) by (intros m c D; split; [apply extends_refl|exact D]).
    do 10 (destruct i as [|i]; [injection En as <-; split; [first [exact (fill_g_filler "b")|exact fill_u_filler]|apply Id]|]). destruct i; discriminate.
  - repeat (constructor; [intros x Ix; cbn in Ix; intuition subst; left; exists []; reflexivity|]). constructor.
  - vm_compute. unfold arr. repeat f_equal; apply Qc_is_canon; reflexivity.
Qed.
(** With a histogram that is already filled, all samples share its contents, and a fill through one
    of them changes the others and the histogram they were made from. *)
Definition exF : world := act_all 10 (start [heap_u]) [AHist (OFill 0 fill_u)].
Theorem C51_filled_histograms_refuted : exists limit W samples l W1 b B' d pre post i j h h' k', reachable limit W /\
  plain_names samples /\ plain_names (map fst l) /\ samples_book limit W samples l = (W1, Ok b) /\
  book_view limit (w_books W1) b "mc/*" = (B', Ok d) /\ safe (with_books W1 B') (AFill d pre post) /\
  at_path (w_books W1) b ["data"; "u"] = Some (EHist i) /\ In ("u", EHist j) l /\
  hist_value W1 i = Some h /\ o_content h = arr [1; 1]%Z /\
  hist_value (fst (act limit (with_books W1 B') (AFill d pre post))) i = Some h' /\ o_content h' = arr [2; 2]%Z /\
  hist_value (fst (act limit (with_books W1 B') (AFill d pre post))) j = Some k' /\ o_content k' = arr [2; 2]%Z.
Proof.
  exists 10, exF, ["data"; "mc"], [("u", EHist 0)]. do 4 eexists. exists (fun _ => fill_u), (fun _ c => (c, None)), 1, 0. do 3 eexists. split.
  { apply reachable_all; [constructor; repeat constructor; discriminate|]. split; [exact fill_u_filler|exact I]. }
  split; [split; [repeat constructor; cbn; intuition discriminate|intros k [<-|[<-|[]]]; cbn; intuition discriminate]|].
  split; [split; [repeat constructor; cbn; intuition discriminate|intros k [<-|[]]; cbn; intuition discriminate]|].
  split; [vm_compute; reflexivity|]. split; [vm_compute; reflexivity|]. split.
  { eapply fill_part_safe; [vm_compute; reflexivity|]. intros i n En.
    assert (Id : forall n, is_filler n (fun c => (c, None))) by (intros m c D; split; [apply extends_refl|exact D]).
    do 3 (destruct i as [|i]; [injection En as <-; split; [exact fill_u_filler|apply Id]|]). destruct i; discriminate. }
  split; [reflexivity|]. split; [left; reflexivity|]. split; [vm_compute; reflexivity|]. split; [unfold arr; cbn [o_content]; repeat f_equal; apply Qc_is_canon; reflexivity|].
  split; [vm_compute; reflexivity|]. split; [unfold arr; cbn [o_content]; repeat f_equal; apply Qc_is_canon; reflexivity|].
  split; [vm_compute; reflexivity|]. unfold arr; cbn [o_content]; repeat f_equal; apply Qc_is_canon; reflexivity.
Qed.
Print Assumptions C51_filled_histograms_refuted.

(** ** C48 with the histograms a book refers to *)
(** For a book built by a program that makes no arrays shared, the fill that Props_BookFill.v is about
    is a fill of these histograms in memory: the contents and the error are the same. *)
Theorem C48_fill_in_memory cast rnd user order limit srcs hs A W b ids : reachable limit W -> defined hs W -> present W (EBook b) ->
  book_hists limit (w_books W) b = Ok ids -> NoDup ids -> ids <> [] -> up_to_date hs limit (w_books W) b ->
  exists pre post, safe W (AFill b pre post) /\
    let r := act limit W (AFill b pre post) in
    let f := book_fill cast rnd user order limit srcs hs A (w_books W) b (map o_content (HeapSpec.values (w_hists W))) in
    map o_content (HeapSpec.values (w_hists (fst r))) = snd (fst f) /\ snd r = snd f.
Proof. apply fill_agrees. Qed.
Print Assumptions C48_fill_in_memory.
Definition obj_of (h : hist) : hobj := {| o_group := map fst (h_group h); o_fixed := map fst (h_fixed h); o_prof := []; o_weight := None; o_filter := None;
  o_defs := []; o_attach := []; o_content := CNone |}.
Example C48_fill_in_memory_example : let W := act_all 10 (start [obj_of exq; obj_of exz]) [ANew; ASet 0 "s/a" (EHist 0); ASet 0 "b" (EHist 1)] in
  reachable 10 W /\ defined [exq; exz] W /\ present W (EBook 0) /\ book_hists 10 (w_books W) 0 = Ok [0; 1] /\ NoDup [0; 1] /\ up_to_date [exq; exz] 10 (w_books W) 0.
Proof.
  cbn zeta. split; [|split; [|split; [|split; [|split]]]].
  - apply reachable_all; [constructor; repeat constructor; discriminate|]. cbn [safe_all]. repeat (split; [first [exact I|eexists; reflexivity]|]). exact I.
  - repeat constructor.
  - apply Nat.ltb_lt; reflexivity.
  - vm_compute; reflexivity.
  - nodup.
  - eexists. split; [vm_compute; reflexivity|]. exact I.
Qed.
