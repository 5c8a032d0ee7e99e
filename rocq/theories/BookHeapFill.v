(** Books and sharing, part 8: the fill of a book, with and without sharing. *)
From Coq Require Import String.
From Verif Require Import Base Num Axis Calc Content Fill HistAlg AlgSpec HistAlgProofs HistAlgMain Heap HeapSpec HeapProofs HeapAdd HeapMain HeapMain2
  Tree Instr Elem HistFill HistFillProofs Glob Book BookSpec BookProofs BookPaths BookIter BookFill BookHeap BookHeapSpec BookHeapProofs BookHeapAdd BookHeapFrame BookHeapActs BookHeapMain BookHeapIadd BookFillSpec.
Local Open Scope string_scope.
Local Open Scope list_scope.

(** _prefill and _postfill of the histogram [i] in a book (book.py 580-584), for histogram definitions
    [hs] and arrays of [len] rows that gave [out]. *)
Definition pre_part (hs : list hist) (i : nat) : filler := fun c =>
  match nth_error hs i with
  | Some h => (prefill (hist_layout h) (List.length (h_group h)) c, None)
  | None => (c, None)
  end.
Definition post_part (hs : list hist) (len : nat) (out : list (tree * V)) (i : nat) : filler := fun c =>
  match nth_error hs i with
  | Some h => match read_dest h out with
              | Err e => (c, Some e)
              | Ok d => postfill (hist_layout h) len d c
              end
  | None => (c, None)
  end.
Lemma pre_filler hs i h : nth_error hs i = Some h -> is_filler (length (h_group h)) (pre_part hs i).
Proof. intros E c D. unfold pre_part. rewrite E. cbn [fst]. apply prefill_ext. auto. Qed.
Lemma dest_length h out d : read_dest h out = Ok d -> length (d_group d) <= length (h_group h).
Proof.
  unfold read_dest. intros Rd.
  apply bind_ok in Rd. destruct Rd as (g & Rg & Rd). apply bind_ok in Rd. destruct Rd as (? & _ & Rd). apply bind_ok in Rd. destruct Rd as (? & _ & Rd).
  apply bind_ok in Rd. destruct Rd as (? & _ & Rd). injection Rd as <-. cbn [d_group]. clear - Rg.
  revert g Rg. induction (h_group h) as [|p l IH]; cbn [mapM]; intros g Rg; [injection Rg as <-; auto|].
  apply bind_ok in Rg. destruct Rg as (y & _ & Rg). apply bind_ok in Rg. destruct Rg as (t & Rt & Rg). injection Rg as <-. cbn [length]. specialize (IH t Rt). lia.
Qed.
Lemma post_filler hs len out i h : nth_error hs i = Some h -> is_filler (length (h_group h)) (post_part hs len out i).
Proof.
  intros E c D. unfold post_part. rewrite E. destruct (read_dest h out) as [d|e] eqn:R; cbn [fst].
  - apply postfill_ext; auto. apply (dest_length _ _ _ R).
  - split; auto. apply extends_refl.
Qed.

(** ** The operations on the histograms one after another *)
Lemma map_setc vs : forall i h c, map o_content (set_nth vs i (with_content h c)) = setc (map o_content vs) i c.
Proof.
  unfold set_nth. induction vs as [|v vs IH]; intros [|i] h c; cbn [upd map setc]; auto. f_equal. apply IH.
Qed.
Lemma set_nth_length {A} (x : A) l : forall i, length (set_nth l i x) = length l.
Proof. unfold set_nth. induction l as [|y l IH]; intros [|i]; cbn [upd length]; auto. Qed.
Lemma until_app os1 : forall vs vs1 os2, value_until vs os1 = (vs1, None) -> value_until vs (os1 ++ os2) = value_until vs1 os2.
Proof.
  induction os1 as [|o os1 IH]; intros vs vs1 os2 E; cbn [value_until app] in *; [injection E as ->; auto|].
  destruct (value_step vs o) as [v1 [e|]]; [discriminate|]. auto.
Qed.
Lemma pre_until hs ids : forall vs, (forall i, In i ids -> i < length vs) ->
  exists vs', value_until vs (map (fun i => OPart i (pre_part hs i)) ids) = (vs', None) /\ length vs' = length vs /\
    map o_content vs' = prefill_all hs ids (map o_content vs).
Proof.
  induction ids as [|i ids IH]; intros vs H; cbn [map value_until prefill_all]; [eauto|].
  cbn [value_step]. unfold on. destruct (nth_error vs i) as [v|] eqn:E; [|apply nth_error_None in E; specialize (H i (or_introl eq_refl)); lia].
  unfold pre_part at 1. rewrite nth_error_map, E. cbn [option_map]. destruct (nth_error hs i) as [h|] eqn:Eh.
  - destruct (IH (set_nth vs i (with_content v (prefill (hist_layout h) (length (h_group h)) (o_content v))))) as (vs' & R & L & M).
    + intros j I. rewrite set_nth_length. apply H. right. auto.
    + rewrite set_nth_length in L. rewrite map_setc in M. eauto.
  - destruct (IH (set_nth vs i (with_content v (o_content v)))) as (vs' & R & L & M).
    + intros j I. rewrite set_nth_length. apply H. right. auto.
    + rewrite set_nth_length in L. exists vs'. split; [auto|]. split; [auto|]. rewrite M, map_setc. f_equal.
      assert (Ec : nth_error (map o_content vs) i = Some (o_content v)) by (rewrite nth_error_map, E; auto).
      clear - Ec. revert i Ec. induction (map o_content vs) as [|c cs IH]; intros [|i] Ec; cbn [nth_error setc] in *; try discriminate; [congruence|]. f_equal. auto.
Qed.
Lemma post_until hs len out ids : forall stored vs, NoDup ids -> (forall i, In i ids -> In i stored /\ i < length vs /\ exists h, nth_error hs i = Some h) ->
  let r := value_until vs (map (fun i => OPart i (post_part hs len out i)) ids) in
  (map o_content (fst r), snd r) = postfill_all hs len out stored ids (map o_content vs).
Proof.
  induction ids as [|i ids IH]; intros stored vs N H; cbn [map value_until postfill_all]; [auto|].
  destruct (H i (or_introl eq_refl)) as (Is & Il & h & Eh). inversion N as [|? ? Ni N']; subst.
  cbn [value_step]. unfold on. destruct (nth_error vs i) as [v|] eqn:E; [|apply nth_error_None in E; lia].
  unfold post_part at 1 3. rewrite nth_error_map, E, Eh. cbn [option_map].
  assert (X : existsb (Nat.eqb i) stored = true) by (apply existsb_exists; exists i; split; auto; apply Nat.eqb_refl). rewrite X.
  destruct (read_dest h out) as [d|e] eqn:R.
  - destruct (postfill (hist_layout h) len d (o_content v)) as [c [e|]]; cbn [fst snd]; [rewrite map_setc; auto|].
    rewrite <- (map_setc vs i v c). apply IH; auto. intros j I. destruct (H j (or_intror I)) as (Js & Jl & Jh). split; [|split; auto].
    + apply filter_In. split; auto. apply Bool.negb_true_iff, Nat.eqb_neq. intros ->. auto.
    + rewrite set_nth_length. auto.
  - cbn [fst snd]. rewrite map_setc. f_equal. assert (Ec : nth_error (map o_content vs) i = Some (o_content v)) by (rewrite nth_error_map, E; auto).
    clear - Ec. revert i Ec. induction (map o_content vs) as [|c cs IH]; intros [|i] Ec; cbn [nth_error setc] in *; try discriminate; [congruence|]. f_equal. auto.
Qed.

(** The histograms of the world have the definitions [hs]. *)
Definition defined (hs : list hist) (W : world) : Prop :=
  Forall2 (fun h v => o_group v = map fst (h_group h) /\ o_fixed v = map fst (h_fixed h) /\ o_layout v = hist_layout h) hs (HeapSpec.values (w_hists W)).
Lemma defined_at hs W i v : defined hs W -> hist_value W i = Some v -> exists h, nth_error hs i = Some h /\ ngroups v = length (h_group h).
Proof.
  unfold defined. intros D E. rewrite value_vals in E. unfold vals in E. revert i E. induction D as [|h w hs vs G D IH]; intros [|i] E; cbn [nth_error] in *; try discriminate; [|auto].
  injection E as <-. exists h. split; auto. unfold ngroups. destruct G as (-> & _). apply map_length.
Qed.
Lemma fill_safe hs len out W b : defined hs W -> safe W (AFill b (pre_part hs) (post_part hs len out)).
Proof.
  intros D p i v _ Ev. destruct (defined_at _ _ _ _ D Ev) as (h & Eh & ->). split; [apply pre_filler|apply post_filler]; auto.
Qed.
Theorem fill_contents limit hs len out stored W b ids : reachable limit W -> defined hs W -> present W (EBook b) ->
  book_hists limit (w_books W) b = Ok ids -> NoDup ids -> incl ids stored ->
  let r := act limit W (AFill b (pre_part hs) (post_part hs len out)) in
  (map o_content (HeapSpec.values (w_hists (fst r))), snd r) = postfill_all hs len out stored ids (prefill_all hs ids (map o_content (HeapSpec.values (w_hists W)))).
Proof.
  intros Hr D Pb Ei N Is. cbn zeta. cbn [act]. unfold book_fill_heap.
  pose proof (reachable_sound limit W Hr) as So. pose proof (sound_framed W So) as F.
  assert (Hid : forall i, In i ids -> i < length (vals W)).
  { intros i Ii. apply (hists_below limit _ b ids (so_keys _ So) Ei) in Ii. destruct Ii as (p & Ep). 
    pose proof (follow_entry _ _ p (so_entries _ So) (EBook b) (EHist i) Pb Ep) as X. exact X. }
  assert (Hh : forall i, In i ids -> exists h v, nth_error hs i = Some h /\ nth_error (vals W) i = Some v /\ ngroups v = length (h_group h)).
  { intros i Ii. destruct (nth_error (vals W) i) as [v|] eqn:Ev; [|apply nth_error_None in Ev; specialize (Hid i Ii); lia].
    destruct (defined_at hs W i v D Ev) as (h & Eh & G). eauto. }
  destruct (on_hists_frame _ W limit b (fun ids => map (fun i => OPart i (pre_part hs i)) ids ++ map (fun i => OPart i (post_part hs len out i)) ids) F I) as (_ & H).
  - intros ids' E'. rewrite Ei in E'. injection E' as <-. split; apply Forall_app; split; apply Forall_forall; intros o Io; apply in_map_iff in Io; destruct Io as (i & <- & Ii).
    + intros v Ev. destruct (Hh i Ii) as (h & v' & Eh & Ev' & G). rewrite Ev in Ev'. injection Ev' as <-. rewrite G. apply pre_filler. auto.
    + intros v Ev. destruct (Hh i Ii) as (h & v' & Eh & Ev' & G). rewrite Ev in Ev'. injection Ev' as <-. rewrite G. apply post_filler. auto.
    + exists i. auto.
    + exists i. auto.
  - rewrite Ei in H. destruct (pre_until hs ids (vals W) Hid) as (v1 & R1 & L1 & M1). rewrite (until_app _ _ _ _ R1) in H.
    unfold vals in M1. rewrite <- M1, <- (post_until hs len out ids stored v1 N).
    + cbn zeta. rewrite <- H. auto.
    + intros i Ii. destruct (Hh i Ii) as (h & v & Eh & _). split; [auto|]. split; [rewrite L1; auto|eauto].
Qed.

(** The instructions cannot be run: _prefill only. *)
Lemma fail_until e i ids vs v : nth_error vs i = Some v ->
  let r := value_until vs (map (fun i => OPart i (fun c => (c, Some e))) (i :: ids)) in
  map o_content (fst r) = map o_content vs /\ snd r = Some e.
Proof.
  intros E. cbn [map value_until value_step]. unfold on. rewrite E. cbn [fst snd]. split; auto. rewrite map_setc.
  assert (Ec : nth_error (map o_content vs) i = Some (o_content v)) by (rewrite nth_error_map, E; auto).
  clear - Ec. revert i Ec. induction (map o_content vs) as [|c cs IH]; intros [|i] Ec; cbn [nth_error setc] in *; try discriminate; [congruence|]. f_equal. auto.
Qed.
Definition no_part (e : err) (i : nat) : filler := fun c => (c, Some e).
Lemma no_filler n e i : is_filler n (no_part e i).
Proof. intros c D. split; auto. apply extends_refl. Qed.
Theorem fill_fails limit hs e W b ids : reachable limit W -> defined hs W -> present W (EBook b) ->
  book_hists limit (w_books W) b = Ok ids -> ids <> [] ->
  let r := act limit W (AFill b (pre_part hs) (no_part e)) in
  (map o_content (HeapSpec.values (w_hists (fst r))), snd r) = (prefill_all hs ids (map o_content (HeapSpec.values (w_hists W))), Some e).
Proof.
  intros Hr D Pb Ei N. cbn zeta. cbn [act]. unfold book_fill_heap.
  pose proof (reachable_sound limit W Hr) as So. pose proof (sound_framed W So) as F.
  assert (Hid : forall i, In i ids -> i < length (vals W)).
  { intros i Ii. apply (hists_below limit _ b ids (so_keys _ So) Ei) in Ii. destruct Ii as (p & Ep). 
    pose proof (follow_entry _ _ p (so_entries _ So) (EBook b) (EHist i) Pb Ep) as X. exact X. }
  destruct (on_hists_frame _ W limit b (fun ids => map (fun i => OPart i (pre_part hs i)) ids ++ map (fun i => OPart i (no_part e i)) ids) F I) as (_ & H).
  - intros ids' E'. rewrite Ei in E'. injection E' as <-. split; apply Forall_app; split; apply Forall_forall; intros o Io; apply in_map_iff in Io; destruct Io as (i & <- & Ii).
    + intros v Ev. destruct (defined_at hs W i v D Ev) as (h & Eh & G). rewrite G. apply pre_filler. auto.
    + intros v Ev. apply no_filler.
    + exists i. auto.
    + exists i. auto.
  - rewrite Ei in H. destruct (pre_until hs ids (vals W) Hid) as (v1 & R1 & L1 & M1). rewrite (until_app _ _ _ _ R1) in H.
    destruct ids as [|i ids]; [congruence|]. destruct (nth_error v1 i) as [v|] eqn:Ev; [|apply nth_error_None in Ev; rewrite L1 in Ev; specialize (Hid i (or_introl eq_refl)); lia].
    destruct (fail_until e i ids v1 v Ev) as (F1 & F2). unfold vals in *.
    change (fun i : nat => OPart i (fun c : content => (c, Some e))) with (fun i => OPart i (no_part e i)) in F1, F2. rewrite <- H in F1, F2. cbn [fst snd] in F1, F2. rewrite <- M1, <- F1, F2. auto.
Qed.

(** The fill of a book with the histograms it refers to does to their contents what the fill of
    BookFill.v does. *)
Theorem fill_agrees cast rnd user order limit srcs hs A W b ids : reachable limit W -> defined hs W -> present W (EBook b) ->
  book_hists limit (w_books W) b = Ok ids -> NoDup ids -> ids <> [] -> up_to_date hs limit (w_books W) b ->
  exists pre post, safe W (AFill b pre post) /\
    let r := act limit W (AFill b pre post) in
    let f := book_fill cast rnd user order limit srcs hs A (w_books W) b (map o_content (HeapSpec.values (w_hists W))) in
    map o_content (HeapSpec.values (w_hists (fst r))) = snd (fst f) /\ snd r = snd f.
Proof.
  intros Hr D Pb Ei N Ne (o & Eo & U). unfold book_fill. rewrite Ei.
  assert (Fail : forall e, exists pre post, safe W (AFill b pre post) /\
    let r := act limit W (AFill b pre post) in
    map o_content (HeapSpec.values (w_hists (fst r))) = prefill_all hs ids (map o_content (HeapSpec.values (w_hists W))) /\ snd r = Some e).
  { intros e. exists (pre_part hs), (no_part e). split.
    - intros p i v _ Ev. destruct (defined_at _ _ _ _ D Ev) as (h & Eh & ->). split; [apply pre_filler; auto|apply no_filler].
    - pose proof (fill_fails limit hs e W b ids Hr D Pb Ei Ne) as X. cbn zeta in *. inversion X as [[X1 X2]]. rewrite X1, X2. auto. }
  assert (St : forall B1 is stored, book_fields order limit srcs hs (w_books W) b = (B1, Ok (is, stored)) -> stored = ids).
  { intros B1 is stored. unfold book_fields. rewrite Eo. destruct (b_cache o) as [(is', st')|].
    - destruct U as (ids' & ? & ? & E1 & E2 & _). rewrite Ei in E1. injection E1 as <-. intros [= _ _ <-]. auto.
    - rewrite Ei. cbn [bind]. destruct (book_goals hs ids) as [gl|]; cbn [bind]; [|discriminate]. destruct (instructions order srcs gl); cbn [bind]; [|discriminate].
      destruct (fields srcs); cbn [bind]; [|discriminate]. intros [= _ _ <-]. auto. }
  destruct (book_fields order limit srcs hs (w_books W) b) as [B1 [[is stored]|e]]; cbn [bind fst snd]; [|apply Fail].
  destruct (fill_arrays cast rnd user A is) as [[len out]|e]; cbn [bind fst snd]; [|apply Fail].
  exists (pre_part hs), (post_part hs len out). split; [apply fill_safe; auto|].
  rewrite (St _ _ _ eq_refl). pose proof (fill_contents limit hs len out ids W b ids Hr D Pb Ei N (incl_refl _)) as X. cbn zeta in *.
  rewrite <- X. cbn [fst snd]. auto.
Qed.
