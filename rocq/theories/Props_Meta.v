(** C70: attachments. *)
From Coq Require Import String List Arith Lia Bool.
From Verif Require Import Base Meta MetaSpec MetaProofs.
Import ListNotations.
Local Open Scope string_scope.
Local Open Scope list_scope.

Lemma exists_holder s i : exists_ref s (ROf i) <-> exists h, nth_error (holders s) i = Some h.
Proof. unfold exists_ref. cbn [deref]. destruct (nth_error (holders s) i); cbn; split; intros H; eauto; try congruence. destruct H as (? & ?). discriminate. Qed.
Lemma seen_dset s g r a k v : inv s g -> deref s r = Some a -> written_to s (with_dicts s (upd_dict (dset k v) a (dicts s))) g r k (Some v).
Proof. intros I E. apply write_seen; auto. intros k'. apply dset_find. Qed.

(** ** Writing: everybody with the same origin sees it, and nobody else *)
Theorem C70_write : forall s g r k v, reached s g -> exists_ref s r ->
  snd (mstep s (OWrite r k v)) = None /\ written_to s (fst (mstep s (OWrite r k v))) g r k (Some v).
Proof.
  intros s g r k v R X. apply inv_reached in R. unfold exists_ref in X. cbn [mstep]. destruct (deref s r) as [a|] eqn:E; [|congruence]. cbn [fst snd].
  split; auto. apply seen_dset; auto.
Qed.
Theorem C70_attach : forall s g i k v, reached s g -> exists_ref s (ROf i) ->
  snd (mstep s (OAttach i k v)) = None /\ written_to s (fst (mstep s (OAttach i k v))) g (ROf i) k (Some v).
Proof.
  intros s g i k v R X. apply inv_reached in R. apply exists_holder in X as (h & E). cbn [mstep]. rewrite E. cbn [fst snd]. split; auto. apply seen_dset; auto. cbn [deref]. rewrite E. reflexivity.
Qed.
Theorem C70_detach : forall s g i k, reached s g -> exists_ref s (ROf i) ->
  (value s (ROf i) k <> None -> snd (mstep s (ODetach i k)) = None /\ written_to s (fst (mstep s (ODetach i k))) g (ROf i) k None) /\
  (value s (ROf i) k = None -> mstep s (ODetach i k) = (s, Some KeyError)).
Proof.
  intros s g i k R X. apply inv_reached in R. apply exists_holder in X as (h & E). cbn [mstep]. rewrite E. unfold value. cbn [deref]. rewrite E. cbn [option_map].
  destruct (dfind k (dict_at s (m_attach h))) eqn:F; split; intros H; try congruence; auto. cbn [fst snd]. split; auto. apply write_seen; auto; [cbn [deref]; rewrite E; reflexivity|].
  intros k'. apply ddel_find. apply proper_at. apply R.
Qed.
Print Assumptions C70_detach.

(** ** What makes a new attachment *)
Lemma fresh_alone s g d o : inv s g -> new_tag g (length (holders s)) o = Own (length (holders s)) -> alone s (add_fresh s d) (track s (add_fresh s d) o g).
Proof.
  intros (L1 & L2 & I2 & I3 & _) E r X. rewrite track_add, E by (unfold add_fresh; rewrite add_length; reflexivity). cbn [tag_of g_tags]. rewrite (snoc_nth _ _ (length (holders s))), L1, Nat.eqb_refl.
  destruct r as [n|i]; cbn [tag_of]; [discriminate|]. cbn [g_tags]. rewrite snoc_nth, L1. apply exists_holder in X as (h & Hh). assert (i < length (holders s)) by (apply nth_error_Some; congruence).
  destruct (Nat.eqb_spec i (length (holders s))); [lia|]. intros T. specialize (I3 i _ T). cbn in I3. lia.
Qed.
(** Copies, filtered, weighted and projected histograms: the same entries in a dict of their own. *)
Theorem C70_copy : forall s g i, reached s g -> exists_ref s (ROf i) ->
  let s' := fst (mstep s (OCopy i)) in
  snd (mstep s (OCopy i)) = None /\ undisturbed s s' /\ makes s s' (value s (ROf i)) /\ alone s s' (track s s' (OCopy i) g).
Proof.
  intros s g i R X. apply inv_reached in R. assert (X' := X). apply exists_holder in X' as (h & E). cbn zeta.
  assert (A : exists d, attachment s i = Some d) by (unfold attachment; rewrite E; cbn; eauto). destruct A as (d & A). cbn [mstep]. rewrite A. cbn [fst snd].
  destruct (value_fresh s g d R) as (U & (M1 & M2)). split; auto. split; auto. split; [split; auto; intros k; rewrite M2, attachment_value, A; reflexivity|]. apply fresh_alone; auto.
Qed.
Theorem C70_new : forall s g sys, reached s g ->
  let s' := fst (mstep s (ONew None sys)) in
  snd (mstep s (ONew None sys)) = None /\ undisturbed s s' /\ makes s s' (fun k => if String.eqb "systematic" k then sys else None) /\ alone s s' (track s s' (ONew None sys) g).
Proof.
  intros s g sys R. apply inv_reached in R. cbn zeta. destruct sys as [v|]; cbn [mstep fst snd]; (split; [auto|]).
  - destruct (value_fresh s g [("systematic", v)] R) as (U & (M1 & M2)). split; auto. split; [split; auto|apply fresh_alone; auto].
  - destruct (value_fresh s g [] R) as (U & (M1 & M2)). split; auto. split; [split; auto|apply fresh_alone; auto]. intros k. rewrite M2. destruct (String.eqb _ k); reflexivity.
Qed.
Theorem C70_systematic : forall s g i v, reached s g -> exists_ref s (ROf i) ->
  let s' := fst (mstep s (OSystematic i v)) in
  (value s (ROf i) "systematic" = None ->
    snd (mstep s (OSystematic i v)) = None /\ undisturbed s s' /\ makes s s' (fun k => if String.eqb "systematic" k then Some v else value s (ROf i) k) /\ alone s s' (track s s' (OSystematic i v) g)) /\
  (value s (ROf i) "systematic" <> None -> mstep s (OSystematic i v) = (s, Some ValueError)).
Proof.
  intros s g i v R X. apply inv_reached in R. assert (X' := X). apply exists_holder in X' as (h & E). cbn zeta.
  assert (A : exists d, attachment s i = Some d) by (unfold attachment; rewrite E; cbn; eauto). destruct A as (d & A). cbn [mstep]. rewrite !attachment_value, A.
  destruct (dfind "systematic" d) eqn:F; (split; intros H; [try congruence|try congruence; auto]). cbn [fst snd].
  destruct (value_fresh s g (dset "systematic" v d) R) as (U & (M1 & M2)). split; auto. split; auto. split; [split; auto; intros k; rewrite M2, dset_find, attachment_value, A; reflexivity|]. apply fresh_alone; auto.
Qed.
Lemma merge_finds s l : Forall proper (dicts s) -> forall d e, merge s l d = Some e -> forall k, dfind k e = match last_of s l k with Some v => Some v | None => dfind k d end.
Proof.
  intros P. induction l as [|i l IH]; intros d e M k; cbn [merge last_of] in *; [injection M as <-; auto|]. destruct (attachment s i) as [x|] eqn:A; [|discriminate].
  rewrite (IH _ _ M k). destruct (last_of s l k); auto. rewrite attachment_value, A. rewrite dupdate_find; auto. eapply attachment_proper; eauto.
Qed.
Lemma merge_some s l : (forall i, In i l -> exists_ref s (ROf i)) -> forall d, exists e, merge s l d = Some e.
Proof.
  induction l as [|i l IH]; intros H d; cbn [merge]; eauto. destruct (proj1 (exists_holder s i) (H i (or_introl eq_refl))) as (h & E). unfold attachment. rewrite E. cbn [option_map].
  apply IH. intros j I. apply H. right. auto.
Qed.
(** Sums and groups of books: the entries of all, the later ones winning. *)
Theorem C70_merge : forall s g l, reached s g -> (forall i, In i l -> exists_ref s (ROf i)) ->
  let s' := fst (mstep s (OMerge l)) in
  snd (mstep s (OMerge l)) = None /\ undisturbed s s' /\ makes s s' (last_of s l) /\ alone s s' (track s s' (OMerge l) g).
Proof.
  intros s g l R X. apply inv_reached in R. cbn zeta. destruct (merge_some s l X []) as (e & M). cbn [mstep]. rewrite M. cbn [fst snd].
  destruct (value_fresh s g e R) as (U & (M1 & M2)). split; auto. split; auto. split; [split; auto|apply fresh_alone; auto].
  intros k. rewrite M2, (merge_finds s l (proj2 (proj2 (proj2 (proj2 (proj2 (proj2 (proj2 (proj2 R)))))))) _ _ M k). destruct (last_of s l k); reflexivity.
Qed.
Print Assumptions C70_merge.

(** ** What takes over an attachment: a dict that is given; the left operand of + and *; the book behind a view *)
Theorem C70_given : forall s g r, reached s g -> exists_ref s r ->
  let s' := fst (mstep s (ONew (Some r) None)) in let g' := track s s' (ONew (Some r) None) g in
  snd (mstep s (ONew (Some r) None)) = None /\ undisturbed s s' /\ makes s s' (value s r) /\ tag_of g' (ROf (length (holders s))) = tag_of g' r.
Proof.
  intros s g r R X. apply inv_reached in R. unfold exists_ref in X. cbn zeta. cbn [mstep]. destruct (deref s r) as [a|] eqn:E; [|congruence]. unfold construct. cbn [fst snd]. split; auto.
  split; [intros r' k X'; apply value_add; auto|]. split; [split; [apply add_length|]; intros k; rewrite value_new; unfold value; rewrite E; auto|].
  rewrite track_add by apply add_length. cbn [tag_of g_tags new_tag]. destruct R as (L1 & _). rewrite snoc_nth, L1, Nat.eqb_refl. destruct r as [n|i]; cbn [tag_of]; auto. cbn [g_tags].
  cbn [deref] in E. destruct (nth_error (holders s) i) eqn:Eh; [|discriminate]. assert (i < length (holders s)) by (apply nth_error_Some; congruence). rewrite snoc_nth, L1. destruct (Nat.eqb_spec i (length (holders s))); [lia|].
  symmetry. destruct (nth_error (g_tags g) i) eqn:T; [rewrite (nth_some _ _ _ _ T); auto|]. apply nth_error_None in T. lia.
Qed.
Theorem C70_share : forall s g i, reached s g -> exists_ref s (ROf i) ->
  let s' := fst (mstep s (OShare i)) in let g' := track s s' (OShare i) g in
  snd (mstep s (OShare i)) = None /\ undisturbed s s' /\ makes s s' (value s (ROf i)) /\ tag_of g' (ROf (length (holders s))) = tag_of g' (ROf i).
Proof.
  intros s g i R X. apply inv_reached in R. apply exists_holder in X as (h & E). cbn zeta. cbn [mstep]. rewrite E. cbn [fst snd]. split; auto.
  split; [intros r' k X'; apply value_add; auto|]. split; [split; [apply add_length|]; intros k; rewrite value_new; unfold value; cbn [deref]; rewrite E; auto|].
  rewrite track_add by apply add_length. cbn [tag_of g_tags new_tag]. destruct R as (L1 & _). assert (i < length (holders s)) by (apply nth_error_Some; congruence). rewrite !snoc_nth, L1, Nat.eqb_refl.
  destruct (Nat.eqb_spec i (length (holders s))); [lia|]. symmetry. destruct (nth_error (g_tags g) i) eqn:T; [rewrite (nth_some _ _ _ _ T); auto|]. apply nth_error_None in T. lia.
Qed.
(** Given both a dict and a systematic, the constructor writes into that dict: whoever shares it sees it. *)
Theorem C70_given_systematic : forall s g r v, reached s g -> exists_ref s r ->
  let s' := fst (mstep s (ONew (Some r) (Some v))) in
  (value s r "systematic" = None ->
    snd (mstep s (ONew (Some r) (Some v))) = None /\ written_to s s' g r "systematic" (Some v) /\ makes s s' (fun k => if String.eqb "systematic" k then Some v else value s r k)) /\
  (value s r "systematic" <> None -> mstep s (ONew (Some r) (Some v)) = (s, Some ValueError)).
Proof.
  intros s g r v R X. apply inv_reached in R. assert (X' := X). unfold exists_ref in X'. cbn zeta. cbn [mstep]. unfold value at 1 3. destruct (deref s r) as [a|] eqn:E; [|congruence]. unfold construct.
  destruct (dfind "systematic" (dict_at s a)) eqn:F; (split; intros H; [try congruence|try congruence; auto]). cbn [fst snd]. split; auto.
  pose proof (seen_dset s g r a "systematic" v R E) as W. set (s1 := with_dicts s (upd_dict (dset "systematic" v) a (dicts s))) in *. split.
  - intros r' k' X1. destruct (value_add s1 a (dests s) r' k' X1) as (_ & EV). cbn beta. rewrite EV. apply (W r' k' X1).
  - split; [rewrite add_length; reflexivity|]. intros k. change (length (holders s)) with (length (holders s1)). rewrite value_new. destruct (W r k X) as (W1 & W2).
    unfold value in W1, W2. change (deref s1 r) with (deref s r) in W1, W2. rewrite E in W1, W2. unfold value. rewrite E. destruct (String.eqb_spec "systematic" k) as [<-|N]; auto.
Qed.
Print Assumptions C70_given_systematic.

(** ** Whole programs: an attachment changes only through those that share it *)
Lemma tag_kept s g o r : inv s g -> exists_ref s r -> tag_of (track s (fst (mstep s o)) o g) r = tag_of g r.
Proof.
  intros (L1 & _) X. unfold track. destruct (Nat.eqb _ _); auto. destruct r as [n|i]; cbn [tag_of g_tags]; auto. apply exists_holder in X as (h & E).
  assert (i < length (holders s)) by (apply nth_error_Some; congruence). rewrite snoc_nth, L1. destruct (Nat.eqb_spec i (length (holders s))); [lia|auto].
Qed.
Lemma step_untouched s g o r k : reached s g -> exists_ref s r -> match target o with Some (r0, k') => tag_of g r0 <> tag_of g r \/ k' <> k | None => True end ->
  exists_ref (fst (mstep s o)) r /\ value (fst (mstep s o)) r k = value s r k.
Proof.
  intros R X T. pose proof (inv_reached s g R) as I.
  assert (WT : forall s' r0 k0 v, (exists l, s' = with_dicts s l) -> written_to s s' g r0 k0 v -> tag_of g r0 <> tag_of g r \/ k0 <> k -> exists_ref s' r /\ value s' r k = value s r k).
  { intros s' r0 k0 v (l & ->) W H. split; auto. apply (proj2 (W r k X)). destruct H as [H|H]; auto. }
  destruct o as [d|r0 k0 v|[r0|] [v|]|i|i v|i|l|i k0 v|i k0]; cbn [target] in T; cbn [mstep].
  - cbn [fst]. unfold exists_ref, value in *. destruct I as (L1 & L2 & I2 & _).
    assert (E : deref {| dicts := dicts s ++ [dupdate [] d]; vars := vars s ++ [length (dicts s)]; dests := dests s; holders := holders s |} r = deref s r).
    { destruct r as [n|i]; cbn [deref vars holders] in *; auto. rewrite snoc_nth. destruct (Nat.eqb_spec n (length (vars s))) as [->|]; auto. exfalso. apply X. apply nth_error_None. auto. }
    rewrite E. split; auto. destruct (deref s r) as [a|] eqn:Er; auto. unfold dict_at. cbn [dicts]. rewrite app_nth1; auto. eauto.
  - destruct (deref s r0) as [a|] eqn:E; auto. cbn [fst]. eapply WT; [eexists; reflexivity|apply seen_dset; eauto|auto].
  - destruct (deref s r0) as [a|] eqn:E; auto. unfold construct. destruct (dfind "systematic" (dict_at s a)); auto. cbn [fst].
    destruct (WT (with_dicts s (upd_dict (dset "systematic" v) a (dicts s))) r0 "systematic" (Some v)) as (X1 & V1); [eexists; reflexivity|apply seen_dset; auto|auto|].
    destruct (value_add (with_dicts s (upd_dict (dset "systematic" v) a (dicts s))) a (dests s) r k X1) as (X2 & V2). split; auto. rewrite V2. exact V1.
  - destruct (deref s r0) as [a|] eqn:E; auto. unfold construct. cbn [fst]. apply value_add; auto.
  - cbn [fst]. apply (proj1 (value_fresh s g _ I)); auto.
  - cbn [fst]. apply (proj1 (value_fresh s g _ I)); auto.
  - destruct (attachment s i); auto. cbn [fst]. apply (proj1 (value_fresh s g _ I)); auto.
  - destruct (attachment s i) as [d|]; auto. destruct (dfind _ d); auto. cbn [fst]. apply (proj1 (value_fresh s g _ I)); auto.
  - destruct (nth_error (holders s) i); auto. cbn [fst]. apply value_add; auto.
  - destruct (merge s l []); auto. cbn [fst]. apply (proj1 (value_fresh s g _ I)); auto.
  - destruct (nth_error (holders s) i) as [h|] eqn:E; auto. cbn [fst]. eapply WT; [eexists; reflexivity|apply (seen_dset s g (ROf i)); auto; cbn [deref]; rewrite E; reflexivity|auto].
  - destruct (nth_error (holders s) i) as [h|] eqn:E; auto. destruct (dfind k0 (dict_at s (m_attach h))) eqn:F; auto. cbn [fst].
    eapply WT; [eexists; reflexivity| |exact T]. apply (write_seen s g (ROf i) (m_attach h) (ddel k0) k0 None); auto; [cbn [deref]; rewrite E; reflexivity|]. intros k'. apply ddel_find. apply proper_at. apply I.
Qed.
Theorem C70_only_through_sharers : forall ops s g r k, reached s g -> exists_ref s r -> untouched s g ops (tag_of g r) k ->
  exists_ref (fst (after s g ops)) r /\ value (fst (after s g ops)) r k = value s r k.
Proof.
  induction ops as [|o ops IH]; intros s g r k R X U; cbn [after untouched fst] in *; auto. destruct U as (T & U).
  destruct (step_untouched s g o r k R X T) as (X1 & V1). pose proof (inv_reached s g R) as I.
  assert (R1 : reached (fst (mstep s o)) (track s (fst (mstep s o)) o g)) by (constructor; auto).
  rewrite <- (tag_kept s g o r I X) in U. destruct (IH _ _ r k R1 X1 U) as (X2 & V2). split; auto. congruence.
Qed.
Print Assumptions C70_only_through_sharers.

(** ** has and get *)
Theorem C70_has_get : forall s g i k d, reached s g -> exists_ref s (ROf i) ->
  has s i k = Ok (match value s (ROf i) k with Some _ => true | None => false end) /\
  get s i k [] = match value s (ROf i) k with Some v => Ok v | None => Err KeyError end /\
  get s i k [d] = Ok (match value s (ROf i) k with Some v => v | None => d end).
Proof. intros s g i k d _ X. apply exists_holder in X as (h & E). unfold has, get. rewrite attachment_value. unfold attachment. rewrite E. cbn [option_map]. auto. Qed.

(** ** Destinations: shared exactly by a histogram and the sums and multiples made from it *)
Theorem C70_destinations : forall s g i j h k, reached s g -> nth_error (holders s) i = Some h -> nth_error (holders s) j = Some k ->
  (m_dest h = m_dest k <-> nth_error (g_dests g) i = nth_error (g_dests g) j).
Proof. intros s g i j h k R. apply inv_reached in R. destruct R as (_ & _ & _ & _ & _ & _ & _ & D & _). apply D. Qed.
Print Assumptions C70_destinations.

(** ** What does not hold: "an operation that returns a new histogram leaves the attachments of the old one alone" *)
Definition prog70 : list op := [ONew None None; OAttach 0 "title" "pt"; OCopy 0; OShare 0; OAttach 2 "title" "pt scaled"].
Definition s70 : mstate := fst (after start {| g_tags := []; g_dests := [] |} prog70).
Theorem C70_multiple_attach_refuted : exists s g, reached s g /\ value s (ROf 0) "title" = Some "pt" /\
  let s' := fst (mstep (fst (mstep s (OShare 0))) (OAttach (length (holders s)) "title" "pt scaled")) in value s' (ROf 0) "title" = Some "pt scaled".
Proof.
  exists (fst (after start {| g_tags := []; g_dests := [] |} (firstn 2 prog70))), (snd (after start {| g_tags := []; g_dests := [] |} (firstn 2 prog70))).
  split; [|split; reflexivity]. cbn [after firstn prog70 fst snd]. repeat (apply r_step). apply r_start.
Qed.
Theorem C70_given_dict_written_refuted : exists s g, reached s g /\ value s (RDict 0) "systematic" = None /\
  value (fst (mstep s (ONew (Some (RDict 0)) (Some "up")))) (RDict 0) "systematic" = Some "up".
Proof.
  exists (fst (after start {| g_tags := []; g_dests := [] |} [ODict [("title", "pt")]])), (snd (after start {| g_tags := []; g_dests := [] |} [ODict [("title", "pt")]])).
  split; [|split; reflexivity]. cbn [after fst snd]. apply r_step. apply r_start.
Qed.
Print Assumptions C70_multiple_attach_refuted.

(** ** A case: a histogram, a copy and a multiple of it, a dict of the caller and two histograms made with it, and a sum of books *)
Definition g0 : origins := {| g_tags := []; g_dests := [] |}.
Definition prog70b : list op :=
  prog70 ++ [ODict [("a", "1"); ("b", "2")]; ONew (Some (RDict 0)) None; ONew (Some (ROf 3)) None; OWrite (RDict 0) "a" "3"; OMerge [0; 3]; ODetach 4 "b"; OSystematic 1 "up"].
Example C70_case : let (s, g) := after start g0 prog70b in
  reached s g /\ value s (ROf 0) "title" = Some "pt scaled" /\ value s (ROf 1) "title" = Some "pt" /\ value s (ROf 2) "title" = Some "pt scaled" /\
  value s (ROf 4) "a" = Some "3" /\ value s (RDict 0) "b" = None /\ value s (ROf 5) "b" = Some "2" /\ value s (ROf 5) "title" = Some "pt scaled" /\
  value s (ROf 6) "systematic" = Some "up" /\ value s (ROf 1) "systematic" = None /\
  g_tags g = [Own 0; Own 1; Own 0; Caller 0; Caller 0; Own 5; Own 6] /\ g_dests g = [0; 1; 0; 3; 4; 5; 6].
Proof. cbn. repeat split. change (reached (fst (after start g0 prog70b)) (snd (after start g0 prog70b))). cbn [after prog70b prog70 app fst snd]. repeat (apply r_step). apply r_start. Qed.
(** The hypothesis of [C70_only_through_sharers] is met: the copy is untouched by the rest of the program. *)
Example C70_untouched_case : let (s, g) := after start g0 (firstn 3 prog70b) in
  exists_ref s (ROf 1) /\ untouched s g (skipn 3 prog70b) (tag_of g (ROf 1)) "title" /\ value s (ROf 1) "title" = Some "pt".
Proof.
  cbn [after firstn skipn prog70b prog70 app]. split; [|split]; [unfold exists_ref; cbn; discriminate| |reflexivity]. cbn. repeat split; auto; try (left; discriminate); try (right; discriminate).
Qed.
