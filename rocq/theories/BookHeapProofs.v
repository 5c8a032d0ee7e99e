(** Books and sharing, part 1: histograms that share nothing, and derived books. *)
From Coq Require Import String.
From Verif Require Import Base Num Axis Calc Content Fill HistAlg AlgSpec HistAlgProofs HistAlgMain Heap HeapSpec HeapProofs HeapAdd HeapMain HeapMain2
  Tree Instr Elem HistFill Glob Book BookSpec BookProofs BookPaths BookIter BookFill BookHeap BookHeapSpec.
Local Open Scope string_scope.
Local Open Scope list_scope.

(** ** Every filled histogram has its own arrays *)
Definition loose (s : state) : Prop :=
  exists g, Inv s (HeapSpec.values s) g /\ forall i, i < length (HeapSpec.values s) -> unfilled (HeapSpec.values s) i \/ alone g i.
Definition vals (W : world) : list hobj := HeapSpec.values (w_hists W).

Lemma alone_set g i x flags : (forall j, nth_error (g_classes g) j <> Some (Some x)) -> i < length (g_classes g) ->
  alone {| g_flags := flags; g_classes := set_nth (g_classes g) i (Some x) |} i /\
  forall j, j <> i -> alone g j -> alone {| g_flags := flags; g_classes := set_nth (g_classes g) i (Some x) |} j.
Proof.
  intros F L. assert (exists c, nth_error (g_classes g) i = Some c) as (c & Ec) by (destruct (nth_error (g_classes g) i) eqn:E; eauto; apply nth_error_None in E; lia). split.
  - exists x. cbn [g_classes]. split; [eapply nth_set_same; eauto|]. intros j Nj. rewrite nth_set_other by congruence. auto.
  - intros j Nj (k & Ek & Al). exists k. cbn [g_classes]. split; [rewrite nth_set_other; auto|]. intros m Nm. destruct (Nat.eq_dec i m) as [<-|N].
    + rewrite (nth_set_same _ _ _ _ Ec). intros E. inversion E; subst x. apply (F j). auto.
    + rewrite nth_set_other; auto.
Qed.
Lemma alone_new g x flags : (forall j, nth_error (g_classes g) j <> Some (Some x)) ->
  alone {| g_flags := flags; g_classes := g_classes g ++ [Some x] |} (length (g_classes g)) /\
  forall j, alone g j -> alone {| g_flags := flags; g_classes := g_classes g ++ [Some x] |} j.
Proof.
  intros F. split.
  - exists x. cbn [g_classes]. split; [rewrite nth_app, Nat.eqb_refl; auto|]. intros j Nj. rewrite nth_app. destruct (Nat.eqb_spec j (length (g_classes g))); [lia|auto].
  - intros j (k & Ek & Al). exists k. cbn [g_classes]. split; [apply nth_app_some; auto|]. intros m Nm. rewrite nth_app.
    destruct (Nat.eqb_spec m (length (g_classes g))); auto. intros E. inversion E; subst x. apply (F j). auto.
Qed.
Definition cls (g : ghost) (n : nat) : Prop := length (g_classes g) = n.
Definition own (vs : list hobj) (g : ghost) : Prop := cls g (length vs) /\ forall i, i < length vs -> unfilled vs i \/ alone g i.

Lemma own_set vs vs' g i flags : own vs g -> length vs' = length vs -> (forall j, j <> i -> nth_error vs' j = nth_error vs j) ->
  own vs' {| g_flags := flags; g_classes := set_nth (g_classes g) i (Some (no_class (g_classes g))) |}.
Proof.
  intros (L & O) E H. split; [unfold cls in *; cbn [g_classes]; rewrite set_nth_length; congruence|]. intros j Hj.
  assert (A := alone_set g i (no_class (g_classes g)) flags (no_class_fresh (g_classes g))). unfold cls in L.
  destruct (Nat.lt_ge_cases i (length (g_classes g))) as [Li|Li].
  - destruct (A Li) as (A1 & A2). destruct (Nat.eq_dec j i) as [->|N]; auto. destruct (O j) as [U|Al]; [congruence| |]; auto.
    left. unfold unfilled in *. rewrite H; auto.
  - rewrite set_nth_none by (apply nth_error_None; auto). destruct (Nat.eq_dec j i) as [->|N]; [lia|].
    destruct (O j) as [U|(k & Al)]; [congruence| |right; exists k; auto]. left. unfold unfilled in *. rewrite H; auto.
Qed.
Lemma own_new vs g flags (r : res hobj) : own vs g ->
  own (fst (new vs r)) (if match snd (new vs r) with None => true | Some _ => false end
    then {| g_flags := flags; g_classes := g_classes g ++ [Some (no_class (g_classes g))] |} else g).
Proof.
  intros (L & O). unfold new. destruct r as [h|e]; cbn [fst snd]; [|split; auto]. destruct (alone_new g (no_class (g_classes g)) flags (no_class_fresh (g_classes g))) as (A1 & A2).
  unfold cls in L. split; [unfold cls; cbn [g_classes]; rewrite !app_length; cbn; lia|]. intros i Hi. rewrite app_length in Hi. cbn in Hi.
  destruct (Nat.eq_dec i (length vs)) as [->|N]; [right; rewrite <- L; auto|]. destruct (O i) as [U|Al]; [lia| |right; auto].
  left. unfold unfilled in *. rewrite nth_error_app1 by lia. auto.
Qed.
Lemma on_other vs i f j : j <> i -> nth_error (fst (on vs i f)) j = nth_error vs j.
Proof. intros N. unfold on. destruct (nth_error vs i) as [h|]; auto. destruct (f h). cbn [fst]. rewrite nth_set_other; auto. Qed.

Lemma safe_step vs g o : own vs g -> safe_op vs o -> allowed vs g o /\ own (fst (value_step vs o)) (ghost_step vs g o).
Proof.
  intros O S. assert (OW : forall i, i < length vs -> unfilled vs i \/ alone g i) by (apply O).
  destruct o as [i f|i j|i x|i|i|i|i|i j|i x|by_ hs|i f|i f|i p b]; cbn [safe_op allowed ghost_step] in *.
  - split.
    + destruct (nth_error vs i) as [h|] eqn:E; auto. split; auto. right. apply OW. apply nth_error_Some. congruence.
    + apply own_set with (vs := vs); auto; cbn [value_step]; [apply on_length|intros; apply on_other; auto].
  - split; auto. apply own_set with (vs := vs); auto; cbn [value_step]; destruct (get_var vs j); auto; [apply on_length|intros; apply on_other; auto].
  - split; auto. apply own_set with (vs := vs); auto; cbn [value_step]; [apply on_length|intros; apply on_other; auto].
  - split; auto. apply own_set with (vs := vs); auto; cbn [value_step]; [apply on_length|intros; apply on_other; auto].
  - split; auto. cbn [value_step]. apply own_new. auto.
  - split; auto. cbn [value_step]. unfold get_var. unfold unfilled in S. destruct (nth_error vs i) as [h|] eqn:E; cbn [rmap new fst snd]; auto.
    destruct O as (L & O). unfold cls in L. split; [unfold cls; cbn [g_classes]; rewrite !app_length; cbn; lia|]. intros j Hj.
    rewrite app_length in Hj. cbn in Hj. assert (UN : unfilled (vs ++ [hist_copy h]) (length vs)).
    { unfold unfilled. rewrite nth_app, Nat.eqb_refl. unfold hist_copy. rewrite S. auto. }
    destruct (Nat.eq_dec j (length vs)) as [->|N]; [auto|]. destruct (O j) as [U|(k & Ek & Al)]; [lia| |].
    + left. unfold unfilled in *. rewrite nth_error_app1 by lia. auto.
    + destruct (Nat.eq_dec j i) as [->|N2]; [left; unfold unfilled; rewrite nth_error_app1 by lia; rewrite E; auto|].
      right. exists k. cbn [g_classes]. split; [apply nth_app_some; auto|]. intros m Nm. rewrite nth_app. destruct (Nat.eqb_spec m (length (g_classes g))); auto.
      intros C. inversion C as [C']. assert (Li : i < length (g_classes g)) by (rewrite L; apply nth_error_Some; congruence).
      apply (Al i); auto. rewrite (nth_error_nth' _ None Li), C'. auto.
  - split; auto. cbn [value_step]. apply own_new. auto.
  - split; auto. destruct (nth_error vs i) as [h|] eqn:E1; [|cbn [value_step]; unfold get_var; rewrite E1; cbn [bind new fst]; auto].
    destruct (nth_error vs j) as [k|] eqn:E2; [|cbn [value_step]; unfold get_var; rewrite E1, E2; cbn [bind new fst]; auto].
    rewrite S. cbn [value_step]. apply own_new. auto.
  - split; auto. cbn [value_step]. apply own_new. auto.
  - split; auto. cbn [value_step]. apply own_new. auto.
  - split.
    + destruct (nth_error vs i) as [h|] eqn:E; auto. split; auto. apply OW. apply nth_error_Some. congruence.
    + apply own_set with (vs := vs); auto; cbn [value_step]; [apply on_length|intros; apply on_other; auto].
  - split; auto. cbn [value_step]. apply own_new. auto.
  - contradiction.
Qed.
Lemma loose_step s o : loose s -> safe_op (HeapSpec.values s) o ->
  snd (step s o) = snd (value_step (HeapSpec.values s) o) /\ HeapSpec.values (fst (step s o)) = fst (value_step (HeapSpec.values s) o) /\ loose (fst (step s o)).
Proof.
  intros (g & I & O) S. assert (OW : own (HeapSpec.values s) g).
  { split; auto. unfold cls. rewrite (inv_len _ _ _ I). unfold HeapSpec.values. rewrite map_length. auto. }
  destruct (safe_step _ g o OW S) as (A & O'). destruct (inv_step s _ g o I A) as (E & I'). assert (V := inv_vals _ _ _ I').
  split; auto. split; auto. exists (ghost_step (HeapSpec.values s) g o). rewrite V. split; auto. apply O'.
Qed.
Lemma loose_fresh hs : Forall fresh_hist hs -> loose (fresh_state hs).
Proof.
  intros F. assert (I := inv_fresh_state hs F). assert (V := inv_vals _ _ _ I). exists (fresh_ghost hs). rewrite V. split; auto.
  intros i Hi. right. apply (distinct_alone hs); auto. apply fresh_distinct.
Qed.

(** ** New books *)
Definition book_of (l : list (string * entry)) : book := {| b_content := l; b_cache := None |}.
Definition plain_keys (l : list (string * entry)) : Prop := NoDup (map fst l) /\ forall k, In k (map fst l) -> cut_slash k = None.
Lemma nth_last (B : books) o : nth_error (B ++ [o]) (length B) = Some o.
Proof. rewrite nth_error_app2, Nat.sub_diag; auto. Qed.
Lemma put_last B o o' : put (B ++ [o]) (length B) o' = B ++ [o'].
Proof. induction B as [|a B IH]; cbn [app length put]; auto. rewrite IH. auto. Qed.
Lemma dset_new k x l : ~ In k (map fst l) -> dset k x l = l ++ [(k, x)].
Proof.
  induction l as [|(a, y) l IH]; cbn [dset map fst app In]; auto. intros N. destruct (String.eqb_spec k a) as [->|]; [tauto|]. rewrite IH; tauto.
Qed.
Lemma setitem_last B l k x : cut_slash k = None -> ~ In k (map fst l) ->
  setitem (B ++ [book_of l]) (length B) k x = (B ++ [book_of (l ++ [(k, x)])], None).
Proof.
  intros C N. unfold setitem.
  assert (E : set_n (String.length k) (B ++ [book_of l]) (length B) k x = (mark (put (B ++ [book_of l]) (length B) (with_items (book_of l) (dset k x l))) (length B), None)).
  { destruct (String.length k); cbn [set_n]; rewrite nth_last, C; auto. }
  rewrite E, put_last. unfold mark. rewrite nth_last, put_last. rewrite dset_new by auto. auto.
Qed.
Lemma assign_last l : forall B acc, plain_keys (acc ++ l) -> assign_all (B ++ [book_of acc]) (length B) l = (B ++ [book_of (acc ++ l)], None).
Proof.
  induction l as [|(k, x) l IH]; intros B acc (N & C); cbn [assign_all]; [rewrite app_nil_r; auto|].
  rewrite map_app in N, C. cbn [map fst] in N, C. rewrite setitem_last.
  - rewrite IH; rewrite <- app_assoc; auto. split; rewrite map_app; auto.
  - apply C. apply in_or_app. right. left. auto.
  - intros I. apply NoDup_remove_2 in N. apply N. apply in_or_app. auto.
Qed.
Lemma fromdicts_plain B l : plain_keys l -> fromdicts B l = (B ++ [book_of l], Ok (length B)).
Proof. intros H. unfold fromdicts. cbn [new_book]. change empty_book with (book_of []). rewrite (assign_last l B []); auto. Qed.

(** ** Frame *)
Lemma content_app_old B X b : b < length B -> content_of (B ++ X) b = content_of B b.
Proof. intros L. unfold content_of. rewrite nth_error_app1; auto. Qed.
Lemma follow_more B X : valid B -> forall p x, exists_in B x -> follow (B ++ X) x p = follow B x p.
Proof.
  intros V. induction p as [|k p IH]; intros x E; auto. rewrite !follow_cons. destruct x as [h|b]; auto. cbn in E. unfold look. rewrite content_app_old by auto.
  destruct (content_of B b) as [l|] eqn:C; auto. destruct (dget k l) as [y|] eqn:D; auto. apply IH. destruct y; cbn; auto. eapply V; eauto.
  apply dget_in. eauto.
Qed.
Definition entry_ok (B : books) (n : nat) (x : entry) : Prop := match x with EHist i => i < n | EBook c => c < length B end.
Definition entries_ok (B : books) (n : nat) : Prop := forall b l k x, content_of B b = Some l -> In (k, x) l -> entry_ok B n x.
Lemma entries_valid B n : entries_ok B n -> valid B.
Proof. intros E j l k c Ec I. apply (E _ _ _ _ Ec I). Qed.
Lemma entry_exists B n x : entry_ok B n x -> exists_in B x.
Proof. destruct x; cbn; auto. Qed.
Lemma entry_mono B X n m x : entry_ok B n x -> n <= m -> entry_ok (B ++ X) m x.
Proof. destruct x; cbn; intros; try rewrite app_length; lia. Qed.
Lemma entries_mono B n m : entries_ok B n -> n <= m -> entries_ok B m.
Proof. intros E L b l k x C I. specialize (E _ _ _ _ C I). destruct x; cbn in *; lia. Qed.
Lemma entries_new B n l : entries_ok B n -> (forall k x, In (k, x) l -> entry_ok B n x) -> entries_ok (B ++ [book_of l]) n.
Proof.
  intros E H b l' k x C I. apply entry_mono with (n := n); auto. unfold content_of in C. destruct (Nat.lt_ge_cases b (length B)) as [L|L].
  - rewrite nth_error_app1 in C by auto. eapply E; eauto.
  - rewrite nth_error_app2 in C by auto. destruct (b - length B) as [|q]; [|destruct q; discriminate C]. cbn in C. inversion C; subst. eapply H; eauto.
Qed.
Lemma keys_new B l : keys_ok B -> plain_keys l -> keys_ok (B ++ [book_of l]).
Proof.
  intros K H b l' C. unfold content_of in C. destruct (Nat.lt_ge_cases b (length B)) as [L|L].
  - rewrite nth_error_app1 in C by auto. apply (K b). auto.
  - rewrite nth_error_app2 in C by auto. destruct (b - length B) as [|q]; [|destruct q; discriminate C]. cbn in C. inversion C; subst. auto.
Qed.
Lemma follow_entry B n p : entries_ok B n -> forall x y, entry_ok B n x -> follow B x p = Some y -> entry_ok B n y.
Proof.
  intros H. induction p as [|k p IH]; intros x y E; [cbn; congruence|]. rewrite follow_cons. destruct x as [h|b]; [discriminate|]. unfold look.
  destruct (content_of B b) as [l|] eqn:C; [|discriminate]. destruct (dget k l) as [z|] eqn:D; [|discriminate]. apply IH. eapply H; eauto. apply dget_in. eauto.
Qed.

(** ** A world that any safe history leads to *)
Record sound (W : world) : Prop := {
  so_keys : keys_ok (w_books W);
  so_entries : entries_ok (w_books W) (length (vals W));
  so_loose : loose (w_hists W) }.
(** Everything stored in a book of [R] is in [R]; everything that does not exist yet is in [R]. *)
Definition closed (R : entry -> Prop) (B : books) : Prop := forall b l k x, R (EBook b) -> content_of B b = Some l -> In (k, x) l -> R x.
Definition news (R : entry -> Prop) (W : world) : Prop :=
  (forall i, length (vals W) <= i -> R (EHist i)) /\ (forall b, length (w_books W) <= b -> R (EBook b)).
(** New histograms and new books, which contain only new things. *)
Definition grows (W W' : world) : Prop :=
  (exists X Y, w_books W' = w_books W ++ X /\ vals W' = vals W ++ Y) /\
  forall R, closed R (w_books W) -> news R W -> closed R (w_books W').
Lemma news_mono R W W' : length (vals W) <= length (vals W') -> length (w_books W) <= length (w_books W') -> news R W -> news R W'.
Proof. intros L1 L2 (N1 & N2). split; intros i Hi; [apply N1|apply N2]; lia. Qed.
Lemma grows_refl W : grows W W.
Proof. split; auto. exists [], []. rewrite !app_nil_r. auto. Qed.
Lemma grows_trans W1 W2 W3 : grows W1 W2 -> grows W2 W3 -> grows W1 W3.
Proof.
  intros ((X & Y & E1 & E2) & C1) ((X' & Y' & E3 & E4) & C2). split.
  - exists (X ++ X'), (Y ++ Y'). rewrite E3, E4, E1, E2, !app_assoc. auto.
  - intros R HR N. apply C2; auto. apply (news_mono R W1); auto; rewrite ?E1, ?E2, app_length; lia.
Qed.
Lemma grows_value W W' i h : grows W W' -> nth_error (vals W) i = Some h -> nth_error (vals W') i = Some h.
Proof. intros ((X & Y & _ & ->) & _). apply nth_app_some. Qed.
Lemma grows_len W W' : grows W W' -> length (vals W) <= length (vals W') /\ length (w_books W) <= length (w_books W').
Proof. intros ((X & Y & -> & ->) & _). rewrite !app_length. lia. Qed.
Lemma grows_follow W W' x p : grows W W' -> sound W -> exists_in (w_books W) x -> follow (w_books W') x p = follow (w_books W) x p.
Proof. intros ((X & Y & -> & _) & _) S E. apply follow_more; auto. apply (entries_valid _ _ (so_entries _ S)). Qed.
Lemma vars_vals s : length (s_vars s) = length (HeapSpec.values s).
Proof. unfold HeapSpec.values. rewrite map_length. auto. Qed.

(** One new histogram. *)
Lemma new_hist_ok W o r : sound W -> safe_op (vals W) o -> value_step (vals W) o = new (vals W) r ->
  sound (fst (new_hist W o)) /\ w_books (fst (new_hist W o)) = w_books W /\
  match r with
  | Ok h => snd (new_hist W o) = Ok (EHist (length (vals W))) /\ vals (fst (new_hist W o)) = vals W ++ [h]
  | Err e => snd (new_hist W o) = Err e /\ vals (fst (new_hist W o)) = vals W
  end.
Proof.
  intros [K En L] S V. destruct (loose_step _ _ L S) as (E1 & E2 & L'). fold (vals W) in *. rewrite V in E1, E2. unfold new_hist. destruct (step (w_hists W) o) as [s1 e]. cbn [fst snd] in *.
  assert (VS : vals (with_hists W s1) = fst (new (vals W) r)) by exact E2.
  split; [|split; auto].
  - split; auto. cbn [w_books with_hists]. rewrite VS. eapply entries_mono; eauto. destruct r; cbn [new fst]; [rewrite app_length|]; lia.
  - rewrite vars_vals. fold (vals W). destruct r; cbn [new fst snd] in *; subst e; auto.
Qed.
Lemma new_dict_ok W l : sound W -> plain_keys l -> (forall k x, In (k, x) l -> entry_ok (w_books W) (length (vals W)) x) ->
  new_dict W l = (with_books W (w_books W ++ [book_of l]), Ok (EBook (length (w_books W)))) /\
  sound (with_books W (w_books W ++ [book_of l])).
Proof.
  intros [K En L] P H. unfold new_dict. rewrite fromdicts_plain by auto. split; auto. split; cbn [with_books w_books w_hists]; auto.
  - apply keys_new; auto.
  - apply entries_new; auto.
Qed.

Lemma Forall2_weaken {A B} (P Q : A -> B -> Prop) l l' : (forall a b, P a b -> Q a b) -> Forall2 P l l' -> Forall2 Q l l'.
Proof. intros H F. induction F; constructor; auto. Qed.
Lemma closed_new R B l : closed R B -> (forall k x, In (k, x) l -> R x) -> closed R (B ++ [book_of l]).
Proof.
  intros C H b l' k x Rb E I. rewrite content_app in E. destruct (Nat.eqb b (length B)); [inversion E; subst; eapply H; eauto|eapply C; eauto].
Qed.
Section Derive.
  Variable mk : nat -> op.
  Variable f : hobj -> res hobj.
  Hypothesis Hmk : forall vs i h, nth_error vs i = Some h -> value_step vs (mk i) = new vs (f h).
  (** the histograms for which [mk] is safe, whatever new ones there are *)
  Variable W0 : world.
  Variable ok : nat -> Prop.
  Hypothesis Hok : forall i vs', ok i -> i < length (vals W0) -> safe_op (vals W0 ++ vs') (mk i).
  Hypothesis S0 : sound W0.

  Definition good_entry (x : entry) : Prop := entry_ok (w_books W0) (length (vals W0)) x /\ forall p i, follow (w_books W0) x p = Some (EHist i) -> ok i.
  Definition result (W W' : world) (x y : entry) : Prop :=
    entry_ok (w_books W') (length (vals W')) y /\
    (forall p, match follow (w_books W0) x p with
               | None => follow (w_books W') y p = None
               | Some (EHist i) => exists k h h', follow (w_books W') y p = Some (EHist k) /\ length (vals W) <= k < length (vals W') /\
                                     nth_error (vals W0) i = Some h /\ nth_error (vals W') k = Some h' /\ f h = Ok h'
               | Some (EBook _) => exists d, follow (w_books W') y p = Some (EBook d) /\ length (w_books W) <= d < length (w_books W')
               end) /\
    (forall p q z, follow (w_books W') y p = Some z -> follow (w_books W') y q = Some z -> p = q).
  Definition fresh_entry (W W' : world) (z : entry) : Prop :=
    match z with EHist k => length (vals W) <= k < length (vals W') | EBook d => length (w_books W) <= d < length (w_books W') end.
  Lemma result_fresh W W' x y p z : result W W' x y -> follow (w_books W') y p = Some z -> fresh_entry W W' z.
  Proof.
    intros (_ & R & _) E. specialize (R p). destruct (follow (w_books W0) x p) as [[i|c]|]; [| |congruence].
    - destruct R as (k & h & h' & Ek & Hk & _). rewrite E in Ek. inversion Ek; subst. cbn. auto.
    - destruct R as (d & Ed & Hd). rewrite E in Ed. inversion Ed; subst. cbn. auto.
  Qed.
  Lemma result_grow W W1 W2 W3 x y : grows W W1 -> sound W2 -> grows W2 W3 -> result W1 W2 x y -> result W W3 x y.
  Proof.
    intros G1 S2 G2 (O & R & J). assert (L1 := grows_len _ _ G1). assert (L2 := grows_len _ _ G2).
    assert (Fw : forall p, follow (w_books W3) y p = follow (w_books W2) y p) by (intros p; apply grows_follow; auto; eapply entry_exists; eauto).
    split; [destruct y; cbn in *; lia|]. split.
    - intros p. specialize (R p). rewrite Fw. destruct (follow (w_books W0) x p) as [[i|c]|]; auto.
      + destruct R as (k & h & h' & E & L & E1 & E2 & E3). exists k, h, h'. split; auto. split; [lia|]. split; auto. split; auto. eapply grows_value; eauto.
      + destruct R as (d & E & L). exists d. split; auto. lia.
    - intros p q z. rewrite !Fw. apply J.
  Qed.

  (** The new histograms are results of [f]. *)
  Definition made_by_f (W W' : world) : Prop := forall k h', length (vals W) <= k -> nth_error (vals W') k = Some h' -> exists i h, ok i /\ nth_error (vals W0) i = Some h /\ f h = Ok h'.
  Lemma made_refl W : made_by_f W W.
  Proof. intros k h' L E. assert (k < length (vals W)) by (apply nth_error_Some; congruence). lia. Qed.
  Lemma made_trans W1 W2 W3 : grows W2 W3 -> made_by_f W1 W2 -> made_by_f W2 W3 -> made_by_f W1 W3.
  Proof.
    intros ((X & Y & _ & E) & _) H1 H2 k h' L E'. destruct (Nat.lt_ge_cases k (length (vals W2))) as [Lk|Lk]; [|eapply H2; eauto].
    apply (H1 k); auto. rewrite E, nth_error_app1 in E'; auto.
  Qed.
  Definition items_result (W W' : world) (l l' : list (string * entry)) : Prop :=
    Forall2 (fun a b => fst a = fst b /\ result W W' (snd a) (snd b)) l l' /\
    (forall n1 y1 n2 y2 p q z, In (n1, y1) l' -> In (n2, y2) l' -> follow (w_books W') y1 p = Some z -> follow (w_books W') y2 q = Some z -> n1 = n2 /\ p = q).

  Lemma derive_items_ok m :
    (forall W b W' r, sound W -> grows W0 W -> good_entry (EBook b) -> derive m mk W b = (W', r) ->
       sound W' /\ grows W W' /\ made_by_f W W' /\ (forall y, r = Ok y -> result W W' (EBook b) y)) ->
    forall l W W' r, sound W -> grows W0 W -> NoDup (map fst l) -> (forall n x, In (n, x) l -> good_entry x) ->
      derive_items (derive m mk) mk W l = (W', r) ->
      sound W' /\ grows W W' /\ made_by_f W W' /\ (forall l', r = Ok l' -> items_result W W' l l').
  Proof.
    intros IH. induction l as [|(n, x) l IHl]; intros W W' r S G Nd Hl E; cbn [derive_items] in E; fold (derive_items (derive m mk) mk) in E.
    - inversion E; subst. split; auto. split; [apply grows_refl|]. split; [apply made_refl|]. intros l' Er. inversion Er; subst. split; [constructor|]. intros n1 y1 n2 y2 p q z [].
    - cbn [map fst] in Nd. inversion Nd as [|? ? Nn Nd']; subst.
      assert (Step : forall W1 r1, (match x with EHist i => new_hist W (mk i) | EBook c => derive m mk W c end) = (W1, r1) ->
                sound W1 /\ grows W W1 /\ made_by_f W W1 /\ (forall y, r1 = Ok y -> result W W1 x y)).
      { intros W1 r1 E1. destruct (Hl n x (or_introl eq_refl)) as (Ox & Gx). destruct x as [i|c].
        - cbn in Ox. destruct (nth_error (vals W0) i) as [h|] eqn:Eh; [|apply nth_error_None in Eh; lia].
          assert (SO : safe_op (vals W) (mk i)) by (destruct G as ((X & Y & _ & ->) & _); apply Hok; auto; apply (Gx []); auto).
          destruct (new_hist_ok W (mk i) (f h) S SO (Hmk _ _ _ (grows_value _ _ _ _ G Eh))) as (S1 & B1 & R1). rewrite E1 in *. cbn [fst snd] in *.
          destruct (f h) as [h'|e] eqn:Ef.
          + destruct R1 as (-> & V1). split; auto. split; [split; [exists [], [h']; rewrite app_nil_r; auto|rewrite B1; auto]|].
            split; [intros k h2 Lk; rewrite V1, nth_app; destruct (Nat.eqb_spec k (length (vals W))); [intros E2; inversion E2; subst; exists i, h; split; auto; apply (Gx []); auto|intros E2; assert (k < length (vals W)) by (apply nth_error_Some; congruence); lia]|]. intros y Ey. inversion Ey; subst y.
            assert (LL : length (vals W1) = Datatypes.S (length (vals W))) by (rewrite V1, app_length; cbn; lia). split; [cbn; lia|]. split.
            * intros [|k p]; cbn [follow]; auto. exists (length (vals W)), h, h'. split; auto. split; [lia|]. split; auto. split; auto. rewrite V1, nth_app, Nat.eqb_refl. auto.
            * intros [|k p] [|k' q] z; cbn [follow]; auto; discriminate.
          + destruct R1 as (-> & V1). split; auto. split; [split; [exists [], []; rewrite !app_nil_r; auto|rewrite B1; auto]|].
            split; [unfold made_by_f; rewrite V1; apply made_refl|]. intros y Ey. discriminate.
        - eapply IH; eauto. split; auto. }
      destruct (match x with EHist i => new_hist W (mk i) | EBook c => derive m mk W c end) as [W1 [y|e]] eqn:E1.
      2:{ inversion E; subst. destruct (Step _ _ eq_refl) as (S1 & G1 & Mk1 & _). split; auto. split; auto. split; auto. intros l' Er. discriminate. }
      destruct (Step _ _ eq_refl) as (S1 & G1 & Mk1 & R1). specialize (R1 y eq_refl).
      assert (G01 := grows_trans _ _ _ G G1).
      destruct (derive_items (derive m mk) mk W1 l) as [W2 [l2|e]] eqn:E2; inversion E; subst; clear E;
        (destruct (IHl _ _ _ S1 G01 Nd' (fun n x I => Hl n x (or_intror I)) E2) as (S2 & G2 & Mk2 & R2); split; auto; split; [eapply grows_trans; eauto|]; split; [eapply made_trans; eauto|]); intros l' Er; inversion Er; subst l'.
      destruct (R2 l2 eq_refl) as (F2 & J2). assert (Fw : forall p, follow (w_books W') y p = follow (w_books W1) y p) by (intros p; apply grows_follow; auto; eapply entry_exists; apply R1).
      assert (Fr2 : forall n2 y2 q z, In (n2, y2) l2 -> follow (w_books W') y2 q = Some z -> fresh_entry W1 W' z).
      { intros n2 y2 q z I2 E. clear - F2 I2 E. induction F2 as [|a b l l' (_ & R) F IH]; [destruct I2|]. destruct I2 as [->|I2]; auto. eapply result_fresh; eauto. }
      split.
      + constructor; [split; auto; cbn [snd]; exact (result_grow W W W1 W' x y (grows_refl W) S1 G2 R1)|].
        eapply Forall2_weaken; [|exact F2]. cbn. intros a b (En & R). split; auto. exact (result_grow W W1 W' W' _ _ G1 S2 (grows_refl W') R).
      + assert (NO : forall p q z n2 y2, follow (w_books W') y p = Some z -> In (n2, y2) l2 -> follow (w_books W') y2 q = Some z -> False).
        { intros p q z n2 y2 E1' I2 E2'. rewrite Fw in E1'. assert (A := result_fresh _ _ _ _ _ _ R1 E1'). assert (C := Fr2 _ _ _ _ I2 E2'). destruct z; cbn in A, C; lia. }
        intros n1 y1 n2 y2 p q z [I1|I1] [I2|I2] E1' E2'.
        * inversion I1; inversion I2; subst. split; auto. rewrite Fw in E1', E2'. eapply R1; eauto.
        * inversion I1; subst. destruct (NO _ _ _ _ _ E1' I2 E2').
        * inversion I2; subst. destruct (NO _ _ _ _ _ E2' I1 E1').
        * eapply J2; eauto.
  Qed.
  Lemma items_names W W' l l' : items_result W W' l l' -> map fst l' = map fst l.
  Proof. intros (F & _). induction F as [|a b l l' (E & _) F IH]; cbn [map]; congruence. Qed.
  Lemma derive_ok m : forall W b W' r, sound W -> grows W0 W -> good_entry (EBook b) -> derive m mk W b = (W', r) ->
       sound W' /\ grows W W' /\ made_by_f W W' /\ (forall y, r = Ok y -> result W W' (EBook b) y).
  Proof.
    induction m as [|m IH]; intros W b W' r S G Hb E; cbn [derive] in E.
    - inversion E; subst. split; auto. split; [apply grows_refl|]. split; [apply made_refl|]. discriminate.
    - change (content_or (w_books W) b) with (content_of (w_books W) b) in E. destruct Hb as (Ob & Gb). cbn in Ob.
      assert (Cb : content_of (w_books W) b = content_of (w_books W0) b) by (destruct G as ((X & Y & -> & _) & _); apply content_app_old; auto). rewrite Cb in E.
      destruct (content_of (w_books W0) b) as [l|] eqn:Cl; [|inversion E; subst; split; auto; split; [apply grows_refl|]; split; [apply made_refl|discriminate]].
      destruct (so_keys _ S0 _ _ Cl) as (Nd & Pk).
      assert (Hl : forall n x, In (n, x) l -> good_entry x).
      { intros n x I. split; [eapply (so_entries _ S0); eauto|]. intros p i Ep. apply (Gb (n :: p)). rewrite follow_cons. unfold look. rewrite Cl, (in_dget n l x); auto. }
      destruct (derive_items (derive m mk) mk W l) as [W1 [l'|e]] eqn:E1; destruct (derive_items_ok m IH l W W1 _ S G Nd Hl E1) as (S1 & G1 & Mk1 & R1).
      2:{ inversion E; subst. split; auto. split; auto. split; auto. discriminate. }
      specialize (R1 l' eq_refl). assert (Nm := items_names _ _ _ _ R1). destruct R1 as (F1 & J1).
      assert (Pl : plain_keys l') by (unfold plain_keys; rewrite Nm; auto).
      assert (Oe : forall k x, In (k, x) l' -> entry_ok (w_books W1) (length (vals W1)) x).
      { intros k x I. clear - F1 I. induction F1 as [|a c l l' (_ & R) F IH]; [destruct I|]. destruct I as [->|I]; auto. apply R. }
      destruct (new_dict_ok W1 l' S1 Pl Oe) as (E2 & S2). rewrite E2 in E. inversion E; subst W' r. clear E.
      assert (Fr : forall k x, In (k, x) l' -> fresh_entry W W1 x).
      { intros k x I. clear - F1 I. induction F1 as [|a c l l' (_ & R) F IH]; [destruct I|]. destruct I as [->|I]; auto. apply (result_fresh W W1 (snd a) x [] x R eq_refl). }
      assert (GG : grows W (with_books W1 (w_books W1 ++ [book_of l']))).
      { destruct G1 as ((X & Y & E1' & E2') & C1). split.
        - exists (X ++ [book_of l']), Y. cbn [w_books with_books]. rewrite E1', app_assoc. auto.
        - intros R HR Nw. apply closed_new; auto. intros k x I. apply Fr in I. destruct x; apply Nw; cbn in I; lia. }
      split; auto. split; auto. split; [exact Mk1|]. intros y Ey. inversion Ey; subst y. clear Ey.
      set (B2 := w_books W1 ++ [book_of l']) in *. assert (LB := grows_len _ _ G1).
      assert (LB2 : length B2 = Datatypes.S (length (w_books W1))) by (unfold B2; rewrite app_length; cbn; lia).
      assert (Lk : forall k p, follow B2 (EBook (length (w_books W1))) (k :: p) = match dget k l' with Some z => follow (w_books W1) z p | None => None end).
      { intros k p. rewrite follow_cons. unfold look, content_of, B2. rewrite nth_last. cbn [option_map b_content book_of]. destruct (dget k l') as [z|] eqn:D; auto.
        apply follow_more; [apply (entries_valid _ _ (so_entries _ S1))|]. eapply entry_exists. eapply Oe. apply dget_in. eauto. }
      assert (Dg : forall k, match dget k l with None => dget k l' = None | Some x => exists z, dget k l' = Some z /\ result W W1 x z end).
      { intros k. clear - F1. induction F1 as [|(n, x) (n', z) l l' (En & R) F IH]; cbn [dget]; auto. cbn in En, R. subst n'. destruct (String.eqb k n); eauto. }
      split; [cbn; cbn [with_books w_books]; lia|]. cbn [with_books w_books]. fold B2. split.
      + intros [|k p]; [cbn [follow]; exists (length (w_books W1)); split; auto; lia|]. rewrite Lk, follow_cons. unfold look. rewrite Cl. specialize (Dg k).
        destruct (dget k l) as [x|]; [|rewrite Dg; auto]. destruct Dg as (z & -> & R). destruct (result_grow W W W1 W1 x z (grows_refl _) S1 (grows_refl _) R) as (_ & R' & _). specialize (R' p).
        destruct (follow (w_books W0) x p) as [[i|c]|]; auto. destruct R' as (d & Ed & Ld). exists d. split; auto. lia.
      + assert (Top : forall k p, follow B2 (EBook (length (w_books W1))) (k :: p) <> Some (EBook (length (w_books W1)))).
        { intros k p. rewrite Lk. destruct (dget k l') as [z|] eqn:D; [|discriminate]. intros Ez. assert (O := follow_entry _ _ p (so_entries _ S1) z _ (Oe _ _ (dget_in _ _ _ D)) Ez). cbn in O. lia. }
        intros [|k p] [|k' q] z; auto.
        * cbn [follow]. intros E. inversion E; subst z. intros C. destruct (Top _ _ C).
        * cbn [follow]. intros C E. inversion E; subst z. destruct (Top _ _ C).
        * rewrite !Lk. destruct (dget k l') as [y1|] eqn:D1; [|discriminate]. destruct (dget k' l') as [y2|] eqn:D2; [|discriminate]. intros E1' E2'.
          destruct (J1 _ _ _ _ _ _ _ (dget_in _ _ _ D1) (dget_in _ _ _ D2) E1' E2') as (-> & ->). auto.
  Qed.
End Derive.
