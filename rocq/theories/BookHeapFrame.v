(** Books and sharing, part 3: an action changes nothing but what its arguments lead to. *)
From Coq Require Import String.
From Verif Require Import Base Num Axis Calc Content Fill HistAlg AlgSpec HistAlgProofs HistAlgMain Heap HeapSpec HeapProofs HeapAdd HeapMain HeapMain2
  Tree Instr Elem HistFill Glob Book BookSpec BookProofs BookPaths BookIter BookFill BookHeap BookHeapSpec BookHeapProofs BookHeapAdd.
Local Open Scope string_scope.
Local Open Scope list_scope.

Definition framed (R : entry -> Prop) (W : world) : Prop := sound W /\ closed R (w_books W) /\ news R W.
(** What is not in [R] is unchanged. *)
Record kept (R : entry -> Prop) (W W' : world) : Prop := {
  k_value : forall i h, ~ R (EHist i) -> nth_error (vals W) i = Some h -> nth_error (vals W') i = Some h;
  k_content : forall b l, ~ R (EBook b) -> content_of (w_books W) b = Some l -> content_of (w_books W') b = Some l;
  k_hists : length (vals W) <= length (vals W');
  k_books : length (w_books W) <= length (w_books W') }.
Definition frame (R : entry -> Prop) (W W' : world) : Prop := framed R W' /\ kept R W W'.
Lemma kept_refl R W : kept R W W.
Proof. split; auto. Qed.
Lemma kept_trans R W1 W2 W3 : kept R W1 W2 -> kept R W2 W3 -> kept R W1 W3.
Proof. intros [A B C D] [A' B' C' D']. split; intros; eauto; lia. Qed.
Lemma frame_refl R W : framed R W -> frame R W W.
Proof. intros F. split; auto. apply kept_refl. Qed.
Lemma frame_trans R W1 W2 W3 : frame R W1 W2 -> frame R W2 W3 -> frame R W1 W3.
Proof. intros (_ & K1) (F & K2). split; auto. eapply kept_trans; eauto. Qed.

Lemma more_kept R W W' : more W W' -> kept R W W'.
Proof.
  intros M. assert (L := more_len _ _ M). split; try lia.
  - intros i h _. apply more_value. auto.
  - intros b l _ E. rewrite (more_content W W'); auto. apply content_some. eauto.
Qed.
Lemma more_frame R W W' : framed R W -> sound W' -> more W W' -> closed R (w_books W') -> frame R W W'.
Proof.
  intros (S & C & N) S' M C'. split; [|apply more_kept; auto]. split; auto. split; auto. assert (L := more_len _ _ M). apply (news_mono R W); tauto.
Qed.
Lemma grows_frame R W W' : framed R W -> sound W' -> grows W W' -> frame R W W'.
Proof. intros F S' G. apply more_frame; auto; [apply grows_more; auto|]. apply G; apply F. Qed.

Lemma follow_closed R B p : closed R B -> forall x y, R x -> follow B x p = Some y -> R y.
Proof.
  intros C. induction p as [|k p IH]; intros x y Rx; [cbn; congruence|]. rewrite follow_cons. destruct x as [h|b]; [discriminate|]. unfold look.
  destruct (content_of B b) as [l|] eqn:E; [|discriminate]. destruct (dget k l) as [z|] eqn:D; [|discriminate]. apply IH. eapply C; eauto. apply dget_in. eauto.
Qed.

(** ** Changes of books *)
Lemma books_frame R W B' : framed R W -> keys_ok B' -> entries_ok B' (length (vals W)) -> closed R B' ->
  (forall b l, ~ R (EBook b) -> content_of (w_books W) b = Some l -> content_of B' b = Some l) -> length (w_books W) <= length B' ->
  frame R W (with_books W B').
Proof.
  intros ([K E L] & C & N) K' E' C' H Len. split.
  - split; [split; auto|]. split; auto. apply (news_mono R W); auto.
  - split; auto.
Qed.
Lemma placed_cases B B' i k rest v : placed B B' i k rest v -> forall j l', content_of B' j = Some l' -> j = i \/ (j <> i /\ content_of B j = Some l') \/
            exists m r, nth_error rest m = Some r /\ m < length rest /\ j = length B + m /\ l' = [(r, if Nat.eqb (S m) (length rest) then v else EBook (length B + S m))].
Proof.
  intros [L O (l & H1 & H2 & H3) C] j l' E. destruct (Nat.eq_dec j i); auto. right. destruct (Nat.lt_ge_cases j (length B)) as [Lj|Lj].
  - left. rewrite O in E; auto.
  - right. assert (Lj' : j < length B') by (apply content_some; eauto). rewrite L in Lj'.
    destruct (nth_error rest (j - length B)) as [r|] eqn:Er; [|apply nth_error_None in Er; lia].
    exists (j - length B), r. split; auto. split; [lia|]. split; [lia|]. specialize (C _ _ Er). replace (length B + (j - length B)) with j in C by lia. congruence.
Qed.
Lemma set_frame R W b name x : framed R W -> R (EBook b) -> R x -> entry_ok (w_books W) (length (vals W)) x ->
  frame R W (with_books W (fst (setitem (w_books W) b name x))).
Proof.
  intros F Rb Rx Ox. assert (F' := F). destruct F as (S & C & N). destruct S as [K E L].
  assert (V := entries_valid _ _ E). destruct (setitem_ok (w_books W) b name x V K (entry_exists _ _ _ Ox)) as (_ & K').
  destruct (Nat.lt_ge_cases b (length (w_books W))) as [Lb|Lb].
  2:{ unfold setitem. rewrite set_n_out by auto. cbn [fst]. apply books_frame; auto. }
  unfold setitem in *. destruct (set_n (String.length name) (w_books W) b name x) as [B' e] eqn:Es. cbn [fst] in *.
  destruct (set_n_placed _ _ _ _ _ _ _ V Lb (le_n _) Es) as [(-> & d & k & rest & i & Ec & Ei & P)|(-> & -> & _)].
  2:{ apply books_frame; auto. }
  assert (Ri : R (EBook i)) by exact (follow_closed R _ d C _ _ Rb Ei).
  assert (Cs := placed_cases _ _ _ _ _ _ P). destruct P as [PL PO (l & H1 & H2 & H3) PC].
  apply books_frame; auto.
  - intros j l' k' y Ej I. destruct (Cs j l' Ej) as [->|[(_ & E')|(m & r & Er & Lm & -> & ->)]].
    + rewrite H3 in Ej. inversion Ej; subst l'. apply in_dset in I. destruct I as [(_ & ->)|I].
      * destruct rest as [|r rest]; [destruct x; cbn in *; lia|]. cbn. rewrite PL. cbn [length]. lia.
      * assert (O := E _ _ _ _ H1 I). destruct y; cbn in *; lia.
    + assert (O := E _ _ _ _ E' I). destruct y; cbn in *; lia.
    + destruct I as [I|[]]. destruct (Nat.eqb_spec (Datatypes.S m) (length rest)); inversion I; subst; [destruct y; cbn in *; lia|cbn; lia].
  - intros j l' k' y Rj Ej I. destruct (Cs j l' Ej) as [->|[(_ & E')|(m & r & Er & Lm & -> & ->)]].
    + rewrite H3 in Ej. inversion Ej; subst l'. apply in_dset in I. destruct I as [(_ & ->)|I].
      * destruct rest as [|r rest]; auto. apply N. auto.
      * eapply C; eauto.
    + eapply C; eauto.
    + destruct I as [I|[]]. destruct (Nat.eqb_spec (Datatypes.S m) (length rest)); inversion I; subst; auto. apply N. lia.
  - intros j l' NR Ej. rewrite PO; auto; [intros ->; contradiction|]. apply content_some. eauto.
  - lia.
Qed.
Lemma del_frame R W b name : framed R W -> R (EBook b) -> frame R W (with_books W (fst (del_ (w_books W) b name))).
Proof.
  intros F Rb. assert (F' := F). destruct F as (S & C & N). destruct S as [K E L].
  assert (V := entries_valid _ _ E). destruct (del_ok (w_books W) b name V K) as (_ & K').
  destruct (Nat.lt_ge_cases b (length (w_books W))) as [Lb|Lb].
  2:{ unfold del_. rewrite del_n_out by auto. cbn [fst]. apply books_frame; auto. }
  unfold del_ in *. destruct (del_n (String.length name) (w_books W) b name) as [B' e] eqn:Es. cbn [fst] in *.
  destruct (del_n_removed _ _ _ _ _ _ V K Lb (le_n _) Es) as [(-> & d & k & i & Ec & Ei & P)|(-> & -> & _)].
  2:{ apply books_frame; auto. }
  assert (Ri : R (EBook i)) by exact (follow_closed R _ d C _ _ Rb Ei). destruct P as [PL PO (l & x & H1 & H2 & H3)].
  assert (Cs : forall j l' k' y, content_of B' j = Some l' -> In (k', y) l' -> exists l0, content_of (w_books W) j = Some l0 /\ In (k', y) l0).
  { intros j l' k' y Ej I. destruct (Nat.eq_dec j i) as [->|Nj]; [rewrite H3 in Ej; inversion Ej; subst; exists l; split; auto; eapply in_ddel; eauto|rewrite PO in Ej; eauto]. }
  apply books_frame; auto; try lia.
  - intros j l' k' y Ej I. destruct (Cs _ _ _ _ Ej I) as (l0 & E0 & I0). assert (O := E _ _ _ _ E0 I0). destruct y; cbn in *; lia.
  - intros j l' k' y Rj Ej I. destruct (Cs _ _ _ _ Ej I) as (l0 & E0 & I0). eapply C; eauto.
  - intros j l' NR Ej. rewrite PO; auto. intros ->. contradiction.
Qed.
Lemma with_books_twice W B B' : with_books (with_books W B) B' = with_books W B'.
Proof. reflexivity. Qed.
Lemma del_all_frame R names : forall W b, framed R W -> R (EBook b) -> frame R W (with_books W (fst (del_all (w_books W) b names))).
Proof.
  induction names as [|n names IH]; intros W b F Rb; cbn [del_all]; [destruct W; apply frame_refl; auto|].
  assert (D := del_frame R W b n F Rb). destruct (del_ (w_books W) b n) as [B1 [e|]]; cbn [fst] in *; auto.
  assert (D2 := IH (with_books W B1) b (proj1 D) Rb). rewrite with_books_twice in D2. eapply frame_trans; eauto.
Qed.
Lemma delitem_frame R W limit b name : framed R W -> R (EBook b) -> frame R W (with_books W (fst (delitem limit (w_books W) b name))).
Proof.
  intros F Rb. unfold delitem. destruct (wild name); [|apply del_frame; auto]. destruct (keys limit true false (w_books W) b); [apply del_all_frame; auto|].
  destruct W. apply frame_refl. auto.
Qed.
Lemma new_book_frame R W : framed R W -> frame R W (with_books W (w_books W ++ [empty_book])).
Proof.
  intros F. assert (F' := F). destruct F as ([K E L] & C & N). change empty_book with (book_of []). apply books_frame; auto.
  - apply keys_new; auto. split; [constructor|intros k []].
  - apply entries_new; auto. intros k x [].
  - apply closed_new; auto. intros k x [].
  - intros b l _ Eb. rewrite content_app_old; auto. apply content_some. eauto.
  - rewrite app_length. lia.
Qed.
Lemma assign_frame R l : forall W b, framed R W -> R (EBook b) -> (forall n x, In (n, x) l -> R x /\ entry_ok (w_books W) (length (vals W)) x) ->
  frame R W (with_books W (fst (assign_all (w_books W) b l))).
Proof.
  induction l as [|(n, x) l IH]; intros W b F Rb Hl; cbn [assign_all]; [destruct W; apply frame_refl; auto|].
  destruct (Hl n x (or_introl eq_refl)) as (Rx & Ox). assert (D := set_frame R W b n x F Rb Rx Ox). destruct (setitem (w_books W) b n x) as [B1 [e|]]; cbn [fst] in *; auto.
  assert (D2 := IH (with_books W B1) b (proj1 D) Rb). rewrite with_books_twice in D2. eapply frame_trans; [exact D|]. apply D2.
  intros n' x' I. destruct (Hl n' x' (or_intror I)) as (Rx' & Ox'). split; auto. assert (LB := k_books _ _ _ (proj2 D)). cbn [w_books with_books vals] in *.
  change (vals (with_books W B1)) with (vals W). destruct x'; cbn in *; lia.
Qed.
Lemma dict_frame R W l : framed R W -> (forall n x, In (n, x) l -> R x /\ entry_ok (w_books W) (length (vals W)) x) ->
  frame R W (fst (new_dict W l)) /\ vals (fst (new_dict W l)) = vals W /\
  forall y, snd (new_dict W l) = Ok y -> y = EBook (length (w_books W)) /\ length (w_books W) < length (w_books (fst (new_dict W l))).
Proof.
  intros F Hl. unfold new_dict, fromdicts. cbn [new_book]. assert (D := new_book_frame R W F). assert (Nw : R (EBook (length (w_books W)))) by (apply F; auto).
  assert (L0 : length (w_books W ++ [empty_book]) = Datatypes.S (length (w_books W))) by (rewrite app_length; cbn; lia).
  assert (D2 := assign_frame R l (with_books W (w_books W ++ [empty_book])) (length (w_books W)) (proj1 D) Nw). cbn [w_books with_books] in D2. rewrite with_books_twice in D2.
  assert (D3 : frame R (with_books W (w_books W ++ [empty_book])) (with_books W (fst (assign_all (w_books W ++ [empty_book]) (length (w_books W)) l)))).
  { apply D2. intros n x I. destruct (Hl n x I) as (Rx & Ox). split; auto. change (vals (with_books W (w_books W ++ [empty_book]))) with (vals W). destruct x; cbn in *; lia. }
  assert (L := k_books _ _ _ (proj2 D3)). cbn [w_books with_books] in L.
  destruct (assign_all (w_books W ++ [empty_book]) (length (w_books W)) l) as [B2 [e|]]; cbn [fst snd rmap] in *;
    (split; [eapply frame_trans; eauto|]; split; [reflexivity|]); intros y Ey; inversion Ey. split; auto. cbn [with_books w_books]. lia.
Qed.

(** ** Changes of histograms *)
Lemma value_step_length vs o : length vs <= length (fst (value_step vs o)).
Proof.
  assert (ON : forall i f, length vs <= length (fst (on vs i f))) by (intros; rewrite on_length; auto).
  assert (NW : forall r, length vs <= length (fst (new vs r))) by (intros [h|e]; cbn [new fst]; rewrite ?app_length; lia).
  destruct o; cbn [value_step]; auto. destruct (get_var vs j); auto.
Qed.
Lemma hist_frame R W o : framed R W -> safe_op (vals W) o -> (forall i, target o = Some i -> R (EHist i)) ->
  frame R W (with_hists W (fst (step (w_hists W) o))) /\
  vals (with_hists W (fst (step (w_hists W) o))) = fst (value_step (vals W) o) /\ snd (step (w_hists W) o) = snd (value_step (vals W) o).
Proof.
  intros ([K E L] & C & N) S T. destruct (loose_step _ _ L S) as (E1 & E2 & L'). fold (vals W) in E1, E2.
  assert (V : vals (with_hists W (fst (step (w_hists W) o))) = fst (value_step (vals W) o)) by exact E2.
  assert (Ln := value_step_length (vals W) o). split; [|auto]. split.
  - split; [split; auto|]. { rewrite V. eapply entries_mono; eauto. } split; auto. apply (news_mono R W); auto. rewrite V. auto.
  - split; auto; rewrite V; auto. intros i h NR Ei. apply value_step_keeps; auto.
Qed.
(** Operations that need only know the number of group axes. *)
Definition steady (vs : list hobj) (o : op) : Prop :=
  match o with
  | OIMul _ _ | OClear _ => True
  | OPart i f => forall h, nth_error vs i = Some h -> is_filler (ngroups h) f
  | _ => False
  end.
Lemma steady_safe vs o : steady vs o -> safe_op vs o.
Proof. destruct o; cbn; try tauto. destruct (nth_error vs i); auto. Qed.
Lemma on_groups vs i f j h' : (forall h, ngroups (fst (f h)) = ngroups h) -> nth_error (fst (on vs i f)) j = Some h' ->
  exists h, nth_error vs j = Some h /\ ngroups h = ngroups h'.
Proof.
  intros G. unfold on. destruct (nth_error vs i) as [h|] eqn:E; [|cbn [fst]; eauto]. specialize (G h). destruct (f h) as [h1 e]. cbn [fst] in *.
  destruct (Nat.eq_dec i j) as [<-|Nj]; [rewrite (nth_set_same _ _ _ _ E); intros E'; inversion E'; subst; eauto|rewrite nth_set_other; eauto].
Qed.
Lemma steady_groups vs o j h' : steady vs o -> nth_error (fst (value_step vs o)) j = Some h' -> exists h, nth_error vs j = Some h /\ ngroups h = ngroups h'.
Proof.
  destruct o; cbn [steady]; try tauto; intros _; cbn [value_step]; apply on_groups; intros h.
  - unfold hist_imul. destruct (content_imul v (o_content h)). auto.
  - auto.
  - destruct (f (o_content h)). auto.
Qed.
Lemma steady_step vs o o' : steady vs o -> steady vs o' -> steady (fst (value_step vs o)) o'.
Proof.
  intros S. destruct o' as [| | | | | | | | | |i f|i f|i p b]; cbn [steady]; auto. intros H h' E. destruct (steady_groups _ _ _ _ S E) as (h & Eh & <-). auto.
Qed.
Fixpoint value_until (vs : list hobj) (os : list op) : list hobj * option err :=
  match os with
  | [] => (vs, None)
  | o :: t => let '(v1, e) := value_step vs o in match e with None => value_until v1 t | Some e => (v1, Some e) end
  end.
Lemma until_frame R os : forall W, framed R W -> Forall (steady (vals W)) os -> Forall (fun o => exists i, target o = Some i /\ R (EHist i)) os ->
  frame R W (with_hists W (fst (run_until (w_hists W) os))) /\ (vals (with_hists W (fst (run_until (w_hists W) os))), snd (run_until (w_hists W) os)) = value_until (vals W) os.
Proof.
  induction os as [|o os IH]; intros W F S T; cbn [run_until value_until]; [destruct W; split; auto; apply frame_refl; auto|].
  inversion S as [|? ? So S']; subst. inversion T as [|? ? (i & Ti & Ri) T']; subst.
  destruct (hist_frame R W o F (steady_safe _ _ So)) as (Fr & V & Er); [intros j Tj; congruence|].
  destruct (step (w_hists W) o) as [s1 e]. cbn [fst snd] in *. destruct (value_step (vals W) o) as [v1 e1] eqn:Ev. cbn [fst snd] in *. subst v1 e1.
  destruct e as [e|]; [split; auto|].
  destruct (IH (with_hists W s1) (proj1 Fr)) as (F2 & V2); auto.
  - rewrite Forall_forall in *. intros o' I. replace (vals (with_hists W s1)) with (fst (value_step (vals W) o)) by (rewrite Ev; auto). apply steady_step; auto.
  - split; [eapply frame_trans; eauto|]. exact V2.
Qed.

(** The histograms of a book are those at its paths. *)
Lemma hists_below limit B b ids : keys_ok B -> book_hists limit B b = Ok ids -> forall i, In i ids <-> exists p, at_path B b p = Some (EHist i).
Proof.
  intros K E i. unfold book_hists, values in E. rewrite items_walk in E. destruct (walk limit B b) as [L|] eqn:Ew; [|discriminate]. cbn [rmap] in E. inversion E; subst ids; clear E.
  destruct (walk_lists limit B b L K Ew) as (H & _). unfold hist_ids. rewrite in_flat_map. split.
  - intros (x & Ix & Ii). destruct x as [h|c]; [|destruct Ii]. destruct Ii as [->|[]]. apply in_map_iff in Ix. destruct Ix as ((n, x) & E & Ix). cbn in E. subst x.
    unfold pick in Ix. apply filter_In in Ix. destruct Ix as (Ix & _). apply in_map_iff in Ix. destruct Ix as ((p, x) & E & Ix). cbn in E. inversion E; subst. apply H in Ix. exists p. tauto.
  - intros (p & Ep). exists (EHist i). split; [|left; auto]. assert (Ip : In (p, EHist i) L) by (apply H; split; auto; intros ->; discriminate).
    apply in_map_iff. exists (path_name p, EHist i). split; auto. unfold pick. apply filter_In. split; [|auto]. apply in_map_iff. exists (p, EHist i). auto.
Qed.
Lemma on_hists_frame R W limit b os : framed R W -> R (EBook b) ->
  (forall ids, book_hists limit (w_books W) b = Ok ids -> Forall (steady (vals W)) (os ids) /\ Forall (fun o => exists i, target o = Some i /\ In i ids) (os ids)) ->
  frame R W (fst (on_hists limit W b os)) /\
  match book_hists limit (w_books W) b with
  | Ok ids => (vals (fst (on_hists limit W b os)), snd (on_hists limit W b os)) = value_until (vals W) (os ids)
  | Err e => fst (on_hists limit W b os) = W /\ snd (on_hists limit W b os) = Some e
  end.
Proof.
  intros F Rb H. unfold on_hists. destruct (book_hists limit (w_books W) b) as [ids|e] eqn:E; [|cbn [fst snd]; split; auto; apply frame_refl; auto].
  destruct (H ids eq_refl) as (S & T). destruct (until_frame R (os ids) W F S) as (F1 & V1).
  - eapply Forall_impl; [|exact T]. intros o (i & Ti & Ii). exists i. split; auto. apply (hists_below limit _ b ids (so_keys _ (proj1 F)) E) in Ii. destruct Ii as (p & Ep).
    eapply follow_closed; [apply F|exact Rb|exact Ep].
  - destruct (run_until (w_hists W) (os ids)) as [s1 e]. cbn [fst snd] in *. auto.
Qed.
