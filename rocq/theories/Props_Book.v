(** Properties of books as collections: C45 (storing), C46 (deleting), C47 (patterns, iteration). *)
From Coq Require Import String Ascii Sorted.
From Verif Require Import Base Glob Book BookSpec GlobProofs BookProofs BookPaths BookIter.
Local Open Scope string_scope.
Local Open Scope list_scope.

Lemma getitem_plain limit B b name : built B -> wild name = false ->
  getitem limit B b name = match at_path B b (components name) with Some x => Ok (One x) | None => Err KeyError end.
Proof. intros H W. destruct (built_ok B H) as (Hv & K). unfold getitem. rewrite W, get_path; auto. Qed.
Lemma wild_join a r : wild (a ++ String "/" r) = wild a || wild r.
Proof.
  unfold wild. induction a as [|c a IH]; cbn [append list_ascii_of_string existsb]; auto. rewrite IH. rewrite orb_assoc. auto.
Qed.
Lemma built_setitem B b name v B' e : built B -> exists_in B v -> setitem B b name v = (B', e) -> built B'.
Proof. intros H E S. replace B' with (fst (setitem B b name v)) by (rewrite S; auto). constructor; auto. Qed.
Lemma built_delitem B limit b name B' e : built B -> delitem limit B b name = (B', e) -> built B'.
Proof. intros H S. replace B' with (fst (delitem limit B b name)) by (rewrite S; auto). constructor; auto. Qed.

(** ** C45 *)
(** book[name] = v; then book[name] is v, and what the other paths lead to has not changed. *)
Theorem C45_lookup_returns_what_was_stored B b name v B' limit :
  built B -> b < length B -> unshared B b -> exists_in B v ->
  setitem B b name v = (B', None) -> wild name = false ->
  getitem limit B' b name = Ok (One v) /\
  (forall other, wild other = false -> unrelated (components name) (components other) ->
     getitem limit B' b other = getitem limit B b other) /\
  (forall rest, wild rest = false ->                                     (* below the new entry *)
     getitem limit B' b (name ++ "/" ++ rest) =
     match v with EBook c => getitem limit B' c rest | EHist _ => Err KeyError end) /\
  (forall above rest, name = (above ++ "/" ++ rest)%string ->            (* the books that contain it *)
     match getitem limit B b above with
     | Ok x => getitem limit B' b above = Ok x
     | Err _ => exists c, getitem limit B' b above = Ok (One (EBook c)) /\ length B <= c
     end).
Proof.
  intros HB Hb Hu Ev S W. assert (HB' := built_setitem _ _ _ _ _ _ HB Ev S). destruct (built_ok B HB) as (Hv & K).
  unfold setitem in S. destruct (set_n_placed _ B b name v B' None Hv Hb (le_n _) S) as [(_ & d & k & rest & i & Ec & Ei & P)|(H & _)]; [|discriminate].
  split; [|split; [|split]].
  - rewrite getitem_plain by auto. rewrite Ec. rewrite <- (app_nil_r (d ++ k :: rest)). rewrite (placed_at_all B B' b i d k rest v) by auto. auto.
  - intros other Wo Un. rewrite !getitem_plain by auto. rewrite Ec in Un. rewrite (placed_unrelated B B' b i d k rest v) by auto. auto.
  - intros r Wr. rewrite getitem_plain; auto; [|change ("/" ++ r)%string with (String "/" r); rewrite wild_join, W, Wr; auto].
    change ("/" ++ r)%string with (String "/" r). rewrite components_join, Ec, (placed_at_all B B' b i d k rest v) by auto.
    destruct v as [h|c].
    + destruct (components_cons r) as (k0 & t & ->). auto.
    + rewrite getitem_plain by auto. auto.
  - intros above r En. change ("/" ++ r)%string with (String "/" r) in En. assert (Wa : wild above = false) by (rewrite En, wild_join in W; apply orb_false_iff in W; tauto).
    rewrite !getitem_plain by auto.
    assert (A := placed_above B B' b i d k rest v Hu Ei P Hv Hb (components above) (components r) (components_nonempty r)).
    rewrite <- Ec, En, components_join in A. specialize (A eq_refl). destruct (at_path B b (components above)) as [x|].
    + destruct A as (-> & _). auto.
    + destruct A as (c & -> & L). eauto.
Qed.
Print Assumptions C45_lookup_returns_what_was_stored.

(** It fails exactly if a histogram is in the way, and then nothing has changed. *)
Theorem C45_store_fails_only_below_a_histogram B b name v : built B -> b < length B -> wild name = false ->
  (snd (setitem B b name v) <> None <->
   exists above rest h, name = (above ++ "/" ++ rest)%string /\ forall limit, getitem limit B b above = Ok (One (EHist h))) /\
  (forall B' e, setitem B b name v = (B', Some e) -> e = KeyError /\ B' = B).
Proof.
  intros HB Hb W. destruct (built_ok B HB) as (Hv & K). unfold setitem. destruct (set_n (String.length name) B b name v) as [B' e] eqn:S.
  destruct (set_n_placed _ B b name v B' e Hv Hb (le_n _) S) as [(-> & d & k & rest & i & Ec & Ei & P)|(-> & -> & d & t & h & Ec & Ht & A)].
  - split; [|intros B1 e1 H; inversion H]. cbn [snd]. split; [congruence|]. intros (above & r & h & En & G). exfalso.
    change ("/" ++ r)%string with (String "/" r) in En. assert (Wa : wild above = false) by (rewrite En, wild_join in W; apply orb_false_iff in W; tauto).
    specialize (G 0). rewrite getitem_plain in G by auto. destruct (at_path B b (components above)) as [x|] eqn:Ea; inversion G; subst x.
    assert (Q : d ++ k :: rest = components above ++ components r) by (rewrite <- Ec, En, components_join; auto).
    destruct (Nat.le_gt_cases (length (components above)) (length d)) as [L|L].
    + assert (Pd : prefix (components above) d).
      { exists (skipn (length (components above)) d). rewrite <- (firstn_skipn (length (components above)) d) at 1. f_equal.
        apply (same_prefix _ _ (skipn (length (components above)) d ++ k :: rest) (components r)); [|rewrite firstn_length; lia].
        rewrite app_assoc, firstn_skipn. auto. }
      destruct Pd as (u & Pd). rewrite Pd, at_path_app, Ea in Ei. destruct u; discriminate.
    + (* the name k of book i leads to the histogram, or to a new book *)
      destruct (pl_here _ _ _ _ _ _ P) as (l & E1 & Ed & E2).
      assert (R : rest <> []).
      { intros ->. assert (Lq := f_equal (@length _) Q). rewrite !app_length in Lq. cbn [length] in Lq.
        assert (length (components r) <> 0) by (destruct (components_cons r) as (x0 & y0 & ->); cbn; lia). lia. }
      assert (exists u, components above = d ++ k :: u) as (u & Eu).
      { exists (skipn (Datatypes.S (length d)) (components above)).
        assert (Fd : firstn (length d) (components above) = d).
        { apply (same_prefix _ _ (skipn (length d) (components above) ++ components r) (k :: rest)); [|rewrite firstn_length; lia].
          rewrite app_assoc, firstn_skipn. auto. }
        rewrite <- (firstn_skipn (length d) (components above)) at 1. rewrite Fd. f_equal.
        rewrite <- (firstn_skipn (length d) (components above)), Fd, <- app_assoc in Q. apply app_inv_head in Q.
        destruct (skipn (length d) (components above)) as [|k1 u1] eqn:Es; [apply (f_equal (@length _)) in Es; rewrite skipn_length in Es; cbn in Es; lia|].
        cbn [app] in Q. inversion Q; subst k1. f_equal.
        clear - Es. revert Es. generalize (length d) as n. induction (components above) as [|a l IH]; intros [|n]; cbn [skipn]; try discriminate.
        - intros E. inversion E. auto.
        - intros E. destruct l; [destruct n; discriminate|]. apply IH. auto. }
      rewrite Eu, at_path_app, Ei, follow_cons in Ea. unfold look in Ea. rewrite E1, Ed in Ea by auto. discriminate.
  - split.
    + cbn [snd]. split; [intros _|congruence]. exists (path_name d), (path_name t), h.
      assert (Sl := components_slashless name). rewrite Ec in Sl.
      assert (Nd : d <> []) by (intros ->; cbn in A; discriminate).
      assert (Cd : components (path_name d) = d) by (apply components_path_name; auto; intros k' I; apply Sl, in_or_app; auto).
      assert (Ct : components (path_name t) = t) by (apply components_path_name; auto; intros k' I; apply Sl, in_or_app; auto).
      assert (En : name = (path_name d ++ String "/" (path_name t))%string).
      { rewrite <- (path_name_components name), Ec. rewrite <- Cd at 1. rewrite <- Ct at 1. rewrite <- components_join. apply path_name_components. }
      split; auto. intros limit. rewrite getitem_plain; auto.
      * rewrite Cd, A. auto.
      * rewrite En, wild_join in W. apply orb_false_iff in W. tauto.
    + intros B1 e1 H. inversion H. auto.
Qed.
Print Assumptions C45_store_fails_only_below_a_histogram.

(** len(book) is the number of its entries; storing adds one if the first name is new. *)
Theorem C45_len B b name v B' : built B -> b < length B -> unshared B b -> exists_in B v -> setitem B b name v = (B', None) ->
  (forall limit, items (S limit) false false B b = Ok (match nth_error B b with Some o => b_content o | None => [] end)) /\
  len B b = length (match nth_error B b with Some o => b_content o | None => [] end) /\
  len B' b = len B b + match components name with
                       | first :: _ => match at_path B b [first] with Some _ => 0 | None => 1 end
                       | [] => 0
                       end.
Proof.
  intros HB Hb Hu Ev S. destruct (built_ok B HB) as (Hv & K). split; [|split].
  - intros limit. rewrite items_flat. unfold content_of. destruct (nth_error B b) as [o|] eqn:E; [|apply nth_error_None in E; lia]. cbn [option_map].
    f_equal. unfold pick. cbn [negb orb]. induction (b_content o) as [|x l IH]; cbn; auto. rewrite IH. auto.
  - unfold len. destruct (nth_error B b); auto.
  - unfold setitem in S. destruct (set_n_placed _ B b name v B' None Hv Hb (le_n _) S) as [(_ & d & k & rest & i & Ec & Ei & P)|(H & _)]; [|discriminate].
    rewrite Ec. assert (Ln : forall C, len C b = length (match content_of C b with Some l => l | None => [] end)).
    { intros C. unfold len, content_of. destruct (nth_error C b); auto. }
    rewrite !Ln. destruct (pl_here _ _ _ _ _ _ P) as (l & E1 & Ed & E2). destruct d as [|k0 d]; cbn [app].
    + cbn in Ei. inversion Ei; subst i. rewrite E1, E2, dset_length. rewrite at_path_cons. unfold look. rewrite E1. destruct (dget k l); auto.
    + assert (N : b <> i).
      { intros ->. assert (k0 :: d = []); [|discriminate]. eapply Hu; eauto. }
      rewrite (pl_other _ _ _ _ _ _ P b N Hb). rewrite at_path_cons. rewrite at_path_cons in Ei. destruct (look B b k0); [|discriminate]. cbn. lia.
Qed.
Print Assumptions C45_len.

(** If nothing is shared, storing a histogram, or a book that shares nothing with this one, keeps it
    so: the hypotheses of these theorems hold of every book built that way. *)
Theorem C45_stays_unshared B b name v : built B -> b < length B -> unshared B b -> exists_in B v ->
  (forall c, v = EBook c -> unshared B c /\ forall p q x, at_path B b p = Some (EBook x) -> at_path B c q <> Some (EBook x)) ->
  unshared (fst (setitem B b name v)) b.
Proof.
  intros HB Hb Hu Ev Hn. destruct (built_ok B HB) as (Hv & K). unfold setitem. destruct (set_n (String.length name) B b name v) as [B' e] eqn:S. cbn [fst].
  destruct (set_n_placed _ B b name v B' e Hv Hb (le_n _) S) as [(-> & d & k & rest & i & Ec & Ei & P)|(_ & -> & _)]; auto.
  eapply placed_unshared; eauto.
  - intros c ->. apply (Hn c eq_refl).
  - intros p q c A. destruct v as [h|w]; [destruct q; cbn; discriminate|]. apply (proj2 (Hn w eq_refl) p q c A).
Qed.
Print Assumptions C45_stays_unshared.
Theorem C45_new_book_unshared B : unshared (fst (new_book B)) (snd (new_book B)) /\ len (fst (new_book B)) (snd (new_book B)) = 0.
Proof.
  cbn [new_book fst snd]. assert (E : content_of (B ++ [empty_book]) (length B) = Some []) by (rewrite content_app, Nat.eqb_refl; auto). split.
  - assert (G : forall p c, at_path (B ++ [empty_book]) (length B) p = Some (EBook c) -> p = []).
    { intros [|k p] c; auto. rewrite at_path_cons. unfold look. rewrite E. discriminate. }
    intros p q c A1 A2. rewrite (G p c A1), (G q c A2). auto.
  - unfold len, content_of in *. destruct (nth_error (B ++ [empty_book]) (length B)); auto. cbn in E. inversion E. rewrite H0. auto.
Qed.

(** A concrete book: {"x": hist 0, "sub": {"y": hist 1, "deep": {"z": hist 2}}} *)
Definition ex_book : books :=
  fst (setitem (fst (setitem (fst (setitem (fst (new_book [])) 0 "x" (EHist 0))) 0 "sub/y" (EHist 1))) 0 "sub/deep/z" (EHist 2)).
Ltac build := repeat first [apply built_none | apply built_set | apply built_new | apply built_del | exact I].
Example ex_book_built : built ex_book /\ unshared ex_book 0 /\ 0 < length ex_book.
Proof.
  assert (U : forall B name h, built B -> 0 < length B -> unshared B 0 -> unshared (fst (setitem B 0 name (EHist h))) 0).
  { intros. apply C45_stays_unshared; auto; [exact I|]. intros c E. discriminate. }
  split; [unfold ex_book; build|]. split.
  - unfold ex_book. repeat (apply U; [build|vm_compute; lia|]). apply (C45_new_book_unshared []).
  - vm_compute. lia.
Qed.
Example C45_example : exists B', setitem ex_book 0 "sub/deep/w/v" (EHist 3) = (B', None) /\
  keys 10 true false B' 0 = Ok ["x"; "sub"; "sub/y"; "sub/deep"; "sub/deep/z"; "sub/deep/w"; "sub/deep/w/v"] /\
  getitem 10 B' 0 "sub/deep/w/v" = Ok (One (EHist 3)) /\ getitem 10 B' 0 "sub/y" = Ok (One (EHist 1)) /\
  snd (setitem ex_book 0 "x/a" (EHist 3)) = Some KeyError.
Proof. eexists. split; [vm_compute; reflexivity|]. vm_compute. auto. Qed.

(** A book stored at two places: storing below one of them changes the other. *)
Theorem C45_shared_refuted : exists B b name other v B', built B /\ b < length B /\ exists_in B v /\
  wild name = false /\ wild other = false /\ unrelated (components name) (components other) /\
  setitem B b name v = (B', None) /\
  getitem 10 B b other = Err KeyError /\ getitem 10 B' b other = Ok (One v).
Proof.
  exists (fst (setitem (fst (setitem (fst (new_book (fst (new_book [])))) 0 "a" (EBook 1))) 0 "b" (EBook 1))), 0, "a/x", "b/x", (EHist 0).
  eexists. split; [build; vm_compute; lia|]. split; [vm_compute; lia|]. split; [exact I|]. split; [reflexivity|]. split; [reflexivity|].
  split; [split; intros (t & E); vm_compute in E; inversion E|]. split; [vm_compute; reflexivity|]. split; vm_compute; reflexivity.
Qed.
(** A name with a wildcard character can be stored but is not found by lookup. *)
Theorem C45_wildcard_name_refuted : exists B b name v B', built B /\ unshared B b /\ setitem B b name v = (B', None) /\
  getitem 10 B' b name <> Ok (One v).
Proof.
  exists ex_book, 0, "pt[0]", (EHist 3). eexists. split; [apply ex_book_built|]. split; [apply ex_book_built|].
  split; [vm_compute; reflexivity|]. vm_compute. discriminate.
Qed.

(** ** C46 *)
(** del book[name] removes the entry and what is below it, nothing else; it fails exactly if there is
    no such entry, and then nothing has changed. *)
Theorem C46_delete_removes_exactly_the_entry B b name limit : built B -> b < length B -> unshared B b -> wild name = false ->
  match getitem limit B b name with
  | Err _ => delitem limit B b name = (B, Some KeyError)
  | Ok _ => exists B', delitem limit B b name = (B', None) /\ built B' /\ unshared B' b /\
      getitem limit B' b name = Err KeyError /\
      (forall rest, wild rest = false -> getitem limit B' b (name ++ "/" ++ rest) = Err KeyError) /\
      (forall other, wild other = false -> ~ prefix (components name) (components other) ->
         getitem limit B' b other = getitem limit B b other) /\
      len B' b = len B b - match components name with [_] => 1 | _ => 0 end
  end.
Proof.
  intros HB Hb Hu W. destruct (built_ok B HB) as (Hv & K). assert (D : delitem limit B b name = del_ B b name) by (unfold delitem; rewrite W; auto).
  rewrite getitem_plain, D by auto. unfold del_. destruct (del_n (String.length name) B b name) as [B' e] eqn:S.
  destruct (del_n_removed _ B b name B' e Hv K Hb (le_n _) S) as [(-> & d & k & i & Ec & Ei & R)|(-> & -> & A)].
  - assert (Ax : exists x, at_path B b (components name) = Some x).
    { rewrite Ec, at_path_app, Ei, follow_cons. destruct (rm_here _ _ _ _ R) as (l & x & E1 & E2 & _). unfold look. rewrite E1, E2. exists x. reflexivity. }
    destruct Ax as (x & ->). exists B'. split; auto.
    assert (HB' : built B'). { eapply (built_delitem B limit b name); eauto. rewrite D. unfold del_. eauto. }
    split; auto. split; [eapply removed_unshared; eauto|]. split; [|split; [|split]].
    + rewrite getitem_plain, Ec by auto. rewrite <- (app_nil_r (d ++ [k])), (removed_here B B' b i d k) by auto. auto.
    + intros r Wr. change ("/" ++ r)%string with (String "/" r).
      rewrite getitem_plain; auto; [|rewrite wild_join, W, Wr; auto]. rewrite components_join, Ec, (removed_here B B' b i d k) by auto. auto.
    + intros other Wo Np. rewrite !getitem_plain by auto. rewrite Ec in Np. rewrite (removed_elsewhere B B' b i d k) by auto. auto.
    + assert (Ln : forall C, len C b = length (match content_of C b with Some l => l | None => [] end)).
      { intros C. unfold len, content_of. destruct (nth_error C b); auto. }
      rewrite !Ln, Ec. destruct (rm_here _ _ _ _ R) as (l & y & E1 & E2 & E3). destruct d as [|k0 d]; cbn [app].
      * cbn in Ei. inversion Ei; subst i. rewrite E1, E3. apply ddel_length in E2. lia.
      * assert (N : b <> i).
        { intros ->. assert (k0 :: d = []); [|discriminate]. eapply Hu; eauto. }
        rewrite (rm_other _ _ _ _ R) by auto. destruct d; cbn [app]; lia.
  - rewrite A. auto.
Qed.
Print Assumptions C46_delete_removes_exactly_the_entry.
Example C46_example : exists B', delitem 10 ex_book 0 "sub/deep" = (B', None) /\ keys 10 true false B' 0 = Ok ["x"; "sub"; "sub/y"] /\
  delitem 10 ex_book 0 "sub/q" = (ex_book, Some KeyError).
Proof. eexists. split; [vm_compute; reflexivity|]. split; vm_compute; reflexivity. Qed.

(** del book[pattern] ignores the pattern: it deletes everything, ... *)
Lemma del_all_flat l : forall B b o, nth_error B b = Some o -> b_content o = l -> NoDup (map fst l) ->
  exists B', del_all B b (map fst l) = (B', None) /\ len B' b = 0.
Proof.
  induction l as [|(k, x) l IH]; intros B b o Eo El Nd; cbn [map fst del_all].
  - exists B. split; auto. unfold len. rewrite Eo, El. auto.
  - unfold del_. assert (D : del_n (String.length k) B b k = (mark (put B b (with_items o (ddel k (b_content o)))) b, None)).
    { destruct (String.length k); cbn [del_n]; rewrite Eo, El; cbn [dget]; rewrite String.eqb_refl; auto. }
    rewrite D. rewrite El. cbn [ddel]. rewrite String.eqb_refl. inversion Nd; subst.
    assert (L : b < length B) by (apply nth_error_Some; congruence).
    assert (exists o', nth_error (mark (put B b (with_items o l)) b) b = Some o' /\ b_content o' = l) as (o' & E1 & E2).
    { assert (C : content_of (mark (put B b (with_items o l)) b) b = Some l).
      { rewrite content_mark. unfold content_of. rewrite nth_put, Nat.eqb_refl. apply Nat.ltb_lt in L. rewrite L. auto. }
      unfold content_of in C. destruct (nth_error (mark (put B b (with_items o l)) b) b) as [o1|]; [|discriminate]. exists o1. cbn in C. split; congruence. }
    apply (IH _ b o'); auto.
Qed.
Theorem C46_pattern_deletes_everything B b pattern limit : built B -> b < length B -> wild pattern = true ->
  (forall n c, at_path B b [n] <> Some (EBook c)) ->                                    (* no books inside *)
  exists B', delitem (S limit) B b pattern = (B', None) /\ len B' b = 0.
Proof.
  intros HB Hb W Nb. destruct (built_ok B HB) as (Hv & K). unfold delitem. rewrite W. unfold keys, items.
  rewrite iteritems_S. destruct (proj1 (content_some B b) Hb) as (l & El). rewrite El.
  destruct (nth_error B b) as [o|] eqn:Eo; [|apply nth_error_None in Eo; lia].
  assert (l = b_content o) as -> by (unfold content_of in El; rewrite Eo in El; inversion El; auto). destruct (K _ _ El) as (Nd & Sl).
  assert (I : iter_items limit true false B None (b_content o) = Ok (b_content o)).
  { assert (Nb' : forall k c, ~ In (k, EBook c) (b_content o)).
    { intros k c I. assert (D := in_dget _ _ _ Nd I). apply (Nb k c). rewrite at_path_cons. unfold look. rewrite El, D. auto. }
    clear - Nb'. induction (b_content o) as [|(n, x) l IH]; auto. cbn [iter_items]. fold (iter_items limit true false B None). rewrite IH.
    - destruct x as [h|c]; cbn [bind]; auto. exfalso. apply (Nb' n c). left. auto.
    - intros k c I. apply (Nb' k c). right. auto. }
  rewrite I. cbn [rmap]. eapply del_all_flat; eauto.
Qed.
Print Assumptions C46_pattern_deletes_everything.
(** ... also what does not match; ... *)
Theorem C46_pattern_refuted : exists B b pattern name B', built B /\ unshared B b /\ b < length B /\
  wild name = false /\ ~ matches_pattern pattern name /\
  delitem 10 B b pattern = (B', None) /\ getitem 10 B b name = Ok (One (EHist 1)) /\ getitem 10 B' b name = Err KeyError.
Proof.
  exists (fst (setitem (fst (setitem (fst (new_book [])) 0 "a1" (EHist 0))) 0 "b1" (EHist 1))), 0, "a*", "b1". eexists.
  split; [build|]. split.
  { repeat (apply C45_stays_unshared; [build|vm_compute; lia| |exact I|intros c E; discriminate]). apply (C45_new_book_unshared []). }
  split; [vm_compute; lia|]. split; [reflexivity|]. split; [rewrite <- fnmatchcase_spec; vm_compute; discriminate|].
  split; [vm_compute; reflexivity|]. split; vm_compute; reflexivity.
Qed.
(** ... and if there is a book with entries inside it fails half way. *)
Theorem C46_pattern_nested_refuted : exists B', built ex_book /\ unshared ex_book 0 /\
  delitem 10 ex_book 0 "*" = (B', Some KeyError) /\ keys 10 true false B' 0 = Ok [].
Proof. eexists. split; [apply ex_book_built|]. split; [apply ex_book_built|]. split; vm_compute; reflexivity. Qed.

(** ** C47 *)
(** Iteration: all the entries below the book, each once, in storage order. [lists] fixes the list. *)
Lemma comes_before_in {A} (l : list (A * entry)) k k' : comes_before l k k' -> In k (map fst l) /\ In k' (map fst l).
Proof. induction 1; cbn; [|tauto]. split; auto. Qed.
Lemma comes_before_asym {A} (l : list (A * entry)) k k' : NoDup (map fst l) -> comes_before l k k' -> comes_before l k' k -> False.
Proof.
  intros Nd H. induction H as [k x l k' I|kx l k k' H IH]; intros G; inversion Nd; subst; cbn [fst] in *.
  - inversion G; subst; [tauto|]. match goal with H : comes_before _ _ _ |- _ => apply comes_before_in in H; tauto end.
  - inversion G; subst; cbn [fst] in *; [apply comes_before_in in H; tauto|auto].
Qed.
Lemma comes_before_irrefl {A} (l : list (A * entry)) k : NoDup (map fst l) -> ~ comes_before l k k.
Proof. intros Nd H. eapply comes_before_asym; eauto. Qed.
Lemma storage_order_asym B b p q : keys_ok B -> storage_order B b p q -> storage_order B b q p -> False.
Proof.
  intros K.
  assert (N : forall c d o, at_path B b c = Some (EBook d) -> nth_error B d = Some o -> NoDup (map fst (b_content o))).
  { intros c d o _ Eo. apply (K d (b_content o)). unfold content_of. rewrite Eo. auto. }
  assert (Irr : forall k t c k1 t1 k2 t2 d o p q, q = p ++ k :: t -> p = c ++ k1 :: t1 -> q = c ++ k2 :: t2 ->
     at_path B b c = Some (EBook d) -> nth_error B d = Some o -> k1 = k2).
  { intros k t c k1 t1 k2 t2 d o p0 q0 -> -> E _ _. rewrite <- app_assoc in E. apply app_inv_head in E. inversion E. auto. }
  intros [(k & t & E)|(c & k & t & k' & t' & d & o & E1 & E2 & A & Eo & Cb)] [(k2 & t2 & F)|(c2 & k2 & t2 & k2' & t2' & d2 & o2 & F1 & F2 & A2 & Eo2 & Cb2)].
  - subst q. apply (f_equal (@length _)) in F. rewrite !app_length in F. cbn in F. lia.
  - assert (k2' = k2) by (eapply (Irr k t c2 k2' t2' k2 t2); eauto). subst. eapply comes_before_irrefl; [|exact Cb2]. eauto.
  - assert (k' = k) by (eapply (Irr k2 t2 c k' t' k t); eauto). subst. eapply comes_before_irrefl; [|exact Cb]. eauto.
  - assert (c = c2 /\ k = k2' /\ k' = k2) as (-> & -> & ->).
    { assert (Nk : k <> k') by (intros ->; eapply comes_before_irrefl; [|exact Cb]; eauto).
      assert (Nk2 : k2 <> k2') by (intros ->; eapply comes_before_irrefl; [|exact Cb2]; eauto).
      subst p q. clear - F1 F2 Nk Nk2. revert c2 F1 F2. induction c as [|a c IH]; intros [|a2 c2]; cbn [app]; intros F1 F2; inversion F1; inversion F2; subst; try tauto.
      destruct (IH c2) as (-> & -> & ->); auto. }
    assert (d2 = d) by congruence. subst. assert (o2 = o) by congruence. subst. eapply comes_before_asym; [|exact Cb|exact Cb2]. eauto.
Qed.
Lemma sorted_unique {A} (R : A -> A -> Prop) : (forall a c, R a c -> R c a -> False) -> forall l m,
  StronglySorted R l -> StronglySorted R m -> (forall a, In a l <-> In a m) -> l = m.
Proof.
  intros As. induction l as [|a l IH]; intros [|c m] Sl Sm H; auto.
  - destruct (proj2 (H c)); left; auto.
  - destruct (proj1 (H a)); left; auto.
  - inversion Sl; inversion Sm; subst. rewrite Forall_forall in *.
    assert (a = c) as ->.
    { destruct (proj1 (H a) (or_introl eq_refl)) as [|I1]; auto. destruct (proj2 (H c) (or_introl eq_refl)) as [|I2]; auto.
      exfalso. apply (As a c); auto. }
    f_equal. apply IH; auto. intros x. split; intros I.
    + destruct (proj1 (H x) (or_intror I)) as [<-|]; auto. exfalso. apply (As c c); auto.
    + destruct (proj2 (H x) (or_intror I)) as [<-|]; auto. exfalso. apply (As c c); auto.
Qed.
Theorem C47_list_is_unique B b L L' : built B -> lists B b L -> lists B b L' -> L = L'.
Proof.
  intros HB (H1 & H2) (H3 & H4). destruct (built_ok B HB) as (_ & K). eapply sorted_unique; [|exact H2|exact H4|].
  - intros a c (_ & S1) (_ & S2). eapply storage_order_asym; eauto.
  - intros (p, x). rewrite H1, H3. tauto.
Qed.
Print Assumptions C47_list_is_unique.
Theorem C47_iteration B b limit : built B -> b < length B -> unshared B b -> length B <= limit ->
  exists L, lists B b L /\
    items limit true false B b = Ok (map (fun px => (path_name (fst px), snd px)) L) /\
    items limit true true B b = Ok (map (fun px => (path_name (fst px), snd px)) (filter (fun px => is_hist (snd px)) L)) /\
    (forall onlyhist, exists I, items limit true onlyhist B b = Ok I /\ keys limit true onlyhist B b = Ok (map fst I) /\
                                values limit true onlyhist B b = Ok (map snd I)) /\
    (forall p x, In (p, x) L -> components (path_name p) = p).                         (* the keys are the paths *)
Proof.
  intros HB Hb Hu Hl. destruct (built_ok B HB) as (Hv & K). destruct (walk_total B b limit) as (L & W); auto. exists L.
  assert (Ls := walk_lists _ _ _ _ K W). split; auto. unfold keys, values. rewrite !items_walk, W. cbn [rmap]. unfold pick. cbn [negb orb].
  split; [|split; [|split]].
  - f_equal. clear. induction L as [|a L IH]; cbn [map filter]; auto. rewrite IH. auto.
  - f_equal. clear. induction L as [|a L IH]; cbn [map filter snd]; auto. rewrite IH. destruct (is_hist (snd a)); auto.
  - intros oh. eexists. rewrite items_walk, W. cbn [rmap]. split; [reflexivity|]. auto.
  - intros p x I. apply (proj1 Ls) in I. destruct I as (Np & A). apply components_path_name; auto.
    clear - K A. assert (G : forall p y, follow B y p = Some x -> forall k, In k p -> cut_slash k = None).
    { clear p A. induction p as [|k p IH]; intros y; [intros _ k []|]. destruct y as [h|c]; [discriminate|]. rewrite follow_cons. unfold look.
      destruct (content_of B c) as [l|] eqn:E; [|discriminate]. destruct (dget k l) as [z|] eqn:D; [|discriminate]. intros F k0 [<-|I].
      - apply (K _ _ E). apply dget_in in D. apply (in_map fst) in D. auto.
      - eapply IH; eauto. }
    eapply G; eauto.
Qed.
Print Assumptions C47_iteration.
(** Without "all": the entries of the book itself. *)
Theorem C47_iteration_flat B b limit : built B -> b < length B ->
  exists o, nth_error B b = Some o /\ NoDup (map fst (b_content o)) /\
    (forall k x, In (k, x) (b_content o) <-> at_path B b [k] = Some x) /\
    items (S limit) false false B b = Ok (b_content o) /\
    items (S limit) false true B b = Ok (filter (fun kx => is_hist (snd kx)) (b_content o)).
Proof.
  intros HB Hb. destruct (built_ok B HB) as (Hv & K). destruct (nth_error B b) as [o|] eqn:Eo; [|apply nth_error_None in Eo; lia].
  assert (E : content_of B b = Some (b_content o)) by (unfold content_of; rewrite Eo; auto). destruct (K _ _ E) as (Nd & _).
  exists o. split; auto. split; auto. split; [|rewrite !items_flat, E; split; auto; unfold pick; cbn [negb orb]; auto].
  - intros k x. rewrite at_path_cons. unfold look. rewrite E. split.
    + intros I. rewrite (in_dget _ _ _ Nd I). auto.
    + destruct (dget k (b_content o)) eqn:D; [|discriminate]. apply dget_in in D. cbn. intros H. inversion H. subst. auto.
  - f_equal. clear. induction (b_content o) as [|a l IH]; cbn [filter]; auto. rewrite IH. auto.
Qed.
Print Assumptions C47_iteration_flat.
(** A pattern gives exactly the entries, at any depth, whose path matches it. *)
Theorem C47_pattern B b pattern limit : built B -> b < length B -> unshared B b -> length B <= limit -> wild pattern = true ->
  exists L chosen, lists B b L /\ (forall px, chosen px = true <-> matches_pattern pattern (path_name (fst px))) /\
    getitem limit B b pattern = Ok (Many (map snd (filter chosen L))).
Proof.
  intros HB Hb Hu Hl W. destruct (C47_iteration B b limit HB Hb Hu Hl) as (L & Ls & E & _).
  exists L, (fun px : list string * entry => fnmatchcase (path_name (fst px)) pattern). split; auto. split; [intros px; apply fnmatchcase_spec|].
  unfold getitem. rewrite W, E. cbn [bind]. f_equal. f_equal.
  clear. induction L as [|a L IH]; cbn [map filter fst snd]; auto. destruct (fnmatchcase _ pattern); cbn [map snd]; rewrite IH; auto.
Qed.
Print Assumptions C47_pattern.
Example C47_example : keys 10 true true ex_book 0 = Ok ["x"; "sub/y"; "sub/deep/z"] /\
  getitem 10 ex_book 0 "sub/[!a-x]*" = Ok (Many [EHist 1]) /\ getitem 10 ex_book 0 "*/?" = Ok (Many [EHist 1; EHist 2]) /\
  length ex_book <= 10.
Proof. vm_compute. repeat split; auto. lia. Qed.
(** A pattern does not stop at a slash, and books are among the results. *)
Theorem C47_star_stays_in_one_level_refuted : exists B b pattern c h, built B /\ unshared B b /\ pattern = "s*"%string /\
  at_path B b ["sub"; "deep"; "z"] = Some (EHist h) /\ at_path B b ["sub"] = Some (EBook c) /\
  exists l, getitem 10 B b pattern = Ok (Many l) /\ In (EHist h) l /\ In (EBook c) l.
Proof.
  exists ex_book, 0, "s*", 1, 2. split; [apply ex_book_built|]. split; [apply ex_book_built|]. split; auto. split; [reflexivity|]. split; [reflexivity|].
  eexists. split; [vm_compute; reflexivity|]. cbn. tauto.
Qed.
(** A pattern is always "in" the book. *)
Theorem C47_pattern_in_book_refuted B b pattern limit : built B -> b < length B -> unshared B b -> length B <= limit -> wild pattern = true ->
  contains limit B b pattern = Ok true.
Proof.
  intros HB Hb Hu Hl W. destruct (C47_pattern B b pattern limit) as (L & f & _ & _ & E); auto. unfold contains. rewrite E. auto.
Qed.
Theorem C47_contains B b name limit : built B -> b < length B -> wild name = false ->
  contains limit B b name = Ok (match at_path B b (components name) with Some _ => true | None => false end).
Proof. intros HB Hb W. unfold contains. rewrite getitem_plain by auto. destruct (at_path B b (components name)); auto. Qed.
Print Assumptions C47_contains.
(** A book that contains itself cannot be iterated over. *)
Theorem C47_cycle_refuted limit : exists B, built B /\ 0 < length B /\ items limit true false B 0 = Err RecursionError.
Proof.
  exists (fst (setitem (fst (new_book [])) 0 "a" (EBook 0))). split; [build; vm_compute; lia|]. split; [vm_compute; lia|].
  unfold items. generalize (@None string). induction limit as [|m IH]; intros p; auto. rewrite iteritems_S.
  change (content_of (fst (setitem (fst (new_book [])) 0 "a" (EBook 0))) 0) with (Some [("a"%string, EBook 0)]). cbn [iter_items]. rewrite IH. auto.
Qed.
