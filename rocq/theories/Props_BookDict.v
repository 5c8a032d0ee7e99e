(** C83: pop, popitem, setdefault and update of books. *)
From Coq Require Import String Ascii Sorted.
From Verif Require Import Base Glob Book BookSpec GlobProofs BookProofs BookPaths BookIter BookHeap BookHeapFrame BookDict Props_Book.
Local Open Scope string_scope.
Local Open Scope list_scope.

(** pop(name) returns what book[name] is and removes it and nothing else; without such an entry it
    returns the default, or fails if there is none, and nothing has changed. *)
Theorem C83_pop {D} B b name limit (default : option D) : built B -> b < length B -> unshared B b -> wild name = false ->
  match getitem limit B b name with
  | Ok v => exists B', pop limit B b (KName name) default = (B', Ok (inl v)) /\ built B' /\ unshared B' b /\
      getitem limit B' b name = Err KeyError /\
      (forall rest, wild rest = false -> getitem limit B' b (name ++ "/" ++ rest) = Err KeyError) /\
      (forall other, wild other = false -> ~ prefix (components name) (components other) ->
         getitem limit B' b other = getitem limit B b other) /\
      len B' b = len B b - match components name with [_] => 1 | _ => 0 end
  | Err _ => pop limit B b (KName name) default = (B, match default with Some d => Ok (inr d) | None => Err KeyError end)
  end.
Proof.
  intros H L U W. pose proof (C46_delete_removes_exactly_the_entry B b name limit H L U W) as C. unfold pop, lookup, remove.
  pose proof (getitem_plain limit B b name H W) as G. destruct (getitem limit B b name) as [v|e].
  - destruct C as (B' & E & R). exists B'. rewrite E. auto.
  - destruct (at_path B b (components name)); inversion G. auto.
Qed.
Print Assumptions C83_pop.

(** setdefault(name, v) returns what is there and changes nothing; without such an entry it stores v
    and returns it. *)
Theorem C83_setdefault B b name v limit : built B -> b < length B -> unshared B b -> exists_in B v -> wild name = false ->
  match getitem limit B b name with
  | Ok x => setdefault limit B b (KName name) (Some v) = (B, Ok (Some x))
  | Err _ =>
      (exists B', setdefault limit B b (KName name) (Some v) = (B', Ok (Some (One v))) /\ getitem limit B' b name = Ok (One v) /\
         forall other, wild other = false -> unrelated (components name) (components other) -> getitem limit B' b other = getitem limit B b other) \/
      (setdefault limit B b (KName name) (Some v) = (B, Err KeyError) /\                          (* below a histogram *)
         exists above rest h, name = (above ++ "/" ++ rest)%string /\ forall limit, getitem limit B b above = Ok (One (EHist h)))
  end.
Proof.
  intros H L U Ev W. unfold setdefault, lookup, store. pose proof (getitem_plain limit B b name H W) as G. destruct (getitem limit B b name) as [x|e]; auto.
  destruct (at_path B b (components name)); inversion G. clear G. destruct (setitem B b name v) as [B' [e'|]] eqn:E.
  - right. destruct (C45_store_fails_only_below_a_histogram B b name v H L W) as (Hf & Hk). destruct (Hk _ _ E) as (-> & ->). split; auto. apply Hf. rewrite E. discriminate.
  - left. exists B'. destruct (C45_lookup_returns_what_was_stored B b name v B' limit H L U Ev E W) as (G1 & G2 & _). auto.
Qed.
Print Assumptions C83_setdefault.
(** Without a value to store it fails if there is no such entry. *)
Theorem C83_setdefault_none B b name limit : built B -> wild name = false ->
  setdefault limit B b (KName name) None = (B, match getitem limit B b name with Ok x => Ok (Some x) | Err _ => Err TypeError end).
Proof.
  intros H W. unfold setdefault, lookup, store. pose proof (getitem_plain limit B b name H W) as G. destruct (getitem limit B b name) as [x|e]; auto.
  destruct (at_path B b (components name)); inversion G. auto.
Qed.
Print Assumptions C83_setdefault_none.
(** A pattern is always found, so that nothing is stored at it. *)
Theorem C83_setdefault_pattern B b pattern v limit : built B -> b < length B -> unshared B b -> length B <= limit -> wild pattern = true ->
  exists l, setdefault limit B b (KName pattern) v = (B, Ok (Some (Many l))).
Proof.
  intros H L U Hl W. destruct (C47_pattern B b pattern limit H L U Hl W) as (P & ch & _ & _ & E). exists (map snd (filter ch P)). unfold setdefault, lookup. rewrite E. auto.
Qed.
Print Assumptions C83_setdefault_pattern.

(** [x] and [y] have no book in common. *)
Definition apart (B : books) (x y : entry) : Prop := forall p q c, follow B x p = Some (EBook c) -> follow B y q <> Some (EBook c).
(** The values for update: histograms, and books that hold nothing twice and have no book in common
    with book [b] or with each other. *)
Record separate (B : books) (b : nat) (l : list (string * entry)) : Prop := {
  sep_each : forall n v, In (n, v) l -> wild n = false /\ exists_in B v /\ (forall c, v = EBook c -> unshared B c) /\ apart B (EBook b) v;
  sep_pairs : ForallOrdPairs (fun nx ny => apart B (snd nx) (snd ny)) l }.
Lemma separate_hists B b l : (forall n x, In (n, x) l -> wild n = false /\ exists h, x = EHist h) -> separate B b l.
Proof.
  intros H. split.
  - intros n v I. destruct (H n v I) as (W & h & ->). split; auto. split; [exact Logic.I|]. split; [intros c X; discriminate|]. intros p [|k q] c _; cbn; discriminate.
  - clear b. induction l as [|(n, x) l IH]; constructor.
    + apply Forall_forall. intros (m, y) I p q c _. destruct (H m y (or_intror I)) as (_ & h & ->). cbn [snd]. destruct q; cbn; discriminate.
    + apply IH. intros m y I. apply H. right. auto.
Qed.
(** Books apart from [b] keep their contents when something is stored in [b]. *)
Lemma apart_kept B B' b i d k rest v x : at_path B b d = Some (EBook i) -> placed B B' i k rest v -> valid B -> exists_in B x ->
  apart B (EBook b) x -> forall q, follow B' x q = follow B x q.
Proof.
  intros Hi P Hv Ev Ap q. assert (Oth := pl_other _ _ _ _ _ _ P).
  assert (G : forall q p y, follow B x p = Some y -> follow B' y q = follow B y q).
  { clear q. induction q as [|k0 q IH]; intros p y Ey; auto. rewrite !follow_cons. destruct y as [h|j]; auto.
    assert (Lj : j < length B) by (eapply (follow_valid B) with (x := x); eauto).
    assert (L : look B' j k0 = look B j k0).
    { unfold look. rewrite Oth; auto. intros ->. eapply Ap; eauto. }
    rewrite L. destruct (look B j k0) as [z|] eqn:E; auto. apply (IH (p ++ [k0])). rewrite follow_app, Ey, follow_cons, E. auto. }
  apply (G q [] x). auto.
Qed.
(** The books below [b] afterwards: those from before, those of the new entry, and new ones. *)
Lemma placed_reach B B' b i d k rest v : at_path B b d = Some (EBook i) -> placed B B' i k rest v ->
  forall p x, at_path B' b p = Some x -> (exists q, at_path B b q = Some x) \/ (exists q, follow B v q = Some x) \/ (exists c, x = EBook c /\ length B <= c).
Proof.
  intros Hi P p. induction p as [|k0 p IH] using rev_ind; intros x E.
  - cbn in E. inversion E; subst. left. exists []. auto.
  - rewrite at_path_app in E. destruct (at_path B' b p) as [y|] eqn:Ey; [|discriminate]. rewrite follow_cons in E. destruct y as [h|j]; [discriminate|].
    destruct (look B' j k0) as [z|] eqn:Ez; [|discriminate]. cbn in E. inversion E; subst z. clear E. unfold look in Ez.
    destruct (content_of B' j) as [l'|] eqn:Ej; [|discriminate].
    destruct (placed_cases _ _ _ _ _ _ P j l' Ej) as [->|[(N & E0)|(m & r & Er & Lm & -> & ->)]].
    + destruct (pl_here _ _ _ _ _ _ P) as (l & E1 & _ & E2). rewrite E2 in Ej. inversion Ej; subst l'. rewrite dget_dset in Ez. destruct (String.eqb k0 k).
      * inversion Ez; subst x. destruct rest; [right; left; exists []; auto|right; right; exists (length B); auto].
      * left. exists (d ++ [k0]). rewrite at_path_app, Hi, follow_cons. unfold look. rewrite E1, Ez. auto.
    + destruct (IH _ eq_refl) as [(q & F)|[(q & F)|(c & X & Lc)]].
      * left. exists (q ++ [k0]). rewrite at_path_app, F, follow_cons. unfold look. rewrite E0, Ez. auto.
      * right. left. exists (q ++ [k0]). rewrite follow_app, F, follow_cons. unfold look. rewrite E0, Ez. auto.
      * inversion X; subst c. exfalso. assert (j < length B) by (apply content_some; eauto). lia.
    + cbn [dget] in Ez. destruct (String.eqb k0 r); [|discriminate]. destruct (Nat.eqb (S m) (length rest)); injection Ez as <-.
      * right. left. exists []. auto.
      * right. right. eexists. split; [reflexivity|lia].
Qed.
Lemma set_separate B b n v B1 l : built B -> b < length B -> unshared B b -> separate B b ((n, v) :: l) -> setitem B b n v = (B1, None) ->
  built B1 /\ b < length B1 /\ unshared B1 b /\ separate B1 b l /\
  (forall x, exists_in B x -> apart B (EBook b) x -> forall q, follow B1 x q = follow B x q).
Proof.
  intros H L U [S1 S2] E. destruct (S1 n v (or_introl eq_refl)) as (W & Ev & Uv & Av). destruct (built_ok B H) as (Hv & K).
  assert (E' := E). unfold setitem in E'. destruct (set_n_placed _ B b n v B1 None Hv L (le_n _) E') as [(_ & d & k & rest & i & Ec & Ei & P)|(X & _)]; [|discriminate].
  assert (Kept : forall x, exists_in B x -> apart B (EBook b) x -> forall q, follow B1 x q = follow B x q) by (intros x X1 X2; exact (apart_kept B B1 b i d k rest v x Ei P Hv X1 X2)).
  assert (LB : length B <= length B1) by (rewrite (pl_length _ _ _ _ _ _ P); lia).
  split; [eapply built_setitem; eauto|]. split; [lia|]. split; [eapply placed_unshared; eauto|]. split; [|exact Kept].
  inversion S2 as [|? ? F S2']; subst. rewrite Forall_forall in F. split.
  - intros m y I. destruct (S1 m y (or_intror I)) as (Wm & Ey & Uy & Ay). split; auto. split; [destruct y; cbn in *; auto; lia|]. split.
    + intros c -> p q c' A1 A2. unfold at_path in *. rewrite Kept in A1, A2; auto. eapply (Uy c eq_refl); eauto.
    + intros p q c A1 A2. rewrite Kept in A2 by auto. destruct (placed_reach B B1 b i d k rest v Ei P p _ A1) as [(p' & R)|[(p' & R)|(c' & X & Lc)]].
      * eapply Ay; eauto.
      * apply (F (m, y) I p' q c R A2).
      * inversion X; subst c'. assert (c < length B) by (eapply (follow_valid B) with (x := y); eauto). lia.
  - clear F S2. assert (EA : forall m y, In (m, y) l -> exists_in B y /\ apart B (EBook b) y) by (intros m y I; destruct (S1 m y (or_intror I)) as (_ & ? & _ & ?); auto).
    clear S1. induction S2' as [|(m, y) l F S IH]; constructor.
    + rewrite Forall_forall in F |- *. intros (m', y') I p q c. cbn [snd]. destruct (EA m y (or_introl eq_refl)). destruct (EA m' y' (or_intror I)).
      rewrite !Kept by auto. apply (F (m', y') I).
    + apply IH. intros. eapply EA. right. eauto.
Qed.
(** update(pairs): of several values for a name the last one stays, with all that is in it if it is a
    book; entries at other names are as before.  If it fails, the pairs before the one that fails are
    stored. *)
Definition unrelated_to_all (n : string) (l : list (string * entry)) : Prop := forall m x, In (m, x) l -> unrelated (components m) (components n).
Lemma unrelated_below m n rest : unrelated (components m) (components n) -> unrelated (components m) (components (n ++ "/" ++ rest)).
Proof.
  intros (N1 & N2). change ("/" ++ rest)%string with (String "/" rest). rewrite components_join. split; intros (t & E).
  - destruct (prefix_dec (components m) (components n)) as [|_]; [auto|]. apply N2.
    destruct (Nat.le_gt_cases (length (components n)) (length (components m))) as [Le|Gt].
    + exists (skipn (length (components n)) (components m)). rewrite <- (firstn_skipn (length (components n)) (components m)) at 1. f_equal.
      apply (same_prefix _ _ (skipn (length (components n)) (components m) ++ t) (components rest)); [|rewrite firstn_length; lia]. rewrite app_assoc, firstn_skipn. auto.
    + exfalso. apply N1. exists (skipn (length (components m)) (components n)). rewrite <- (firstn_skipn (length (components m)) (components n)) at 1. f_equal.
      apply (same_prefix _ _ (skipn (length (components m)) (components n) ++ components rest) t); [|rewrite firstn_length; lia]. rewrite app_assoc, firstn_skipn. auto.
  - apply N2. exists (components rest ++ t). rewrite app_assoc. auto.
Qed.
Lemma assign_all_separate l : forall B b B' e, built B -> b < length B -> unshared B b -> separate B b l -> assign_all B b l = (B', e) ->
  built B' /\ b < length B' /\ unshared B' b /\
  (forall limit n, wild n = false -> unrelated_to_all n l -> getitem limit B' b n = getitem limit B b n) /\
  match e with
  | None => forall limit n v l1 l2, l = l1 ++ (n, v) :: l2 -> unrelated_to_all n l2 ->
      getitem limit B' b n = Ok (One v) /\
      forall rest, wild rest = false -> getitem limit B' b (n ++ "/" ++ rest) = match v with EBook c => getitem limit B c rest | EHist _ => Err KeyError end
  | Some e => e = KeyError /\ exists n v l1 l2, l = l1 ++ (n, v) :: l2 /\ assign_all B b l1 = (B', None) /\
      exists above rest h, n = (above ++ "/" ++ rest)%string /\ forall limit, getitem limit B' b above = Ok (One (EHist h))
  end.
Proof.
  induction l as [|(n, x) l IH]; intros B b B' e H L U P E; cbn [assign_all] in E.
  - inversion E; subst. repeat (split; auto). all: destruct l1; discriminate.
  - destruct (sep_each _ _ _ P n x (or_introl eq_refl)) as (W & Ex & _ & Ax). destruct (setitem B b n x) as [B1 [e1|]] eqn:E1.
    + inversion E; subst. destruct (C45_store_fails_only_below_a_histogram B b n x H L W) as (Hf & Hk). destruct (Hk _ _ E1) as (-> & ->).
      repeat (split; auto). exists n, x, [], l. split; auto. split; auto. apply Hf. rewrite E1. discriminate.
    + destruct (set_separate B b n x B1 l H L U P E1) as (H1 & L1 & U1 & Pl & Kept).
      destruct (IH B1 b B' e H1 L1 U1 Pl E) as (H2 & L2 & U2 & O2 & F2). repeat (split; auto).
      * intros limit m Wm Um. rewrite O2; auto; [|intros k y I; apply (Um k y); right; auto].
        destruct (C45_lookup_returns_what_was_stored B b n x B1 limit H L U Ex E1 W) as (_ & G & _). apply G; auto. apply (Um n x). left. auto.
      * assert (Gk : forall limit y rest, exists_in B y -> apart B (EBook b) y -> wild rest = false ->
                  match y with EBook c => getitem limit B1 c rest | EHist _ => Err KeyError end = match y with EBook c => getitem limit B c rest | EHist _ => Err KeyError end).
        { intros limit y rest X1 X2 Wr. destruct y as [|c]; auto. rewrite (getitem_plain limit B1), (getitem_plain limit B) by auto. unfold at_path. rewrite Kept; auto. }
        destruct e as [e|].
        -- destruct F2 as (-> & m & v & l1 & l2 & -> & E2 & R). split; auto. exists m, v, ((n, x) :: l1), l2. split; auto. split; auto. cbn [assign_all]. rewrite E1. auto.
        -- intros limit m v [|[m' v'] l1] l2 X Um; cbn [app] in X; inversion X; subst.
           ++ destruct (C45_lookup_returns_what_was_stored B b m v B1 limit H L U Ex E1 W) as (G1 & _ & G2 & _). split; [rewrite O2; auto|].
              intros rest Wr. rewrite O2; [|change ("/" ++ rest)%string with (String "/" rest); rewrite wild_join, W, Wr; auto|intros k y I; apply unrelated_below; eapply Um; eauto]. rewrite G2 by auto. apply Gk; auto.
           ++ destruct (sep_each _ _ _ P m v) as (_ & Em & _ & Am); [right; apply in_or_app; right; left; auto|].
              destruct (F2 limit m v l1 l2 eq_refl Um) as (G1 & G2). split; auto. intros rest Wr. rewrite G2 by auto. apply Gk; auto.
Qed.
Theorem C83_update B b l kwds B' e limit : built B -> b < length B -> unshared B b -> separate B b (l ++ kwds) ->
  update limit B b (Pairs l) kwds = (B', e) ->
  built B' /\ unshared B' b /\
  (forall n, wild n = false -> unrelated_to_all n (l ++ kwds) -> getitem limit B' b n = getitem limit B b n) /\
  match e with
  | None => forall n v l1 l2, l ++ kwds = l1 ++ (n, v) :: l2 -> unrelated_to_all n l2 ->
      getitem limit B' b n = Ok (One v) /\
      forall rest, wild rest = false -> getitem limit B' b (n ++ "/" ++ rest) = match v with EBook c => getitem limit B c rest | EHist _ => Err KeyError end
  | Some e => e = KeyError /\ exists n v l1 l2, l ++ kwds = l1 ++ (n, v) :: l2 /\ update limit B b (Pairs l1) [] = (B', None) /\
      exists above rest h, n = (above ++ "/" ++ rest)%string /\ getitem limit B' b above = Ok (One (EHist h))
  end.
Proof.
  intros H L U P E. assert (A : assign_all B b (l ++ kwds) = (B', e)).
  { rewrite <- E. unfold update. clear. revert B. induction l as [|(n, x) l IH]; intros B; cbn [assign_all app]; auto. destruct (setitem B b n x) as [B1 [e1|]]; auto. }
  destruct (assign_all_separate _ _ _ _ _ H L U P A) as (H1 & _ & U1 & O & F). repeat (split; auto).
  destruct e as [e|]; [|intros; eapply F; eauto]. destruct F as (-> & n & v & l1 & l2 & El & E1 & above & rest & h & En & G). split; auto.
  exists n, v, l1, l2. split; auto. split; [unfold update; rewrite E1; auto|]. exists above, rest, h. auto.
Qed.
Print Assumptions C83_update.

(** update(other book) does not take over the entries of the other book: it fails and changes nothing
    if there is a histogram anywhere in the other book. *)
Definition has_histogram (B : books) (b : nat) : Prop := exists p h, at_path B b p = Some (EHist h).
Lemma hist_items B b limit : built B -> b < length B -> unshared B b -> length B <= limit ->
  exists l, items limit true true B b = Ok l /\ (l <> [] <-> has_histogram B b).
Proof.
  intros H L U Hl. destruct (C47_iteration B b limit H L U Hl) as (P & (Hin & _) & _ & E & _). eexists. split; [exact E|]. split.
  - intros N. destruct (filter (fun px => is_hist (snd px)) P) as [|[p x] l] eqn:F; [exfalso; apply N; auto|].
    assert (I : In (p, x) (filter (fun px => is_hist (snd px)) P)) by (rewrite F; left; auto). apply filter_In in I. destruct I as (I & Hx). apply Hin in I. destruct x as [h|]; [|discriminate].
    exists p, h. tauto.
  - intros (p & h & Ep) N. assert (I : In (p, EHist h) (filter (fun px => is_hist (snd px)) P)).
    { apply filter_In. split; auto. apply Hin. split; auto. intros ->. discriminate. }
    destruct (filter (fun px => is_hist (snd px)) P); [destruct I|discriminate].
Qed.
Theorem C83_update_from_book_refuted B b c kwds limit : built B -> c < length B -> unshared B c -> length B <= limit ->
  (has_histogram B c -> update limit B b (OfBook c) kwds = (B, Some TypeError)) /\
  (~ has_histogram B c -> update limit B b (OfBook c) kwds = update limit B b (Pairs []) kwds).
Proof.
  intros H L U Hl. destruct (hist_items B c limit H L U Hl) as (l & E & Hh). unfold update. rewrite E. destruct l as [|nx l]; cbn [map update_keys lookup].
  - split; auto. intros X. apply Hh in X. congruence.
  - split; auto. intros X. exfalso. apply X, Hh. discriminate.
Qed.
Print Assumptions C83_update_from_book_refuted.
(** popitem() never removes an entry: it fails and changes nothing. *)
Theorem C83_popitem_refuted B b limit : built B -> b < length B -> unshared B b -> length B <= limit ->
  (has_histogram B b -> popitem limit B b = (B, Err TypeError)) /\ (~ has_histogram B b -> popitem limit B b = (B, Err KeyError)).
Proof.
  intros H L U Hl. destruct (hist_items B b limit H L U Hl) as (l & E & Hh). unfold popitem. rewrite E. destruct l as [|nx l]; cbn [lookup].
  - split; auto. intros X. apply Hh in X. congruence.
  - split; auto. intros X. exfalso. apply X, Hh. discriminate.
Qed.
Print Assumptions C83_popitem_refuted.
(** pop(pattern) returns the entries that match and removes the others too. *)
Theorem C83_pop_pattern_refuted : exists B b pattern name B', built B /\ unshared B b /\ b < length B /\
  wild name = false /\ ~ matches_pattern pattern name /\ pop 10 B b (KName pattern) (@None unit) = (B', Ok (inl (Many [EHist 0]))) /\
  getitem 10 B b name = Ok (One (EHist 1)) /\ getitem 10 B' b name = Err KeyError.
Proof.
  exists (fst (setitem (fst (setitem (fst (new_book [])) 0 "a1" (EHist 0))) 0 "b1" (EHist 1))), 0, "a*", "b1". eexists.
  split; [build|]. split.
  { repeat (apply C45_stays_unshared; [build|vm_compute; lia| |exact I|intros c X; discriminate]). apply (C45_new_book_unshared []). }
  split; [vm_compute; lia|]. split; [reflexivity|]. split; [intros M; inversion M; subst; discriminate|].
  split; [vm_compute; reflexivity|]. split; vm_compute; reflexivity.
Qed.

(** The book {"x": hist 0, "sub": {"y": hist 1, "deep": {"z": hist 2}}} *)
Example C83_example : built ex_book /\ unshared ex_book 0 /\ 0 < length ex_book /\ length ex_book <= 10 /\
  (exists B', pop 10 ex_book 0 (KName "sub/y") (@None unit) = (B', Ok (inl (One (EHist 1)))) /\ keys 10 true false B' 0 = Ok ["x"; "sub"; "sub/deep"; "sub/deep/z"]) /\
  pop 10 ex_book 0 (KName "sub/q") (Some 7) = (ex_book, Ok (inr 7)) /\
  (exists B', setdefault 10 ex_book 0 (KName "sub/q") (Some (EHist 4)) = (B', Ok (Some (One (EHist 4)))) /\
     setdefault 10 B' 0 (KName "sub/q") (Some (EHist 5)) = (B', Ok (Some (One (EHist 4))))) /\
  (exists B', update 10 ex_book 0 (Pairs [("x", EHist 7); ("w/v", EHist 8)]) [("x", EHist 9)] = (B', None) /\
     getitem 10 B' 0 "x" = Ok (One (EHist 9)) /\ getitem 10 B' 0 "w/v" = Ok (One (EHist 8)) /\ getitem 10 B' 0 "sub/y" = Ok (One (EHist 1))) /\
  snd (update 10 ex_book 0 (Pairs [("x/a", EHist 7)]) []) = Some KeyError /\ has_histogram ex_book 0.
Proof.
  destruct ex_book_built as (H & U & L). split; [exact H|]. split; [exact U|]. split; [exact L|]. split; [vm_compute; lia|].
  split; [eexists; split; vm_compute; reflexivity|]. split; [vm_compute; reflexivity|]. split; [eexists; split; vm_compute; reflexivity|].
  split; [eexists; split; [vm_compute; reflexivity|]; repeat split; vm_compute; reflexivity|]. split; [vm_compute; reflexivity|]. exists ["x"], 0. reflexivity.
Qed.

(** The same beside another book {"u": hist 5}, which is book 3. *)
Definition ex_two : books := fst (setitem (fst (new_book ex_book)) 3 "u" (EHist 5)).
Definition ex_two' : books := Eval vm_compute in ex_two.
Lemma ex_two_eq : ex_two = ex_two'.
Proof. vm_compute. reflexivity. Qed.
Ltac step_path p H := destruct p as [|? p]; [cbn [follow] in H; injection H as <-|
  cbn [follow ex_two' nth_error b_content dget] in H;
  repeat match type of H with context [String.eqb ?u ?v] => let E := fresh in destruct (String.eqb u v) eqn:E; [apply String.eqb_eq in E; subst|] end; try discriminate].
Lemma ex_two_first p c : follow ex_two' (EBook 0) p = Some (EBook c) -> (p = [] /\ c = 0) \/ (p = ["sub"] /\ c = 1) \/ (p = ["sub"; "deep"] /\ c = 2).
Proof.
  intros H. step_path p H; auto.
  - destruct p; discriminate.
  - step_path p H; auto.
    + destruct p; discriminate.
    + step_path p H; auto. destruct p; discriminate.
Qed.
Lemma ex_two_other p c : follow ex_two' (EBook 3) p = Some (EBook c) -> p = [] /\ c = 3.
Proof. intros H. step_path p H; auto. destruct p; discriminate. Qed.
Example C83_update_example : built ex_two /\ unshared ex_two 0 /\ 0 < length ex_two /\
  separate ex_two 0 ([("x", EBook 3); ("w/v", EHist 8)] ++ [("sub/q", EHist 9)]) /\
  exists B', update 10 ex_two 0 (Pairs [("x", EBook 3); ("w/v", EHist 8)]) [("sub/q", EHist 9)] = (B', None) /\
    getitem 10 B' 0 "x" = Ok (One (EBook 3)) /\ getitem 10 B' 0 "x/u" = Ok (One (EHist 5)) /\ getitem 10 B' 0 "sub/q" = Ok (One (EHist 9)) /\
    getitem 10 B' 0 "sub/y" = Ok (One (EHist 1)).
Proof.
  split; [unfold ex_two, ex_book; build|]. rewrite ex_two_eq. split.
  { intros p q c A1 A2. apply ex_two_first in A1, A2. intuition (subst; auto; discriminate). }
  split; [vm_compute; lia|]. split.
  - assert (Ah : forall x h, apart ex_two' x (EHist h)) by (intros x h p [|k q] c _; cbn; discriminate). split.
    + intros n v I. cbn in I. repeat destruct I as [I|I]; inversion I; subst.
      * split; auto. split; [vm_compute; lia|]. split.
        -- intros c X. inversion X; subst. intros p q c' A1 A2. apply ex_two_other in A1, A2. intuition congruence.
        -- intros p q c A1 A2. apply ex_two_first in A1. apply ex_two_other in A2. intuition lia.
      * split; auto. split; [exact Logic.I|]. split; [intros c X; discriminate|auto].
      * split; auto. split; [exact Logic.I|]. split; [intros c X; discriminate|auto].
    + repeat constructor; cbn [snd]; apply Ah.
  - eexists. split; [vm_compute; reflexivity|]. repeat split; vm_compute; reflexivity.
Qed.
