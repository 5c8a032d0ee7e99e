(** Books and sharing, part 2: sums of books. *)
From Coq Require Import String.
From Verif Require Import Base Num Axis Calc Content Fill HistAlg AlgSpec HistAlgProofs HistAlgMain Heap HeapSpec HeapProofs HeapAdd HeapMain HeapMain2
  Tree Instr Elem HistFill Glob Book BookSpec BookProofs BookPaths BookIter BookFill BookHeap BookHeapSpec BookHeapProofs.
Local Open Scope string_scope.
Local Open Scope list_scope.

Lemma dget_app k l m : dget k (l ++ m) = match dget k l with Some x => Some x | None => dget k m end.
Proof. induction l as [|(a, x) l IH]; cbn [dget app]; auto. destruct (String.eqb k a); auto. Qed.
Lemma in_names {A} k (l : list (string * A)) : In k (map fst l) -> exists x, In (k, x) l.
Proof. intros I. apply in_map_iff in I. destruct I as ((a, x) & E & I). cbn in E. subst. eauto. Qed.

(** New histograms and books, in what way soever they are connected. *)
Definition more (W W' : world) : Prop := exists X Y, w_books W' = w_books W ++ X /\ vals W' = vals W ++ Y.
Lemma grows_more W W' : grows W W' -> more W W'.
Proof. intros (H & _). auto. Qed.
Lemma more_refl W : more W W.
Proof. exists [], []. rewrite !app_nil_r. auto. Qed.
Lemma more_trans W1 W2 W3 : more W1 W2 -> more W2 W3 -> more W1 W3.
Proof. intros (X & Y & E1 & E2) (X' & Y' & E3 & E4). exists (X ++ X'), (Y ++ Y'). rewrite E3, E4, E1, E2, !app_assoc. auto. Qed.
Lemma more_value W W' i h : more W W' -> nth_error (vals W) i = Some h -> nth_error (vals W') i = Some h.
Proof. intros (X & Y & _ & ->). apply nth_app_some. Qed.
Lemma more_len W W' : more W W' -> length (vals W) <= length (vals W') /\ length (w_books W) <= length (w_books W').
Proof. intros (X & Y & -> & ->). rewrite !app_length. lia. Qed.
Lemma more_follow W W' x p : more W W' -> sound W -> exists_in (w_books W) x -> follow (w_books W') x p = follow (w_books W) x p.
Proof. intros (X & Y & -> & _) S E. apply follow_more; auto. apply (entries_valid _ _ (so_entries _ S)). Qed.
Lemma more_content W W' b : more W W' -> b < length (w_books W) -> content_of (w_books W') b = content_of (w_books W) b.
Proof. intros (X & Y & -> & _) L. apply content_app_old. auto. Qed.

(** One name of a book, without wildcards. *)
Lemma getitem_name m B b n : keys_ok B -> cut_slash n = None ->
  getitem m B b n = if wild n then do l <- items m true false B b; Ok (Many (map snd (filter (fun nx => fnmatchcase (fst nx) n) l)))
                    else match look B b n with Some x => Ok (One x) | None => Err KeyError end.
Proof.
  intros K C. unfold getitem. destruct (wild n); auto. rewrite get_path by auto. rewrite (cut_none n C), at_path_cons. destruct (look B b n); auto.
Qed.
Lemma items_err m B b e r oh : items m r oh B b = Err e -> e = RecursionError \/ e = NameError.
Proof.
  unfold items. generalize (@None string) as path. revert b e. induction m as [|m IH]; intros b e path; [cbn; intros H; inversion H; auto|].
  rewrite iteritems_S. destruct (content_of B b) as [l|]; [|intros H; inversion H; auto].
  induction l as [|(n, x) l IHl]; cbn [iter_items]; [discriminate|]. fold (iter_items m r oh B path).
  destruct x as [h|c]; cbn [bind].
  - destruct (iter_items m r oh B path l) eqn:E; cbn [bind]; [discriminate|]. intros H; inversion H; subst. auto.
  - destruct r; cbn [bind].
    + destruct (iteritems_ m true oh B c (Some (under path n))) eqn:E; cbn [bind].
      * destruct (iter_items m true oh B path l) eqn:E2; cbn [bind]; [discriminate|]. intros H; inversion H; subst. auto.
      * intros H; inversion H; subst. eapply IH; eauto.
    + destruct (iter_items m false oh B path l) eqn:E2; cbn [bind]; [discriminate|]. intros H; inversion H; subst. auto.
Qed.
Lemma contains_false m B b n : keys_ok B -> cut_slash n = None -> contains m B b n = Ok false -> wild n = false /\ look B b n = None.
Proof.
  intros K C. unfold contains. rewrite (getitem_name m B b n K C). destruct (wild n).
  - destruct (items m true false B b) eqn:E; cbn [bind]; [discriminate|]. destruct (items_err _ _ _ _ _ _ E) as [->| ->]; discriminate.
  - destruct (look B b n); [discriminate|]. auto.
Qed.
Lemma contains_plain m B b n : keys_ok B -> cut_slash n = None -> wild n = false -> contains m B b n = Ok (match look B b n with Some _ => true | None => false end).
Proof. intros K C Wn. unfold contains. rewrite (getitem_name m B b n K C), Wn. destruct (look B b n); auto. Qed.

(** The entries of [l] that book [a] does not have. *)
Lemma missing_ok m B a la l r : keys_ok B -> content_of B a = Some la -> (forall k, In k (map fst l) -> cut_slash k = None) -> NoDup (map fst l) ->
  missing_items m B a l = Ok r ->
  (forall k x, In (k, x) r -> In (k, x) l /\ dget k la = None) /\ NoDup (map fst r) /\
  ((forall k, In k (map fst l) -> wild k = false) -> forall k, dget k la = None -> dget k r = dget k l).
Proof.
  intros K Ca. revert r. induction l as [|(n, x) l IH]; intros r C N E; cbn [missing_items] in E.
  - inversion E; subst. split; [intros k x []|]. split; [constructor|]. auto.
  - cbn [map fst In] in *. inversion N as [|? ? Nn N']; subst. destruct (contains m B a n) as [c|] eqn:Ec; cbn [bind] in E; [|discriminate].
    destruct (missing_items m B a l) as [r'|] eqn:Er; cbn [bind] in E; [|discriminate]. inversion E; subst r; clear E.
    destruct (IH r' (fun k I => C k (or_intror I)) N' eq_refl) as (H1 & H2 & H3). split; [|split].
    + intros k y I. destruct c; [destruct (H1 _ _ I); auto|]. destruct I as [I|I]; [|destruct (H1 _ _ I); auto].
      inversion I; subst. split; auto. destruct (contains_false m B a k K (C k (or_introl eq_refl)) Ec) as (_ & L). unfold look in L. rewrite Ca in L. auto.
    + destruct c; auto. cbn [map fst]. constructor; auto. intros I. apply in_names in I. destruct I as (y & I). destruct (H1 _ _ I) as (I' & _). apply (in_map fst) in I'. auto.
    + intros Wl k D. assert (Wn := Wl n (or_introl eq_refl)). rewrite (contains_plain m B a n K (C n (or_introl eq_refl)) Wn) in Ec. unfold look in Ec. rewrite Ca in Ec.
      cbn [dget]. destruct (String.eqb_spec k n) as [->|Nk].
      * rewrite D in Ec. inversion Ec; subst c. cbn [dget]. rewrite String.eqb_refl. auto.
      * destruct c; [|cbn [dget]; destruct (String.eqb_spec k n); [contradiction|]]; apply H3; auto.
Qed.

Section Add.
  Variable W0 : world.
  Hypothesis S0 : sound W0.
  Let B0 := w_books W0.
  Definition pair_ok (x y : entry) : Prop :=
    entry_ok B0 (length (vals W0)) x /\ entry_ok B0 (length (vals W0)) y /\
    forall p i j h k, follow B0 x p = Some (EHist i) -> follow B0 y p = Some (EHist j) ->
      nth_error (vals W0) i = Some h -> nth_error (vals W0) j = Some k -> same_groups (o_content h) (o_content k) = true.
  Definition no_wild (y : entry) : Prop := forall p k z, follow B0 y (p ++ [k]) = Some z -> wild k = false.
  Definition sum_at (W W' : world) (z : entry) (p : list string) (x y : option entry) : Prop :=
    match x, y with
    | Some (EHist i), Some (EHist j) => exists k h g s, follow (w_books W') z p = Some (EHist k) /\ length (vals W) <= k < length (vals W') /\
          nth_error (vals W0) i = Some h /\ nth_error (vals W0) j = Some g /\ hist_add h g = Ok s /\ nth_error (vals W') k = Some s
    | Some (EBook _), Some (EBook _) => exists d, follow (w_books W') z p = Some (EBook d) /\ length (w_books W) <= d < length (w_books W')
    | Some e, None => follow (w_books W') z p = Some e
    | None, Some e => follow (w_books W') z p = Some e
    | None, None => follow (w_books W') z p = None
    | _, _ => False
    end.
  Definition sum_result (W W' : world) (x y z : entry) : Prop :=
    entry_ok (w_books W') (length (vals W')) z /\
    (forall p, sum_at W W' z p (follow B0 x p) (follow B0 y p)) /\
    (forall p q e, fresh_entry W W' e -> follow (w_books W') z p = Some e -> follow (w_books W') z q = Some e -> p = q).
  Lemma old_entry x p e : entry_ok B0 (length (vals W0)) x -> follow B0 x p = Some e -> entry_ok B0 (length (vals W0)) e.
  Proof. intros H E. eapply follow_entry; eauto. apply (so_entries _ S0). Qed.
  Lemma sum_entry W W' x y z p e : pair_ok x y -> sum_result W W' x y z -> follow (w_books W') z p = Some e ->
    fresh_entry W W' e \/ entry_ok B0 (length (vals W0)) e.
  Proof.
    intros (Ox & Oy & _) (_ & R & _) E. specialize (R p). unfold sum_at in R.
    destruct (follow B0 x p) as [[i|c]|] eqn:Ex; destruct (follow B0 y p) as [[j|d]|] eqn:Ey; try contradiction.
    - destruct R as (k & h & g & s & Ek & Lk & _). rewrite E in Ek. inversion Ek; subst. left. exact Lk.
    - rewrite E in R. inversion R; subst. right. apply (old_entry x p); auto.
    - destruct R as (d' & Ed & Ld). rewrite E in Ed. inversion Ed; subst. left. exact Ld.
    - rewrite E in R. inversion R; subst. right. apply (old_entry x p); auto.
    - rewrite E in R. inversion R; subst. right. apply (old_entry y p); auto.
    - rewrite E in R. inversion R; subst. right. apply (old_entry y p); auto.
    - congruence.
  Qed.
  Lemma old_not_fresh W W' e : more W0 W -> fresh_entry W W' e -> entry_ok B0 (length (vals W0)) e -> False.
  Proof. intros M. apply more_len in M. fold B0 in M. destruct e; cbn; lia. Qed.
  Lemma sum_grow W W1 W2 W3 x y z : more W0 W -> more W W1 -> sound W2 -> more W2 W3 -> pair_ok x y -> sum_result W1 W2 x y z -> sum_result W W3 x y z.
  Proof.
    intros M0 M1 S2 M2 Pxy R. assert (L1 := more_len _ _ M1). assert (L2 := more_len _ _ M2).
    assert (Fw : forall p, follow (w_books W3) z p = follow (w_books W2) z p) by (intros p; apply more_follow; auto; eapply entry_exists; apply R).
    assert (Sub : forall p e, follow (w_books W2) z p = Some e -> fresh_entry W W3 e -> fresh_entry W1 W2 e).
    { intros p e E F. destruct (sum_entry _ _ _ _ _ _ _ Pxy R E) as [H|H]; auto. destruct (old_not_fresh W W3 e M0 F H). }
    destruct R as (O & R & J). split; [destruct z; cbn in *; lia|]. split.
    - intros p. specialize (R p). unfold sum_at in *. rewrite Fw. destruct (follow B0 x p) as [[i|c]|]; destruct (follow B0 y p) as [[j|d]|]; auto.
      + destruct R as (k & h & g & s & E & L & E1 & E2 & E3 & E4). exists k, h, g, s. split; auto. split; [lia|]. split; auto. split; auto. split; auto. eapply more_value; eauto.
      + destruct R as (d' & E & L). exists d'. split; auto. lia.
    - intros p q e F. rewrite !Fw. intros E1 E2. apply (J p q e); auto. eapply Sub; eauto.
  Qed.

  Definition item_sum (W W' : world) (lb : list (string * entry)) (a c : string * entry) : Prop :=
    fst a = fst c /\ match dget (fst a) lb with Some y => pair_ok (snd a) y /\ (no_wild y -> sum_result W W' (snd a) y (snd c)) | None => snd c = snd a end.
  Definition apart_items (W W' : world) (l : list (string * entry)) : Prop :=
    forall n1 z1 n2 z2 p q e, In (n1, z1) l -> In (n2, z2) l -> fresh_entry W W' e ->
      follow (w_books W') z1 p = Some e -> follow (w_books W') z2 q = Some e -> n1 = n2 /\ p = q.
  Definition keeps_closed (W W' : world) (a b : nat) : Prop :=
    forall R, closed R (w_books W) -> news R W -> R (EBook a) -> R (EBook b) -> closed R (w_books W').
  (** The results of the items of [a] that are also in [b] are new or the items themselves. *)
  Definition made (W : world) (a c : string * entry) : Prop :=
    snd c = snd a \/ match snd c with EHist k => length (vals W) <= k | EBook d => length (w_books W) <= d end.

  Lemma add_items_ok m a b la lb : content_of B0 a = Some la -> content_of B0 b = Some lb -> a < length B0 -> b < length B0 ->
    (forall W c d W' r, sound W -> more W0 W -> pair_ok (EBook c) (EBook d) -> book_add m W c d = (W', r) ->
       sound W' /\ more W W' /\ keeps_closed W W' c d /\
       (forall z, r = Ok z -> match z with EHist k => length (vals W) <= k < length (vals W') | EBook d => length (w_books W) <= d < length (w_books W') end /\
          (no_wild (EBook d) -> sum_result W W' (EBook c) (EBook d) z))) ->
    forall l W W' r, sound W -> more W0 W -> plain_keys l ->
      (forall n x, In (n, x) l -> entry_ok B0 (length (vals W0)) x) ->
      (forall n x y, In (n, x) l -> dget n lb = Some y -> pair_ok x y) ->
      incl l la ->
      add_items m (book_add m) b W l = (W', r) ->
      sound W' /\ more W W' /\ keeps_closed W W' a b /\
      (forall l', r = Ok l' -> Forall2 (item_sum W W' lb) l l' /\ Forall2 (made W) l l' /\
         (forall k x, In (k, x) l' -> entry_ok (w_books W') (length (vals W')) x) /\
         ((forall y n, dget n lb = Some y -> no_wild y) -> apart_items W W' l')).
  Proof.
    intros Cla Clb La Lb IH. induction l as [|(n, x) l IHl]; intros W W' r S M Pl Ol Hl Al E; cbn [add_items] in E; fold (add_items m (book_add m) b) in E.
    - inversion E; subst. split; auto. split; [apply more_refl|]. split; [intros R HR _ _ _; auto|]. intros l' Er. inversion Er; subst. split; [constructor|]. split; [constructor|].
      split; [intros k x []|]. intros _ n1 z1 n2 z2 p q e [].
    - assert (Pl' : plain_keys l) by (destruct Pl as (N & C); cbn [map fst] in *; inversion N; subst; split; auto; intros k I; apply C; right; auto).
      assert (Cn : cut_slash n = None) by (apply Pl; left; auto).
      assert (Nn : ~ In n (map fst l)) by (destruct Pl as (N & _); cbn [map fst] in N; inversion N; auto).
      assert (Lk : look (w_books W) b n = dget n lb) by (unfold look; rewrite (more_content W0 W b M Lb); fold B0; rewrite Clb; auto).
      assert (Step : forall W1 r1, (match getitem m (w_books W) b n with
                 | Err KeyError => (W, Ok x) | Err e => (W, Err e) | Ok (Many _) => (W, Err TypeError)
                 | Ok (One y) => match x, y with EHist i, EHist j => new_hist W (OAdd i j) | EBook c, EBook d => book_add m W c d | _, _ => (W, Err TypeError) end
                 end) = (W1, r1) ->
                sound W1 /\ more W W1 /\ keeps_closed W W1 a b /\
                (forall z, r1 = Ok z -> item_sum W W1 lb (n, x) (n, z) /\ made W (n, x) (n, z) /\ entry_ok (w_books W1) (length (vals W1)) z)).
      { assert (Same : forall W1 r1 e, (W, Err e : res entry) = (W1, r1) -> sound W1 /\ more W W1 /\ keeps_closed W W1 a b /\
          (forall z, r1 = Ok z -> item_sum W W1 lb (n, x) (n, z) /\ made W (n, x) (n, z) /\ entry_ok (w_books W1) (length (vals W1)) z)).
        { intros W1 r1 e E1. inversion E1; subst. split; auto. split; [apply more_refl|]. split; [intros R HR _ _ _; auto|]. discriminate. }
        intros W1 r1. rewrite (getitem_name m _ b n (so_keys _ S) Cn). destruct (wild n) eqn:Wn.
        { destruct (items m true false (w_books W) b) as [ls|e0] eqn:Ei; cbn [bind]; intros E1; [eapply Same; eauto|].
          destruct (items_err _ _ _ _ _ _ Ei) as [->| ->]; eapply Same; eauto. }
        rewrite Lk. destruct (dget n lb) as [y|] eqn:Dy.
        2:{ intros E1. inversion E1; subst. split; auto. split; [apply more_refl|]. split; [intros R HR _ _ _; auto|]. intros z Ez. inversion Ez; subst z.
            split; [unfold item_sum; cbn [fst snd]; rewrite Dy; auto|]. split; [left; auto|]. assert (O := Ol n x (or_introl eq_refl)). assert (L := more_len _ _ M). fold B0 in L. destruct x; cbn in *; lia. }
        assert (Pxy := Hl n x y (or_introl eq_refl) Dy).
        destruct x as [i|c], y as [j|d]; intros E1; try (eapply Same; eauto; fail).
        - destruct Pxy as (Ox & Oy & Sg). cbn in Ox, Oy.
          destruct (nth_error (vals W0) i) as [h|] eqn:Eh; [|apply nth_error_None in Eh; lia]. destruct (nth_error (vals W0) j) as [g|] eqn:Eg; [|apply nth_error_None in Eg; lia].
          assert (Eh' := more_value _ _ _ _ M Eh). assert (Eg' := more_value _ _ _ _ M Eg).
          assert (SO : safe_op (vals W) (OAdd i j)) by (cbn [safe_op]; rewrite Eh', Eg'; apply (Sg [] i j h g); auto).
          assert (VS : value_step (vals W) (OAdd i j) = new (vals W) (hist_add h g)) by (cbn [value_step]; unfold get_var; rewrite Eh', Eg'; auto).
          destruct (new_hist_ok W (OAdd i j) (hist_add h g) S SO VS) as (S1 & B1 & R1). rewrite E1 in *. cbn [fst snd] in *.
          split; auto. assert (KC : keeps_closed W W1 a b) by (intros R HR _ _ _; rewrite B1; auto). destruct (hist_add h g) as [s|e] eqn:Es.
          + destruct R1 as (-> & V1). assert (LL : length (vals W1) = Datatypes.S (length (vals W))) by (rewrite V1, app_length; cbn; lia).
            split; [exists [], [s]; rewrite app_nil_r; auto|]. split; auto. intros z Ez. inversion Ez; subst z.
            split; [|split; [right; cbn [snd]; lia|cbn; lia]]. unfold item_sum. cbn [fst snd]. rewrite Dy. split; auto. split.
            { split; auto. }
            intros _. split; [cbn; lia|]. split.
            * intros [|k p]; cbn [follow sum_at]; auto. exists (length (vals W)), h, g, s. split; auto. split; [lia|]. split; auto. split; auto. split; auto. rewrite V1, nth_app, Nat.eqb_refl. auto.
            * intros [|k p] [|k' q] e _; cbn [follow]; auto; discriminate.
          + destruct R1 as (-> & V1). split; [exists [], []; rewrite !app_nil_r; auto|]. split; auto. discriminate.
        - destruct (IH W c d W1 r1 S M Pxy E1) as (S1 & M1 & KC & R1). split; auto. split; auto. split.
          + intros R HR Nw Ra Rb. apply KC; auto.
            * apply (HR a la n); auto; [rewrite (more_content W0 W a M La); auto|apply Al; left; auto].
            * apply (HR b lb n); auto; [rewrite (more_content W0 W b M Lb); auto|apply dget_in; auto].
          + intros z Ez. destruct (R1 z Ez) as (Fz & Rz). split; [|split].
            * unfold item_sum. cbn [fst snd]. rewrite Dy. auto.
            * right. cbn [snd]. destruct z; lia.
            * destruct z; cbn; lia. }
      destruct (match getitem m (w_books W) b n with
                 | Err KeyError => (W, Ok x) | Err e => (W, Err e) | Ok (Many _) => (W, Err TypeError)
                 | Ok (One y) => match x, y with EHist i, EHist j => new_hist W (OAdd i j) | EBook c, EBook d => book_add m W c d | _, _ => (W, Err TypeError) end
                 end) as [W1 [z|e]] eqn:E1.
      2:{ inversion E; subst. destruct (Step _ _ eq_refl) as (S1 & G1 & K1 & _). split; auto. split; auto. split; auto. discriminate. }
      destruct (Step _ _ eq_refl) as (S1 & M1 & KC1 & R1). destruct (R1 z eq_refl) as (I1 & Md1 & O1). clear Step R1.
      assert (M01 := more_trans _ _ _ M M1).
      destruct (add_items m (book_add m) b W1 l) as [W2 [l2|e]] eqn:E2; inversion E; subst; clear E;
        (destruct (IHl _ _ _ S1 M01 Pl' (fun n x I => Ol n x (or_intror I)) (fun n x y I => Hl n x y (or_intror I)) (fun x I => Al x (or_intror I)) E2) as (S2 & M2 & KC2 & R2);
         split; auto; split; [eapply more_trans; eauto|];
         split; [intros R HR Nw Ra Rb; assert (L1 := more_len _ _ M1); apply KC2; auto; apply (news_mono R W); tauto|]); intros l' Er; inversion Er; subst l'.
      destruct (R2 l2 eq_refl) as (F2 & Md2 & O2 & J2). clear Er R2. assert (L1 := more_len _ _ M1). assert (L2 := more_len _ _ M2).
      assert (Fw : forall p, follow (w_books W') z p = follow (w_books W1) z p) by (intros p; apply more_follow; auto; eapply entry_exists; apply O1).
      assert (M02 := more_trans _ _ _ M01 M2).
      split; [|split; [|split]].
      + constructor.
        * destruct I1 as (En & I1). split; auto. cbn [fst snd] in *. destruct (dget n lb) as [y|] eqn:Dy; auto. destruct I1 as (Pxy & I1). split; auto. intros Nw.
          exact (sum_grow W W W1 W' x y z M (more_refl W) S1 M2 Pxy (I1 Nw)).
        * eapply Forall2_weaken; [|exact F2]. intros (n1, x1) (n2, x2) (En & I2). split; auto. cbn [fst snd] in *. destruct (dget n1 lb) as [y|]; auto. destruct I2 as (Pxy & I2).
          split; auto. intros Nw. exact (sum_grow W W1 W' W' _ _ _ M M1 S2 (more_refl W') Pxy (I2 Nw)).
      + constructor; auto. eapply Forall2_weaken; [|exact Md2]. intros (n1, x1) (n2, x2) [H|H]; [left; auto|right]. cbn [snd] in *. destruct x2; lia.
      + intros k e [I|I]; [inversion I; subst|eauto]. destruct e; cbn in *; lia.
      + intros Nw.
        assert (Hz : forall p e, fresh_entry W W' e -> follow (w_books W1) z p = Some e -> fresh_entry W W1 e).
        { intros p e Fe Ee. destruct I1 as (_ & I1). cbn [fst snd] in I1. destruct (dget n lb) as [y|] eqn:Dy.
          - destruct I1 as (Pxy & I1). destruct (sum_entry _ _ _ _ _ _ _ Pxy (I1 (Nw _ _ Dy)) Ee) as [H|H]; auto. destruct (old_not_fresh W W' e M Fe H).
          - subst z. destruct (old_not_fresh W W' e M Fe). eapply old_entry; [apply (Ol n x); left; auto|]. rewrite <- Ee. symmetry. apply (more_follow W0 W1); auto.
            eapply entry_exists. apply (Ol n x). left. auto. }
        assert (Jz : forall p q e, fresh_entry W W' e -> follow (w_books W1) z p = Some e -> follow (w_books W1) z q = Some e -> p = q).
        { intros p q e Fe E1' E2'. assert (Fe' := Hz _ _ Fe E1'). destruct I1 as (_ & I1). cbn [fst snd] in I1. destruct (dget n lb) as [y|] eqn:Dy.
          - destruct I1 as (Pxy & I1). destruct (I1 (Nw _ _ Dy)) as (_ & _ & J). eapply J; eauto.
          - subst z. destruct (old_not_fresh W W' e M Fe). eapply old_entry; [apply (Ol n x); left; auto|]. rewrite <- E1'. symmetry. apply (more_follow W0 W1); auto.
            eapply entry_exists. apply (Ol n x). left. auto. }
        assert (Hl2 : forall n2 z2 q e, In (n2, z2) l2 -> fresh_entry W W' e -> follow (w_books W') z2 q = Some e -> fresh_entry W1 W' e).
        { intros n2 z2 q e I2 Fe Ee. assert (exists x2, In (n2, x2) l /\ item_sum W1 W' lb (n2, x2) (n2, z2)) as (x2 & Ix & (_ & It)).
          { clear - F2 I2. induction F2 as [|(n1, x1) (n1', z1) l l2 (En & H) F IH]; [destruct I2|]. cbn in En. subst n1'. destruct I2 as [I2|I2].
            - inversion I2; subst. exists x1. split; [left; auto|]. split; auto.
            - destruct (IH I2) as (x2 & Ix & H2). exists x2. split; [right; auto|auto]. }
          cbn [fst snd] in It. destruct (dget n2 lb) as [y|] eqn:Dy.
          - destruct It as (Pxy & It). destruct (sum_entry _ _ _ _ _ _ _ Pxy (It (Nw _ _ Dy)) Ee) as [H|H]; auto. destruct (old_not_fresh W W' e M Fe H).
          - subst z2. destruct (old_not_fresh W W' e M Fe). eapply old_entry; [apply (Ol n2 x2); right; auto|]. rewrite <- Ee. symmetry. apply (more_follow W0 W'); auto.
            eapply entry_exists. apply (Ol n2 x2). right. auto. }
        assert (NO : forall p q e n2 z2, fresh_entry W W' e -> follow (w_books W') z p = Some e -> In (n2, z2) l2 -> follow (w_books W') z2 q = Some e -> False).
        { intros p q e n2 z2 Fe E1' I2 E2'. rewrite Fw in E1'. assert (A := Hz _ _ Fe E1'). assert (C := Hl2 _ _ _ _ I2 Fe E2'). destruct e; cbn in A, C; lia. }
        intros n1 z1 n2 z2 p q e [I1'|I1'] [I2'|I2'] Fe E1' E2'.
        * inversion I1'; inversion I2'; subst. split; auto. rewrite Fw in E1', E2'. eapply Jz; eauto.
        * inversion I1'; subst. destruct (NO _ _ _ _ _ Fe E1' I2' E2').
        * inversion I2'; subst. destruct (NO _ _ _ _ _ Fe E2' I1' E1').
        * eapply J2; eauto.
  Qed.
  Lemma add_ok m : forall W a b W' r, sound W -> more W0 W -> pair_ok (EBook a) (EBook b) -> book_add m W a b = (W', r) ->
       sound W' /\ more W W' /\ keeps_closed W W' a b /\
       (forall z, r = Ok z -> match z with EHist k => length (vals W) <= k < length (vals W') | EBook d => length (w_books W) <= d < length (w_books W') end /\
          (no_wild (EBook b) -> sum_result W W' (EBook a) (EBook b) z)).
  Proof.
    induction m as [|m IH]; intros W a b W' r S M Pab E; cbn [book_add] in E.
    - inversion E; subst. split; auto. split; [apply more_refl|]. split; [intros R HR _ _ _; auto|]. discriminate.
    - destruct Pab as (La & Lb & Sg). cbn in La, Lb. change (content_or (w_books W)) with (content_of (w_books W)) in E.
      rewrite (more_content W0 W a M La), (more_content W0 W b M Lb) in E. fold B0 in E.
      destruct (content_of B0 a) as [la|] eqn:Ca; [|apply content_some in La; destruct La; congruence].
      destruct (content_of B0 b) as [lb|] eqn:Cb; [|apply content_some in Lb; destruct Lb; congruence].
      destruct (so_keys _ S0 _ _ Ca) as (Nda & Pka). destruct (so_keys _ S0 _ _ Cb) as (Ndb & Pkb).
      assert (Oa : forall n x, In (n, x) la -> entry_ok B0 (length (vals W0)) x) by (intros n x I; exact (so_entries _ S0 a la n x Ca I)).
      assert (Ob : forall n x, In (n, x) lb -> entry_ok B0 (length (vals W0)) x) by (intros n x I; exact (so_entries _ S0 b lb n x Cb I)).
      assert (Hl : forall n x y, In (n, x) la -> dget n lb = Some y -> pair_ok x y).
      { intros n x y I D. split; [eauto|]. split; [eapply Ob; apply dget_in; eauto|]. intros p i j h k E1 E2. apply (Sg (n :: p)); rewrite follow_cons; unfold look.
        - rewrite Ca, (in_dget n la x); auto.
        - rewrite Cb, D. auto. }
      destruct (add_items m (book_add m) b W la) as [W1 [l'|e]] eqn:E1;
        destruct (add_items_ok m a b la lb Ca Cb La Lb IH la W W1 _ S M (conj Nda Pka) Oa Hl (incl_refl _) E1) as (S1 & M1 & KC1 & R1).
      2:{ inversion E; subst. split; auto. split; auto. split; auto. discriminate. }
      destruct (R1 l' eq_refl) as (F1 & Md1 & O1 & J1). clear R1. assert (M01 := more_trans _ _ _ M M1).
      destruct (missing_items m (w_books W1) a lb) as [mr|e] eqn:Em.
      2:{ inversion E; subst. split; auto. split; auto. split; auto. discriminate. }
      assert (Ca1 : content_of (w_books W1) a = Some la) by (rewrite (more_content W0 W1 a M01 La); auto).
      destruct (missing_ok m _ a la lb mr (so_keys _ S1) Ca1 Pkb Ndb Em) as (Hm1 & Hm2 & Hm3).
      assert (Nm : map fst l' = map fst la) by (clear - F1; induction F1 as [|x y l l' (E & _) F IH]; cbn [map]; congruence).
      assert (Pl : plain_keys (l' ++ mr)).
      { unfold plain_keys. rewrite map_app, Nm. split.
        - clear - Nda Hm1 Hm2. induction (map fst la) as [|k t IHt] eqn:Ek in la, Nda, Hm1 |- *; auto.
          cbn [app]. destruct la as [|(k0, x0) la]; [discriminate|]. cbn [map fst] in Ek. inversion Ek; subst k0 t. inversion Nda; subst. constructor.
          + rewrite in_app_iff. intros [H|H]; auto. apply in_names in H. destruct H as (y & H). destruct (Hm1 _ _ H) as (_ & D). cbn [dget] in D. rewrite String.eqb_refl in D. discriminate.
          + apply (IHt la); auto. intros k1 x1 H. destruct (Hm1 _ _ H) as (H' & D). split; auto. cbn [dget] in D. destruct (String.eqb k1 k); [discriminate|auto].
        - intros k I. apply in_app_or in I. destruct I as [I|I]; auto. apply in_names in I. destruct I as (y & I). destruct (Hm1 _ _ I) as (I' & _). apply (in_map fst) in I'. auto. }
      assert (L01 := more_len _ _ M01). fold B0 in L01. assert (L1 := more_len _ _ M1).
      assert (Oe : forall k x, In (k, x) (l' ++ mr) -> entry_ok (w_books W1) (length (vals W1)) x).
      { intros k x I. apply in_app_or in I. destruct I as [I|I]; [eauto|]. destruct (Hm1 _ _ I) as (I' & _). apply Ob in I'. destruct x; cbn in *; lia. }
      destruct (new_dict_ok W1 (l' ++ mr) S1 Pl Oe) as (E2 & S2). rewrite E2 in E. inversion E; subst W' r. clear E E2.
      set (B2 := w_books W1 ++ [book_of (l' ++ mr)]) in *.
      assert (LB2 : length B2 = Datatypes.S (length (w_books W1))) by (unfold B2; rewrite app_length; cbn; lia).
      assert (M2 : more W1 (with_books W1 B2)) by (exists [book_of (l' ++ mr)], []; rewrite app_nil_r; auto).
      split; auto. split; [eapply more_trans; eauto|]. split.
      { intros R HR Nw Ra Rb. unfold B2. cbn [with_books w_books]. apply closed_new; auto. intros k x I. apply in_app_or in I. destruct I as [I|I].
        - assert (exists x0, In (k, x0) la /\ made W (k, x0) (k, x)) as (x0 & Ix & Mx).
          { clear - F1 Md1 I. revert Md1. induction F1 as [|(n1, x1) (n2, x2) l l' (En & _) F IH]; intros Md; [destruct I|]. inversion Md; subst. cbn in En. subst n2.
            destruct I as [I|I]; [inversion I; subst; exists x1; split; [left; auto|auto]|]. destruct (IH I H4) as (x0 & Ix & Mx). exists x0. split; [right; auto|auto]. }
          destruct Mx as [Mx|Mx]; cbn [snd] in Mx.
          + subst x. apply (HR a la k); auto. rewrite (more_content W0 W a M La). auto.
          + destruct x; apply Nw; auto.
        - destruct (Hm1 _ _ I) as (I' & _). apply (HR b lb k); auto. rewrite (more_content W0 W b M Lb). auto. }
      intros z Ez. inversion Ez; subst z. clear Ez. cbn [with_books w_books]. split; [lia|]. intros Nw.
      assert (Wl : forall k, In k (map fst lb) -> wild k = false).
      { intros k I. apply in_names in I. destruct I as (y & I). apply (Nw [] k y). cbn [app]. rewrite follow_cons. unfold look. rewrite Cb, (in_dget k lb y); auto. }
      assert (Nwy : forall y n, dget n lb = Some y -> no_wild y).
      { intros y n D p k z Ez. apply (Nw (n :: p) k z). cbn [app]. rewrite follow_cons. unfold look. rewrite Cb, D. auto. }
      specialize (Hm3 Wl). specialize (J1 Nwy).
      assert (Lk : forall k p, follow B2 (EBook (length (w_books W1))) (k :: p) = match dget k (l' ++ mr) with Some z => follow (w_books W1) z p | None => None end).
      { intros k p. rewrite follow_cons. unfold look, content_of, B2. rewrite nth_last. cbn [option_map b_content book_of]. destruct (dget k (l' ++ mr)) as [z|] eqn:D; auto.
        apply follow_more; [apply (entries_valid _ _ (so_entries _ S1))|]. eapply entry_exists. eapply Oe. apply dget_in. eauto. }
      assert (Dg : forall k, match dget k la with
                             | Some x => exists z, dget k (l' ++ mr) = Some z /\ In (k, z) l' /\ item_sum W W1 lb (k, x) (k, z)
                             | None => dget k (l' ++ mr) = dget k lb end).
      { intros k. rewrite dget_app. specialize (Hm3 k). assert (H : match dget k la with Some x => exists z, dget k l' = Some z /\ In (k, z) l' /\ item_sum W W1 lb (k, x) (k, z) | None => dget k l' = None end).
        { clear - F1. induction F1 as [|(n, x) (n', z) l l' H F IH]; cbn [dget]; auto. assert (En : n = n') by apply H. subst n'. destruct (String.eqb_spec k n) as [->|].
          - exists z. split; auto. split; [left; auto|auto].
          - destruct (dget k l); auto. destruct IH as (z0 & D & I & J). exists z0. split; auto. split; [right; auto|auto]. }
        destruct (dget k la) as [x|].
        - destruct H as (z & D & I & J). rewrite D. exists z. auto.
        - rewrite H. auto. }
      assert (Old : forall x p, entry_ok B0 (length (vals W0)) x -> follow (w_books W1) x p = follow B0 x p).
      { intros x p O. apply more_follow; auto. eapply entry_exists; eauto. }
      split; [cbn; lia|]. cbn [with_books w_books]. split.
      + intros [|k p]; [cbn [follow sum_at]; exists (length (w_books W1)); cbn [with_books w_books]; split; auto; lia|].
        unfold sum_at. cbn [with_books w_books]. rewrite Lk, !follow_cons. unfold look. rewrite Ca, Cb. specialize (Dg k).
        destruct (dget k la) as [x|] eqn:Da.
        * destruct Dg as (z & -> & Iz & (_ & It)). cbn [fst snd] in It. destruct (dget k lb) as [y|] eqn:Db.
          -- destruct It as (Pxy & It). destruct (It (Nwy _ _ Db)) as (_ & R & _). specialize (R p). unfold sum_at in R.
             destruct (follow B0 x p) as [[i|c]|]; destruct (follow B0 y p) as [[j|d]|]; auto.
             destruct R as (d' & Ed & Ld). exists d'. split; auto. lia.
          -- subst z. rewrite Old by (apply (Oa k); apply dget_in; auto). destruct (follow B0 x p) as [[i|c]|]; auto.
        * rewrite Dg. destruct (dget k lb) as [y|] eqn:Db; auto. rewrite Old by (apply (Ob k); apply dget_in; auto). destruct (follow B0 y p) as [[i|c]|]; auto.
      + assert (Top : forall k p, follow B2 (EBook (length (w_books W1))) (k :: p) <> Some (EBook (length (w_books W1)))).
        { intros k p. rewrite Lk. destruct (dget k (l' ++ mr)) as [z|] eqn:D; [|discriminate]. intros Ez. assert (O := follow_entry _ _ p (so_entries _ S1) z _ (Oe _ _ (dget_in _ _ _ D)) Ez). cbn in O. lia. }
        (* what is new below the result is in l' *)
        assert (In' : forall k p e, fresh_entry W (with_books W1 B2) e -> follow B2 (EBook (length (w_books W1))) (k :: p) = Some e ->
                  exists z, In (k, z) l' /\ follow (w_books W1) z p = Some e /\ fresh_entry W W1 e).
        { intros k p e Fe. rewrite Lk. specialize (Dg k). destruct (dget k la) as [x|] eqn:Da.
          - destruct Dg as (z & -> & Iz & _). intros Ez. exists z. split; auto. split; auto.
            assert (O := follow_entry _ _ p (so_entries _ S1) z _ (Oe k z (in_or_app _ _ _ (or_introl Iz))) Ez). destruct e; cbn in *; lia.
          - rewrite Dg. destruct (dget k lb) as [y|] eqn:Db; [|discriminate]. rewrite Old by (apply (Ob k); apply dget_in; auto). intros Ez. exfalso.
            apply (old_not_fresh W (with_books W1 B2) e M Fe). apply (old_entry y p); auto. apply (Ob k). apply dget_in. auto. }
        intros [|k p] [|k' q] e Fe; auto.
        * cbn [follow]. intros E. inversion E; subst e. intros C. destruct (Top _ _ C).
        * cbn [follow]. intros C E. inversion E; subst e. destruct (Top _ _ C).
        * intros E1' E2'. destruct (In' _ _ _ Fe E1') as (z1 & I1 & G1 & Fe'). destruct (In' _ _ _ Fe E2') as (z2 & I2 & G2 & _).
          destruct (J1 _ _ _ _ _ _ _ I1 I2 Fe' G1 G2) as (-> & ->). auto.
  Qed.
End Add.
