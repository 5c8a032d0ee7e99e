(** Books and sharing: when sums of books fail. *)
From Coq Require Import String.
From Verif Require Import Base Num Axis Calc Content Fill HistAlg AlgSpec HistAlgProofs HistAlgMain Heap HeapSpec HeapProofs HeapAdd HeapMain HeapMain2
  Tree Instr Elem HistFill Glob Book BookSpec BookProofs BookPaths BookIter BookFill BookHeap BookHeapSpec BookHeapProofs BookHeapAdd.
Local Open Scope string_scope.
Local Open Scope list_scope.

(** The sum of the entries [x] and [y] fails with [e] because of the entries at a common path: two histograms whose sum fails, a
    histogram and a book, or two books
    nested deeper than the limit of recursion. *)
Definition sum_fails (limit : nat) (W : world) (x y : entry) (e : err) : Prop := exists p,
  match follow (w_books W) x p, follow (w_books W) y p with
  | Some (EHist i), Some (EHist j) => exists h g, hist_value W i = Some h /\ hist_value W j = Some g /\ hist_add h g = Err e
  | Some (EBook _), Some (EBook _) => e = RecursionError /\ limit <= List.length p
  | Some _, Some _ => e = TypeError
  | _, _ => False
  end.

(** Nothing at a common path stands in the way of the sum. *)
Definition summable (limit : nat) (W : world) (x y : entry) : Prop := forall p,
  match follow (w_books W) x p, follow (w_books W) y p with
  | Some (EHist i), Some (EHist j) => exists h g s, hist_value W i = Some h /\ hist_value W j = Some g /\ hist_add h g = Ok s
  | Some (EBook _), Some (EBook _) => List.length p < limit
  | Some _, Some _ => False
  | _, _ => True
  end.

Section Total.
  Variable W0 : world.
  Hypothesis S0 : sound W0.
  Let B0 := w_books W0.
  Lemma add_items_err m a b la lb : content_of B0 a = Some la -> content_of B0 b = Some lb -> a < length B0 -> b < length B0 ->
    (forall W c d W' e, sound W -> more W0 W -> pair_ok W0 (EBook c) (EBook d) -> no_wild W0 (EBook c) -> no_wild W0 (EBook d) -> book_add m W c d = (W', Err e) ->
       sum_fails m W0 (EBook c) (EBook d) e) ->
    forall l W W' e, sound W -> more W0 W -> plain_keys l ->
      (forall n x, In (n, x) l -> entry_ok B0 (length (vals W0)) x) ->
      (forall n x y, In (n, x) l -> dget n lb = Some y -> pair_ok W0 x y) ->
      (forall n x, In (n, x) l -> wild n = false /\ no_wild W0 x) -> (forall n y, dget n lb = Some y -> no_wild W0 y) ->
      incl l la ->
      add_items m (book_add m) b W l = (W', Err e) -> exists n x y, In (n, x) l /\ dget n lb = Some y /\ sum_fails m W0 x y e.
  Proof.
    intros Cla Clb La Lb IH. induction l as [|(n, x) l IHl]; intros W W' e S M Pl Ol Hl Hw Hwb Al E; [discriminate|].
    assert (Pl' : plain_keys l) by (destruct Pl as (N & C); cbn [map fst] in *; inversion N; subst; split; auto; intros k I; apply C; right; auto).
    assert (Cn : cut_slash n = None) by (apply Pl; left; auto).
    assert (P1 : plain_keys [(n, x)]) by (split; [constructor; [intros []|constructor]|]; intros k [<-|[]]; auto).
    assert (Lk : look (w_books W) b n = dget n lb) by (unfold look; rewrite (more_content W0 W b M Lb); fold B0; rewrite Clb; auto).
    destruct (Hw n x (or_introl eq_refl)) as (Wn & Wx).
    pose proof (add_items_ok W0 S0 m a b la lb Cla Clb La Lb (add_ok W0 S0 m) [(n, x)]) as Head.
    cbn [add_items] in E, Head. fold (add_items m (book_add m) b) in E.
    match type of E with (match ?X with pair _ _ => _ end) = _ => destruct X as [W1 [z|e1]] eqn:E1 end.
    - destruct (Head W W1 (Ok [(n, z)]) S M P1) as (S1 & M1 & _).
      { intros n0 x0 [I|[]]. apply (Ol n0 x0). left. exact I. }
      { intros n0 x0 y0 [I|[]] D. apply (Hl n0 x0 y0); auto. left. exact I. }
      { intros p [<-|[]]. apply Al. left. auto. }
      { rewrite E1. reflexivity. }
      destruct (add_items m (book_add m) b W1 l) as [W2 [l2|e2]] eqn:E2; [discriminate|]. inversion E; subst.
      destruct (IHl W1 W' e S1 (more_trans _ _ _ M M1) Pl' (fun n x I => Ol n x (or_intror I)) (fun n x y I => Hl n x y (or_intror I)) (fun n x I => Hw n x (or_intror I)) Hwb
        (fun x I => Al x (or_intror I)) E2) as (n' & x' & y' & I' & D' & F'). exists n', x', y'. split; [right; auto|auto].
    - inversion E; subst W' e. clear E. rewrite (getitem_name m _ b n (so_keys _ S) Cn), Wn, Lk in E1.
      destruct (dget n lb) as [y|] eqn:Dy; [|discriminate]. exists n, x, y. split; [left; auto|]. split; auto.
      assert (Pxy := Hl n x y (or_introl eq_refl) Dy). destruct x as [i|c], y as [j|d].
      + destruct Pxy as (Ox & Oy & Sg). cbn in Ox, Oy.
        destruct (nth_error (vals W0) i) as [h|] eqn:Eh; [|apply nth_error_None in Eh; lia]. destruct (nth_error (vals W0) j) as [g|] eqn:Eg; [|apply nth_error_None in Eg; lia].
        assert (Eh' := more_value _ _ _ _ M Eh). assert (Eg' := more_value _ _ _ _ M Eg).
        assert (SO : safe_op (vals W) (OAdd i j)) by (cbn [safe_op]; rewrite Eh', Eg'; apply (Sg [] i j h g); auto).
        assert (VS : value_step (vals W) (OAdd i j) = new (vals W) (hist_add h g)) by (cbn [value_step]; unfold get_var; rewrite Eh', Eg'; auto).
        destruct (new_hist_ok W (OAdd i j) (hist_add h g) S SO VS) as (_ & _ & R1). rewrite E1 in R1. cbn [fst snd] in R1.
        exists []. cbn [follow]. exists h, g. split; auto. split; auto. destruct (hist_add h g); destruct R1 as (R1 & _); congruence.
      + inversion E1; subst. exists []. reflexivity.
      + inversion E1; subst. exists []. reflexivity.
      + exact (IH W c d W1 e1 S M Pxy Wx (Hwb _ _ Dy) E1).
  Qed.
  Lemma missing_total m B a l : keys_ok B -> (forall k, In k (map fst l) -> cut_slash k = None) -> (forall k, In k (map fst l) -> wild k = false) -> exists r, missing_items m B a l = Ok r.
  Proof.
    intros K C Hw. induction l as [|(n, x) l IH]; [exists []; reflexivity|]. cbn [missing_items]. cbn [map fst] in *.
    rewrite (contains_plain m B a n K (C n (or_introl eq_refl)) (Hw n (or_introl eq_refl))). cbn [bind].
    destruct IH as (r & ->); [intros k I; apply C; right; auto|intros k I; apply Hw; right; auto|]. cbn [bind]. eauto.
  Qed.
  Lemma add_err m : forall W a b W' e, sound W -> more W0 W -> pair_ok W0 (EBook a) (EBook b) -> no_wild W0 (EBook a) -> no_wild W0 (EBook b) ->
    book_add m W a b = (W', Err e) -> sum_fails m W0 (EBook a) (EBook b) e.
  Proof.
    induction m as [|m IH]; intros W a b W' e S M Pab Wa Wb E; cbn [book_add] in E.
    - inversion E; subst. exists []. cbn [follow]. split; [reflexivity|cbn; lia].
    - destruct Pab as (La & Lb & Sg). cbn in La, Lb. change (content_or (w_books W)) with (content_of (w_books W)) in E.
      rewrite (more_content W0 W a M La), (more_content W0 W b M Lb) in E. fold B0 in E.
      destruct (content_of B0 a) as [la|] eqn:Ca; [|exfalso; apply content_some in La; destruct La as (lx & La); fold B0 in La; congruence].
      destruct (content_of B0 b) as [lb|] eqn:Cb; [|exfalso; apply content_some in Lb; destruct Lb as (lx & Lb); fold B0 in Lb; congruence].
      destruct (so_keys _ S0 _ _ Ca) as (Nda & Pka). destruct (so_keys _ S0 _ _ Cb) as (Ndb & Pkb).
      assert (Oa : forall n x, In (n, x) la -> entry_ok B0 (length (vals W0)) x) by (intros n x I; exact (so_entries _ S0 a la n x Ca I)).
      assert (Ob : forall n x, In (n, x) lb -> entry_ok B0 (length (vals W0)) x) by (intros n x I; exact (so_entries _ S0 b lb n x Cb I)).
      assert (Fa : forall n x, In (n, x) la -> forall p, follow B0 (EBook a) (n :: p) = follow B0 x p).
      { intros n x I p. rewrite follow_cons. unfold look. rewrite Ca, (in_dget n la x); auto. }
      assert (Fb : forall n y, dget n lb = Some y -> forall p, follow B0 (EBook b) (n :: p) = follow B0 y p).
      { intros n y D p. rewrite follow_cons. unfold look. rewrite Cb, D. auto. }
      assert (Hl : forall n x y, In (n, x) la -> dget n lb = Some y -> pair_ok W0 x y).
      { intros n x y I D. split; [eapply Oa; eauto|]. split; [eapply Ob; apply dget_in; eauto|]. intros p i j h k E1 E2. apply (Sg (n :: p)); fold B0; [rewrite (Fa n x I); auto|rewrite (Fb n y D); auto]. }
      assert (Hwa : forall n x, In (n, x) la -> wild n = false /\ no_wild W0 x).
      { intros n x I. split; [apply (Wa [] n x); cbn [app]; fold B0; rewrite (Fa n x I); reflexivity|]. intros p k z Ez. apply (Wa (n :: p) k z). cbn [app]. fold B0. rewrite (Fa n x I). auto. }
      assert (Hwb : forall n y, dget n lb = Some y -> no_wild W0 y).
      { intros n y D p k z Ez. apply (Wb (n :: p) k z). cbn [app]. fold B0. rewrite (Fb n y D). auto. }
      assert (Up : forall n x y e, In (n, x) la -> dget n lb = Some y -> sum_fails m W0 x y e -> sum_fails (Datatypes.S m) W0 (EBook a) (EBook b) e).
      { intros n x y e0 I D (p & F). exists (n :: p). fold B0 in F |- *. rewrite (Fa n x I), (Fb n y D). destruct (follow B0 x p) as [[?|?]|], (follow B0 y p) as [[?|?]|]; auto.
        destruct F as (F1 & F2). split; auto. cbn [List.length]. lia. }
      destruct (add_items m (book_add m) b W la) as [W1 [l'|e1]] eqn:E1.
      2:{ inversion E; subst. destruct (add_items_err m a b la lb Ca Cb La Lb IH la W W' e S M (conj Nda Pka) Oa Hl Hwa Hwb (incl_refl _) E1) as (n & x & y & I & D & F). eapply Up; eauto. }
      destruct (add_items_ok W0 S0 m a b la lb Ca Cb La Lb (add_ok W0 S0 m) la W W1 _ S M (conj Nda Pka) Oa Hl (incl_refl _) E1) as (S1 & M1 & _ & R1).
      destruct (R1 l' eq_refl) as (F1 & Md1 & O1 & _). clear R1. assert (M01 := more_trans _ _ _ M M1).
      assert (Wl : forall k, In k (map fst lb) -> wild k = false).
      { intros k I. apply in_names in I. destruct I as (y & I). apply (Wb [] k y). cbn [app]. fold B0. rewrite (Fb k y); [reflexivity|]. apply in_dget; auto. }
      destruct (missing_total m (w_books W1) a lb (so_keys _ S1) Pkb Wl) as (mr & Em). rewrite Em in E.
      assert (Ca1 : content_of (w_books W1) a = Some la) by (rewrite (more_content W0 W1 a M01 La); auto).
      destruct (missing_ok m _ a la lb mr (so_keys _ S1) Ca1 Pkb Ndb Em) as (Hm1 & Hm2 & _).
      assert (Nm : map fst l' = map fst la) by (clear - F1; induction F1 as [|x y l l' (E & _) F IH]; cbn [map]; congruence).
      assert (Pl : plain_keys (l' ++ mr)).
      { unfold plain_keys. rewrite map_app, Nm. split.
        - clear - Nda Hm1 Hm2. induction (map fst la) as [|k t IHt] eqn:Ek in la, Nda, Hm1 |- *; auto.
          cbn [app]. destruct la as [|(k0, x0) la]; [discriminate|]. cbn [map fst] in Ek. inversion Ek; subst k0 t. inversion Nda; subst. constructor.
          + rewrite in_app_iff. intros [H|H]; auto. apply in_names in H. destruct H as (y & H). destruct (Hm1 _ _ H) as (_ & D). cbn [dget] in D. rewrite String.eqb_refl in D. discriminate.
          + apply (IHt la); auto. intros k1 x1 H. destruct (Hm1 _ _ H) as (H' & D). split; auto. cbn [dget] in D. destruct (String.eqb k1 k); [discriminate|auto].
        - intros k I. apply in_app_or in I. destruct I as [I|I]; auto. apply in_names in I. destruct I as (y & I). destruct (Hm1 _ _ I) as (I' & _). apply (in_map fst) in I'. auto. }
      assert (L01 := more_len _ _ M01). fold B0 in L01. assert (L1 := more_len _ _ M1).
      assert (Oe : forall k x, In (k, x) (l' ++ mr) -> entry_ok (w_books W1) (length (vals W1)) x).
      { intros k x I. apply in_app_or in I. destruct I as [I|I]; [eauto|]. destruct (Hm1 _ _ I) as (I' & _). apply Ob in I'. destruct x; cbn in *; lia. }
      destruct (new_dict_ok W1 (l' ++ mr) S1 Pl Oe) as (E2 & S2). rewrite E2 in E. discriminate.
  Qed.
End Total.
