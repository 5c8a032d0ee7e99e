(** Books and sharing, part 6: += of books that share nothing. *)
From Coq Require Import String.
From Verif Require Import Base Num Axis Calc Content Fill HistAlg AlgSpec HistAlgProofs HistAlgMain Heap HeapSpec HeapProofs HeapAdd HeapMain HeapMain2
  Tree Instr Elem HistFill Glob Book BookSpec BookProofs BookPaths BookIter BookFill BookHeap BookHeapSpec BookHeapProofs BookHeapAdd BookHeapFrame BookHeapActs BookHeapMain.
Local Open Scope string_scope.
Local Open Scope list_scope.

Lemma value_vals W i : hist_value W i = nth_error (vals W) i.
Proof. reflexivity. Qed.
Lemma kept_unchanged R W W' x : sound W -> kept R W W' -> fine W x -> (forall p y, follow (w_books W) x p = Some y -> ~ R y) -> unchanged W W' x.
Proof.
  intros Sd K Ox NR.
  assert (Eq : forall p x0, follow (w_books W) x p = Some x0 -> forall q, follow (w_books W') x0 q = follow (w_books W) x0 q).
  { intros p x0 E0 q. revert p x0 E0. induction q as [|k q IH]; intros p x0 E0; auto. rewrite !follow_cons. destruct x0 as [h|b]; auto.
    assert (Ob := follow_entry _ _ p (so_entries _ Sd) x (EBook b) Ox E0). cbn in Ob. apply content_some in Ob. destruct Ob as (l & Cb).
    unfold look. rewrite (k_content _ _ _ K b l (NR p _ E0) Cb), Cb. destruct (dget k l) as [y|] eqn:D; auto. apply (IH (p ++ [k])). rewrite BookProofs.follow_app, E0, follow_cons. unfold look. rewrite Cb, D. auto. }
  intros p. split; [apply (Eq []); auto|]. intros i Ei. assert (Oi := follow_entry _ _ p (so_entries _ Sd) x (EHist i) Ox Ei). cbn in Oi.
  rewrite !value_vals. destruct (nth_error (vals W) i) as [h|] eqn:Eh; [|apply nth_error_None in Eh; lia].
  apply (k_value _ _ _ K); auto. eapply NR; eauto.
Qed.
Lemma unchanged_refl W x : unchanged W W x.
Proof. split; auto. Qed.
Lemma unchanged_trans W1 W2 W3 x : unchanged W1 W2 x -> unchanged W2 W3 x -> unchanged W1 W3 x.
Proof.
  intros H1 H2 p. destruct (H1 p) as (A1 & B1), (H2 p) as (A2 & B2). split; [congruence|]. intros i E. rewrite B2, B1; auto. rewrite A1. auto.
Qed.
Lemma kept_sub (R R' : entry -> Prop) W W' : (forall x, R x -> R' x) -> kept R W W' -> kept R' W W'.
Proof. intros H [A B C D]. split; auto. Qed.
Lemma same_unchanged W W' x p z : unchanged W W' x -> follow (w_books W) x p = Some z -> same_value W W' z.
Proof. intros U E. destruct z as [i|]; cbn; auto. apply (proj2 (U p)). auto. Qed.
Lemma same_trans W1 W2 W3 z : same_value W1 W2 z -> same_value W2 W3 z -> same_value W1 W3 z.
Proof. destruct z; cbn; congruence. Qed.
Lemma same_sym W1 W2 z : same_value W1 W2 z -> same_value W2 W1 z.
Proof. destruct z; cbn; congruence. Qed.
(** what is at a place of [x] afterwards was there in [x] or in [y] *)
Lemma merged_from W W' x y p z : merged W W' x y -> follow (w_books W') x p = Some z -> follow (w_books W) x p = Some z \/ follow (w_books W) y p = Some z.
Proof.
  intros M E. specialize (M p). destruct (follow (w_books W) x p) as [[i|c]|], (follow (w_books W) y p) as [[j|d]|]; try tauto.
  - left. destruct M. congruence.
  - left. destruct M. congruence.
  - left. congruence.
  - left. destruct M. congruence.
  - right. destruct M. congruence.
  - right. destruct M. congruence.
  - congruence.
Qed.
Lemma merged_post W W1 W' x y : merged W W1 x y -> unchanged W1 W' x -> merged W W' x y.
Proof.
  intros M U p. specialize (M p). destruct (U p) as (A & B).
  destruct (follow (w_books W) x p) as [[i|c]|], (follow (w_books W) y p) as [[j|d]|]; try tauto; try (rewrite A; tauto).
  - destruct M as (E & h & k & h' & E1 & E2 & E3 & E4). split; [congruence|]. exists h, k, h'. rewrite (B i E). auto.
  - destruct M as (E & V). split; [congruence|]. cbn. rewrite (B i E). auto.
  - destruct M as (E & V). split; [congruence|]. cbn. rewrite (B j E). auto.
Qed.
Lemma merged_pre W W1 W' x y : unchanged W W1 x -> unchanged W W1 y -> merged W1 W' x y -> merged W W' x y.
Proof.
  intros Ux Uy M p. specialize (M p). rewrite (proj1 (Ux p)), (proj1 (Uy p)) in M.
  destruct (follow (w_books W) x p) as [[i|c]|] eqn:Ex, (follow (w_books W) y p) as [[j|d]|] eqn:Ey; try tauto.
  - destruct M as (E & h & k & h' & E1 & E2 & E3 & E4). split; auto. exists h, k, h'. rewrite <- (proj2 (Ux p) i Ex), <- (proj2 (Uy p) j Ey). auto.
  - destruct M as (E & V). split; auto. cbn in *. rewrite V. apply (proj2 (Ux p)). auto.
  - destruct M as (E & V). split; auto. cbn in *. rewrite V. apply (proj2 (Uy p)). auto.
Qed.

Definition entry_merge (W W' : world) (ox oy oz : option entry) : Prop :=
  match ox, oy with
  | Some x, Some y => oz = Some x /\ merged W W' x y
  | Some z, None | None, Some z => oz = Some z /\ unchanged W W' z
  | None, None => oz = None
  end.
Lemma merged_books W W' a b la lb la' : content_of (w_books W) a = Some la -> content_of (w_books W) b = Some lb -> content_of (w_books W') a = Some la' ->
  (forall k, entry_merge W W' (dget k la) (dget k lb) (dget k la')) -> merged W W' (EBook a) (EBook b).
Proof.
  intros Ca Cb Ca' H p. destruct p as [|k p]; [cbn; auto|]. rewrite !follow_cons. unfold look. rewrite Ca, Cb, Ca'. specialize (H k). unfold entry_merge in H.
  destruct (dget k la) as [x|], (dget k lb) as [y|].
  - destruct H as (-> & M). apply M.
  - destruct H as (-> & U). destruct (follow (w_books W) x p) as [z|] eqn:E; [|rewrite (proj1 (U p)); auto]. assert (V := same_unchanged W W' x p z U E). rewrite <- E, <- (proj1 (U p)) in *. destruct z; auto.
  - destruct H as (-> & U). destruct (follow (w_books W) y p) as [z|] eqn:E; [|rewrite (proj1 (U p)); auto]. assert (V := same_unchanged W W' y p z U E). rewrite (proj1 (U p)), E. destruct z; auto.
  - rewrite H. auto.
Qed.

(** storing at a plain name *)
Lemma set_plain B b l n x : content_of B b = Some l -> cut_slash n = None ->
  exists B', setitem B b n x = (B', None) /\ length B' = length B /\ content_of B' b = Some (dset n x l) /\ forall c, c <> b -> content_of B' c = content_of B c.
Proof.
  intros C P. assert (Lb : b < length B) by (apply content_some; eauto). unfold setitem. destruct (String.length n) as [|m]; cbn [set_n];
  unfold content_of in C; destruct (nth_error B b) as [o|] eqn:Eo; try discriminate; cbn in C; inversion C; subst l; rewrite P; eexists; split; try reflexivity.
  all: rewrite mark_length, put_length; split; auto; split; [|intros c Nc]; rewrite content_mark, content_put by auto.
  1, 3: rewrite Nat.eqb_refl; auto.
  all: apply Nat.eqb_neq in Nc; rewrite Nc; auto.
Qed.
Lemma set_sound W b l n x B' : sound W -> content_of (w_books W) b = Some l -> fine W x -> setitem (w_books W) b n x = (B', None) -> sound (with_books W B').
Proof.
  intros Sd C O E. assert (D := set_frame (fun _ => True) W b n x (sound_framed W Sd) I I O). rewrite E in D. apply D.
Qed.
Lemma content_fine W b l k x : sound W -> content_of (w_books W) b = Some l -> dget k l = Some x -> fine W x.
Proof. intros Sd C D. eapply (so_entries _ Sd); eauto. apply dget_in. eauto. Qed.
Lemma follow_item B b l k x p : content_of B b = Some l -> dget k l = Some x -> follow B (EBook b) (k :: p) = follow B x p.
Proof. intros C D. rewrite follow_cons. unfold look. rewrite C, D. auto. Qed.
(** The world after storing [x] at the plain name [n] of [b]. *)
Lemma set_step W b l n x : sound W -> content_of (w_books W) b = Some l -> cut_slash n = None -> fine W x ->
  exists B', setitem (w_books W) b n x = (B', None) /\ sound (with_books W B') /\ kept (fun z => z = EBook b) W (with_books W B') /\
    content_of B' b = Some (dset n x l).
Proof.
  intros Sd C P O. destruct (set_plain _ b l n x C P) as (B' & E & L & C1 & C2). exists B'. split; auto. split; [eapply set_sound; eauto|]. split; auto.
  split; cbn [with_books w_books]; auto; try lia. intros c lc Nc Cc. rewrite C2; auto.
Qed.
(** A dictionary stored again at its own name is the same dictionary. *)
Definition same_content (B B' : books) : Prop := forall c, match content_of B c, content_of B' c with
  | Some l, Some l' => forall k, dget k l' = dget k l
  | None, None => True
  | _, _ => False
  end.
Lemma same_follow B B' : same_content B B' -> forall p x, follow B' x p = follow B x p.
Proof.
  intros H. induction p as [|k p IH]; intros x; auto. rewrite !follow_cons. destruct x as [h|b]; auto. unfold look. specialize (H b).
  destruct (content_of B b) as [l|], (content_of B' b) as [l'|]; try tauto. rewrite H. destruct (dget k l); auto.
Qed.

Section Loop.
  Variables (m : nat) (f : world -> nat -> nat -> world * option err).
  Hypothesis Hf : forall W c d W', sound W -> fine W (EBook c) -> fine W (EBook d) -> tree_like (w_books W) (EBook c) -> tree_like (w_books W) (EBook d) ->
    disjoint (w_books W) (EBook c) (EBook d) -> f W c d = (W', None) -> sound W' /\ kept (below (w_books W) (EBook c)) W W' /\ merged W W' (EBook c) (EBook d).

  Definition one (self : nat) (W : world) (n : string) (x : entry) : world * option err :=
    match getitem m (w_books W) self n with
    | Err KeyError => let '(B1, e) := setitem (w_books W) self n x in (with_books W B1, e)
    | Err e => (W, Some e)
    | Ok (Many _) => (W, Some TypeError)
    | Ok (One y) =>
      match (match y, x with
             | EHist i, EHist j => let '(s1, e) := step (w_hists W) (OIAdd i j) in (with_hists W s1, e)
             | EBook c, EBook d => f W c d
             | _, _ => (W, Some TypeError)
             end) with
      | (W1, Some e) => (W1, Some e)
      | (W1, None) => let '(B1, e) := setitem (w_books W1) self n y in (with_books W1 B1, e)
      end
    end.
  Lemma loop_cons self W n x l : iadd_items m f self W ((n, x) :: l) = match one self W n x with (W1, Some e) => (W1, Some e) | (W1, None) => iadd_items m f self W1 l end.
  Proof. reflexivity. Qed.

  Definition touched (B : books) (self : nat) (la : list (string * entry)) (n : string) (z : entry) : Prop := z = EBook self \/ exists y, dget n la = Some y /\ below B y z.
  Lemma one_ok self W la n x W1 : sound W -> content_of (w_books W) self = Some la -> tree_like (w_books W) (EBook self) -> cut_slash n = None ->
    fine W x -> tree_like (w_books W) x -> disjoint (w_books W) (EBook self) x -> one self W n x = (W1, None) ->
    sound W1 /\ kept (touched (w_books W) self la n) W W1 /\
    exists la1, content_of (w_books W1) self = Some la1 /\ (forall k, k <> n -> dget k la1 = dget k la) /\ entry_merge W W1 (dget n la) (Some x) (dget n la1).
  Proof.
    intros Sd Ca Ta Cn Ox Tx Dj E. unfold one in E. rewrite (getitem_name m _ self n (so_keys _ Sd) Cn) in E. destruct (wild n).
    { destruct (items m true false (w_books W) self) as [ls|e0] eqn:Ei; cbn [bind] in E; [discriminate|]. destruct (items_err _ _ _ _ _ _ Ei) as [->| ->]; discriminate. }
    unfold look in E. rewrite Ca in E. destruct (dget n la) as [y|] eqn:Dn.
    - (* both *)
      assert (Oy := content_fine W self la n y Sd Ca Dn).
      assert (Fy := fun p => follow_item (w_books W) self la n y p Ca Dn).
      assert (Ty : tree_like (w_books W) y).
      { intros p q z E1 E2. rewrite <- Fy in E1, E2. assert (H := Ta _ _ _ E1 E2). congruence. }
      assert (Ny : forall z, below (w_books W) y z -> z <> EBook self).
      { intros z (p & Ep) ->. rewrite <- Fy in Ep. assert (H := Ta _ [] _ Ep eq_refl). discriminate. }
      assert (Dy : disjoint (w_books W) y x).
      { intros p q z E1 E2. rewrite <- Fy in E1. exact (Dj _ _ _ E1 E2). }
      match type of E with (match ?X with pair _ _ => _ end) = _ => assert (Mid : forall W2, X = (W2, None) -> sound W2 /\ kept (below (w_books W) y) W W2 /\ merged W W2 y x); [|destruct X as [W2 [e|]]; [discriminate|]] end.
      { intros W2 E2. destruct y as [i|c], x as [j|d]; try discriminate.
        - destruct (hist_frame (fun _ => True) W (OIAdd i j) (sound_framed W Sd) I (fun _ _ => I)) as (Fr & V & Er).
          destruct (step (w_hists W) (OIAdd i j)) as [s1 e]. inversion E2; subst W2 e. clear E2. cbn [fst snd] in *. split; [apply Fr|].
          assert (Ni : i <> j) by (intros ->; apply (Dy [] [] (EHist j)); auto).
          cbn in Oy, Ox. destruct (nth_error (vals W) i) as [h|] eqn:Eh; [|apply nth_error_None in Eh; lia]. destruct (nth_error (vals W) j) as [k|] eqn:Ek; [|apply nth_error_None in Ek; lia].
          assert (Kp := value_step_keeps (vals W) (OIAdd i j)). cbn [value_step target] in V, Er, Kp. unfold get_var in V, Er, Kp. rewrite Ek in V, Er, Kp. unfold on in V, Er, Kp. rewrite Eh in V, Er, Kp.
          destruct (hist_iadd h k) as [h' e'] eqn:Ea. cbn [fst snd] in *. subst e'. split.
          + split; cbn [with_hists w_books]; auto.
            * intros a ha NR Eha. rewrite V. apply Kp; auto. intros Q. inversion Q; subst. apply NR. exists []. auto.
            * apply (k_hists _ _ _ (proj2 Fr)).
          + intros p. destruct p as [|q p]; cbn [follow]; [|auto]. split; auto. exists h, k, h'. split; auto. split; auto. split; auto. rewrite value_vals, V, (nth_set_same _ _ _ h); auto.
        - apply Hf; auto. }
      destruct (Mid W2 eq_refl) as (S2 & K2 & M2).
      assert (C2 : content_of (w_books W2) self = Some la) by (apply (k_content _ _ _ K2); auto; intros Q; apply (Ny _ Q); auto).
      assert (Oy2 : fine W2 y) by (eapply fine_kept; eauto).
      destruct (set_step W2 self la n y S2 C2 Cn Oy2) as (B3 & Es & S3 & K3 & C3). rewrite Es in E. inversion E; subst W1. clear E. split; auto. split.
      + eapply kept_trans; [eapply kept_sub; [|exact K2]|eapply kept_sub; [|exact K3]]; intros z Hz; unfold touched; [right; exists y; split; auto|left; auto].
      + exists (dset n y la). split; auto. split; [intros k Nk; rewrite dget_dset; apply String.eqb_neq in Nk; rewrite Nk; auto|].
        cbn [entry_merge]. rewrite dget_dset, String.eqb_refl. split; auto. eapply merged_post; [exact M2|].
        assert (SC : same_content (w_books W2) B3).
        { intros c. destruct (Nat.eq_dec c self) as [->|Nc].
          - rewrite C2, C3. intros k. rewrite dget_dset. destruct (String.eqb_spec k n); subst; auto.
          - destruct (set_plain _ self la n y C2 Cn) as (B' & Es' & _ & _ & O'). rewrite Es in Es'. inversion Es'; subst B'. rewrite (O' c Nc). destruct (content_of (w_books W2) c); auto. }
        intros p. split; [apply same_follow; auto|]. auto.
    - (* only x *)
      destruct (set_step W self la n x Sd Ca Cn Ox) as (B3 & Es & S3 & K3 & C3). rewrite Es in E. inversion E; subst W1. clear E. split; auto. split.
      + eapply kept_sub; [|exact K3]. intros z ->. left. auto.
      + exists (dset n x la). split; auto. split; [intros k Nk; rewrite dget_dset; apply String.eqb_neq in Nk; rewrite Nk; auto|].
        cbn [entry_merge]. rewrite dget_dset, String.eqb_refl. split; auto. eapply kept_unchanged; eauto.
        intros p z Ez ->. apply (Dj [] p (EBook self)); auto.
  Qed.

  Lemma loop_ok self : forall l W la W', sound W -> content_of (w_books W) self = Some la -> tree_like (w_books W) (EBook self) ->
    (forall n x, In (n, x) l -> cut_slash n = None /\ fine W x /\ tree_like (w_books W) x /\ disjoint (w_books W) (EBook self) x) ->
    (forall n x n' x', In (n, x) l -> In (n', x') l -> n <> n' -> disjoint (w_books W) x x') -> NoDup (map fst l) ->
    iadd_items m f self W l = (W', None) ->
    sound W' /\ kept (fun z => z = EBook self \/ exists n y, In n (map fst l) /\ dget n la = Some y /\ below (w_books W) y z) W W' /\
    exists la', content_of (w_books W') self = Some la' /\ forall k, entry_merge W W' (dget k la) (dget k l) (dget k la').
  Proof.
    induction l as [|(n, x) l IH]; intros W la W' Sd Ca Ta Hl Hd Nd E.
    { cbn in E. inversion E; subst W'. split; auto. split; [apply kept_refl|]. exists la. split; auto. intros k. cbn [dget]. unfold entry_merge. destruct (dget k la); auto. split; auto. apply unchanged_refl. }
    rewrite loop_cons in E. destruct (one self W n x) as [W1 [e|]] eqn:E1; [discriminate|].
    destruct (Hl n x (or_introl eq_refl)) as (Cn & Ox & Tx & Dx). inversion Nd as [|n0 l0 Nin Nd']; subst.
    destruct (one_ok self W la n x W1 Sd Ca Ta Cn Ox Tx Dx E1) as (S1 & K1 & la1 & C1 & L1 & M1).
    assert (Sub : forall z, touched (w_books W) self la n z -> below (w_books W) (EBook self) z).
    { intros z [->|(y & Dy & (p & Ep))]; [exists []; auto|]. exists (n :: p). rewrite (follow_item _ _ _ _ y p Ca Dy). auto. }
    assert (K1' := kept_sub _ _ _ _ Sub K1).
    (* what is not below self is as it was *)
    assert (Ux : forall n' x', In (n', x') l -> unchanged W W1 x').
    { intros n' x' I'. destruct (Hl n' x' (or_intror I')) as (_ & O' & _ & D'). eapply kept_unchanged; eauto. intros p z Ez (q & Eq). exact (D' _ _ _ Eq Ez). }
    assert (Uk : forall k y, k <> n -> dget k la = Some y -> unchanged W W1 y).
    { intros k y Nk Dk. apply (kept_unchanged _ W W1 y Sd K1); [eapply content_fine; eauto|]. intros p z Ez [->|(y' & Dy' & (q & Eq))].
      - rewrite <- (follow_item _ _ _ _ y p Ca Dk) in Ez. assert (H := Ta _ [] _ Ez eq_refl). discriminate.
      - rewrite <- (follow_item _ _ _ _ y p Ca Dk) in Ez. rewrite <- (follow_item _ _ _ _ y' q Ca Dy') in Eq. assert (H := Ta _ _ _ Ez Eq). congruence. }
    (* where the entries of self come from *)
    assert (From : forall p z, follow (w_books W1) (EBook self) p = Some z -> follow (w_books W) (EBook self) p = Some z \/ exists q, p = n :: q /\ follow (w_books W) x q = Some z).
    { intros p z Ez. destruct p as [|k p]; [left; exact Ez|]. destruct (dget k la1) as [y|] eqn:Dy; [|rewrite follow_cons in Ez; unfold look in Ez; rewrite C1, Dy in Ez; discriminate].
      rewrite (follow_item _ _ _ _ y p C1 Dy) in Ez. destruct (String.eqb_spec k n) as [->|Nk].
      - unfold entry_merge in M1. destruct (dget n la) as [y0|] eqn:Dn.
        + destruct M1 as (Q & M1). assert (y = y0) by congruence. subst y0. destruct (merged_from _ _ _ _ _ _ M1 Ez) as [H|H]; [left; rewrite (follow_item _ _ _ _ y p Ca Dn); auto|right; eauto].
        + destruct M1 as (Q & U1). assert (y = x) by congruence. subst y. right. exists p. split; auto. rewrite <- (proj1 (U1 p)). auto.
      - left. rewrite L1 in Dy by auto. rewrite (follow_item _ _ _ _ y p Ca Dy). rewrite <- (proj1 (Uk k y Nk Dy p)). auto. }
    destruct (IH W1 la1 W' S1 C1) as (S' & K' & la' & C' & L'); auto.
    - intros p q z Ep Eq. destruct (From p z Ep) as [Hp|(p' & -> & Hp)], (From q z Eq) as [Hq|(q' & -> & Hq)].
      + exact (Ta _ _ _ Hp Hq).
      + exfalso. exact (Dx _ _ _ Hp Hq).
      + exfalso. exact (Dx _ _ _ Hq Hp).
      + f_equal. exact (Tx _ _ _ Hp Hq).
    - intros n' x' I'. destruct (Hl n' x' (or_intror I')) as (C' & O' & T' & D'). assert (U' := Ux n' x' I'). split; auto. split; [eapply fine_kept; eauto|]. split.
      + intros p q z. rewrite (proj1 (U' p)), (proj1 (U' q)). apply T'.
      + intros p q z Ep. rewrite (proj1 (U' q)). intros Eq. destruct (From p z Ep) as [Hp|(p' & -> & Hp)]; [exact (D' _ _ _ Hp Eq)|].
        apply (Hd n x n' x' (or_introl eq_refl) (or_intror I')) with (p := p') (q := q) (z := z); auto. intros ->. apply Nin. apply (in_map fst) in I'. auto.
    - intros n1 x1 n2 x2 I1 I2 Nn p q z. rewrite (proj1 (Ux n1 x1 I1 p)), (proj1 (Ux n2 x2 I2 q)). apply (Hd n1 x1 n2 x2); auto; right; auto.
    - split; auto.
split.
      + eapply kept_trans; [eapply kept_sub; [|exact K1]|eapply kept_sub; [|exact K']].
        * intros z [->|(y & Dy & Bz)]; [left; auto|right]. exists n, y. split; [left; auto|]. auto.
        * intros z [->|(k & y & Ik & Dy & (p & Ep))]; [left; auto|right]. assert (Nk : k <> n) by (intros ->; auto). rewrite L1 in Dy by auto. exists k, y. split; [right; auto|]. split; auto.
          exists p. rewrite <- (proj1 (Uk k y Nk Dy p)). auto.
      + exists la'. split; auto. intros k. specialize (L' k). cbn [dget]. destruct (String.eqb_spec k n) as [->|Nk].
        * assert (Dl : dget n l = None). { destruct (dget n l) eqn:D; auto. apply dget_in in D. apply (in_map fst) in D. contradiction. }
          rewrite Dl in L'. unfold entry_merge in *. destruct (dget n la) as [y|].
          -- destruct M1 as (Q & M1). rewrite Q in L'. destruct L' as (Q' & U'). split; auto. eapply merged_post; eauto.
          -- destruct M1 as (Q & U1). rewrite Q in L'. destruct L' as (Q' & U'). split; auto. eapply unchanged_trans; eauto.
        * rewrite L1 in L' by auto. unfold entry_merge in *. destruct (dget k la) as [y|] eqn:Dk, (dget k l) as [x'|] eqn:Dl.
          -- destruct L' as (Q & M'). split; auto. eapply merged_pre; eauto. apply dget_in in Dl. eauto.
          -- destruct L' as (Q & U'). split; auto. eapply unchanged_trans; eauto.
          -- destruct L' as (Q & U'). split; auto. eapply unchanged_trans; eauto. apply dget_in in Dl. eauto.
          -- auto.
  Qed.
End Loop.

Lemma iadd_ok m : forall W a b W', sound W -> fine W (EBook a) -> fine W (EBook b) -> tree_like (w_books W) (EBook a) -> tree_like (w_books W) (EBook b) ->
  disjoint (w_books W) (EBook a) (EBook b) -> book_iadd m W a b = (W', None) -> sound W' /\ kept (below (w_books W) (EBook a)) W W' /\ merged W W' (EBook a) (EBook b).
Proof.
  induction m as [|m IH]; intros W a b W' Sd Oa Ob Ta Tb Dj E; cbn [book_iadd] in E; [discriminate|]. change (content_or (w_books W) b) with (content_of (w_books W) b) in E.
  cbn in Oa, Ob. apply content_some in Oa, Ob. destruct Oa as (la & Ca), Ob as (lb & Cb). rewrite Cb in E.
  assert (Kb := so_keys _ Sd b lb Cb). assert (Hb : forall n x, In (n, x) lb -> dget n lb = Some x) by (intros n x I; apply in_dget; auto; apply Kb).
  destruct (loop_ok m (book_iadd m) IH a lb W la W' Sd Ca Ta) as (S' & K' & la' & C' & L'); auto.
  - intros n x I. assert (D := Hb n x I). assert (F := fun p => follow_item (w_books W) b lb n x p Cb D). split; [apply Kb; apply (in_map fst) in I; auto|]. split; [eapply content_fine; eauto|]. split.
    + intros p q z E1 E2. rewrite <- F in E1, E2. assert (H := Tb _ _ _ E1 E2). congruence.
    + intros p q z E1 E2. rewrite <- F in E2. exact (Dj _ _ _ E1 E2).
  - intros n x n' x' I I' Nn p q z E1 E2. rewrite <- (follow_item _ b lb n x p Cb (Hb n x I)) in E1. rewrite <- (follow_item _ b lb n' x' q Cb (Hb n' x' I')) in E2. assert (H := Tb _ _ _ E1 E2). congruence.
  - apply Kb.
  - split; auto. split.
    + eapply kept_sub; [|exact K']. intros z [->|(n & y & _ & Dy & (p & Ep))]; [exists []; auto|]. exists (n :: p). rewrite (follow_item _ _ _ _ y p Ca Dy). auto.
    + eapply merged_books; eauto.
Qed.
