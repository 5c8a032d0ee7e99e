(** Books and sharing: when += of books fails. *)
From Coq Require Import String.
From Verif Require Import Base Num Axis Calc Content Fill HistAlg AlgSpec HistAlgProofs HistAlgMain Heap HeapSpec HeapProofs HeapAdd HeapMain HeapMain2
  Tree Instr Elem HistFill Glob Book BookSpec BookProofs BookPaths BookIter BookFill BookHeap BookHeapSpec BookHeapProofs BookHeapAdd BookHeapFrame BookHeapActs BookHeapMain BookHeapIadd.
Local Open Scope string_scope.
Local Open Scope list_scope.

(** x += y fails with [e] because of the entries at a common path: two histograms whose += fails, a
    histogram and a book, or two books nested deeper than the limit of recursion. *)
Definition iadd_fails (limit : nat) (W : world) (x y : entry) (e : err) : Prop := exists p,
  match follow (w_books W) x p, follow (w_books W) y p with
  | Some (EHist i), Some (EHist j) => exists h g h', hist_value W i = Some h /\ hist_value W j = Some g /\ hist_iadd h g = (h', Some e)
  | Some (EBook _), Some (EBook _) => e = RecursionError /\ limit <= List.length p
  | Some _, Some _ => e = TypeError
  | _, _ => False
  end.
(** Nothing at a common path stands in the way of +=. *)
Definition mergeable (limit : nat) (W : world) (x y : entry) : Prop := forall p,
  match follow (w_books W) x p, follow (w_books W) y p with
  | Some (EHist i), Some (EHist j) => exists h g h', hist_value W i = Some h /\ hist_value W j = Some g /\ hist_iadd h g = (h', None)
  | Some (EBook _), Some (EBook _) => List.length p < limit
  | Some _, Some _ => False
  | _, _ => True
  end.

Lemma fails_back m W W1 x y e : unchanged W W1 x -> unchanged W W1 y -> iadd_fails m W1 x y e -> iadd_fails m W x y e.
Proof.
  intros Ux Uy (p & F). exists p. destruct (Ux p) as (Fx & Vx), (Uy p) as (Fy & Vy). rewrite Fx, Fy in F.
  destruct (follow (w_books W) x p) as [[i|c]|], (follow (w_books W) y p) as [[j|d]|]; auto.
  destruct F as (h & g & h' & F1 & F2 & F3). exists h, g, h'. rewrite <- (Vx i eq_refl), <- (Vy j eq_refl). auto.
Qed.

Section Loop.
  Variables (m : nat) (f : world -> nat -> nat -> world * option err).
  Hypothesis Hf : forall W c d W', sound W -> fine W (EBook c) -> fine W (EBook d) -> tree_like (w_books W) (EBook c) -> tree_like (w_books W) (EBook d) ->
    disjoint (w_books W) (EBook c) (EBook d) -> f W c d = (W', None) -> sound W' /\ kept (below (w_books W) (EBook c)) W W' /\ merged W W' (EBook c) (EBook d).
  Hypothesis He : forall W c d W' e, sound W -> fine W (EBook c) -> fine W (EBook d) -> tree_like (w_books W) (EBook c) -> tree_like (w_books W) (EBook d) ->
    disjoint (w_books W) (EBook c) (EBook d) -> no_wildcards (w_books W) (EBook d) -> f W c d = (W', Some e) -> iadd_fails m W (EBook c) (EBook d) e.

  Lemma one_err self W la n x W1 e : sound W -> content_of (w_books W) self = Some la -> tree_like (w_books W) (EBook self) -> cut_slash n = None -> wild n = false ->
    fine W x -> tree_like (w_books W) x -> disjoint (w_books W) (EBook self) x -> no_wildcards (w_books W) x -> one m f self W n x = (W1, Some e) ->
    exists y, dget n la = Some y /\ iadd_fails m W y x e.
  Proof.
    intros Sd Ca Ta Cn Wn Ox Tx Dj Nx E. unfold one in E. rewrite (getitem_name m _ self n (so_keys _ Sd) Cn), Wn in E.
    unfold look in E. rewrite Ca in E. destruct (dget n la) as [y|] eqn:Dn.
    - exists y. split; auto. assert (Oy := content_fine W self la n y Sd Ca Dn).
      assert (Fy := fun p => follow_item (w_books W) self la n y p Ca Dn).
      assert (Ty : tree_like (w_books W) y).
      { intros p q z E1 E2. rewrite <- Fy in E1, E2. assert (H := Ta _ _ _ E1 E2). congruence. }
      assert (Ny : forall z, below (w_books W) y z -> z <> EBook self).
      { intros z (p & Ep) ->. rewrite <- Fy in Ep. assert (H := Ta _ [] _ Ep eq_refl). discriminate. }
      assert (Dy : disjoint (w_books W) y x).
      { intros p q z E1 E2. rewrite <- Fy in E1. exact (Dj _ _ _ E1 E2). }
      destruct y as [i|c], x as [j|d].
      + destruct (hist_frame (fun _ => True) W (OIAdd i j) (sound_framed W Sd) I (fun _ _ => I)) as (Fr & V & Er).
        cbn in Oy, Ox. destruct (nth_error (vals W) i) as [h|] eqn:Eh; [|apply nth_error_None in Eh; lia]. destruct (nth_error (vals W) j) as [k|] eqn:Ek; [|apply nth_error_None in Ek; lia].
        destruct (step (w_hists W) (OIAdd i j)) as [s1 [e1|]]; cbn [fst snd] in Er, Fr.
        * inversion E; subst. cbn [value_step] in Er. unfold get_var in Er. rewrite Ek in Er. unfold on in Er. rewrite Eh in Er.
          destruct (hist_iadd h k) as [h' e'] eqn:Ea. cbn [snd] in Er. subst e'. exists []. cbn [follow]. exists h, k, h'. auto.
        * exfalso. assert (C2 : content_of (w_books (with_hists W s1)) self = Some la) by exact Ca.
          assert (Oy2 : fine (with_hists W s1) (EHist i)).
          { eapply fine_kept; [apply (proj2 Fr)|exact Oy]. }
          destruct (set_step (with_hists W s1) self la n (EHist i) (proj1 (proj1 Fr)) C2 Cn Oy2) as (B3 & Es & _). rewrite Es in E. discriminate.
      + inversion E; subst. exists []. reflexivity.
      + inversion E; subst. exists []. reflexivity.
      + destruct (f W c d) as [W2 [e1|]] eqn:E2.
        * inversion E; subst. eapply He; eauto.
        * exfalso. destruct (Hf W c d W2 Sd Oy Ox Ty Tx Dy E2) as (S2 & K2 & _).
          assert (C2 : content_of (w_books W2) self = Some la) by (apply (k_content _ _ _ K2); auto; intros Q; apply (Ny _ Q); auto).
          assert (Oy2 : fine W2 (EBook c)) by (eapply fine_kept; eauto).
          destruct (set_step W2 self la n (EBook c) S2 C2 Cn Oy2) as (B3 & Es & _). rewrite Es in E. discriminate.
    - exfalso. destruct (set_step W self la n x Sd Ca Cn Ox) as (B3 & Es & _). rewrite Es in E. discriminate.
  Qed.
  Lemma loop_err self : forall l W la W' e, sound W -> content_of (w_books W) self = Some la -> tree_like (w_books W) (EBook self) ->
    (forall n x, In (n, x) l -> cut_slash n = None /\ fine W x /\ tree_like (w_books W) x /\ disjoint (w_books W) (EBook self) x) ->
    (forall n x n' x', In (n, x) l -> In (n', x') l -> n <> n' -> disjoint (w_books W) x x') -> NoDup (map fst l) ->
    (forall n x, In (n, x) l -> wild n = false /\ no_wildcards (w_books W) x) ->
    iadd_items m f self W l = (W', Some e) -> exists n x y, In (n, x) l /\ dget n la = Some y /\ iadd_fails m W y x e.
  Proof.
    induction l as [|(n, x) l IH]; intros W la W' e Sd Ca Ta Hl Hd Nd Hw E; [discriminate|].
    rewrite loop_cons in E. destruct (one m f self W n x) as [W1 [e1|]] eqn:E1; destruct (Hl n x (or_introl eq_refl)) as (Cn & Ox & Tx & Dx); inversion Nd as [|n0 l0 Nin Nd']; subst.
    { inversion E; subst. destruct (Hw n x (or_introl eq_refl)) as (Wn & Nx). destruct (one_err self W la n x W' e Sd Ca Ta Cn Wn Ox Tx Dx Nx E1) as (y & D & F). exists n, x, y. split; [left; auto|auto]. }
    destruct (one_ok m f Hf self W la n x W1 Sd Ca Ta Cn Ox Tx Dx E1) as (S1 & K1 & la1 & C1 & L1 & M1).
    assert (Sub : forall z, touched (w_books W) self la n z -> below (w_books W) (EBook self) z).
    { intros z [->|(y & Dy & (p & Ep))]; [exists []; auto|]. exists (n :: p). rewrite (follow_item _ _ _ _ y p Ca Dy). auto. }
    assert (K1' := kept_sub _ _ _ _ Sub K1).
    assert (Ux : forall n' x', In (n', x') l -> unchanged W W1 x').
    { intros n' x' I'. destruct (Hl n' x' (or_intror I')) as (_ & O' & _ & D'). eapply kept_unchanged; eauto. intros p z Ez (q & Eq). exact (D' _ _ _ Eq Ez). }
    assert (Uk : forall k y, k <> n -> dget k la = Some y -> unchanged W W1 y).
    { intros k y Nk Dk. apply (kept_unchanged _ W W1 y Sd K1); [eapply content_fine; eauto|]. intros p z Ez [->|(y' & Dy' & (q & Eq))].
      - rewrite <- (follow_item _ _ _ _ y p Ca Dk) in Ez. assert (H := Ta _ [] _ Ez eq_refl). discriminate.
      - rewrite <- (follow_item _ _ _ _ y p Ca Dk) in Ez. rewrite <- (follow_item _ _ _ _ y' q Ca Dy') in Eq. assert (H := Ta _ _ _ Ez Eq). congruence. }
    assert (From : forall p z, follow (w_books W1) (EBook self) p = Some z -> follow (w_books W) (EBook self) p = Some z \/ exists q, p = n :: q /\ follow (w_books W) x q = Some z).
    { intros p z Ez. destruct p as [|k p]; [left; exact Ez|]. destruct (dget k la1) as [y|] eqn:Dy; [|rewrite follow_cons in Ez; unfold look in Ez; rewrite C1, Dy in Ez; discriminate].
      rewrite (follow_item _ _ _ _ y p C1 Dy) in Ez. destruct (String.eqb_spec k n) as [->|Nk].
      - unfold entry_merge in M1. destruct (dget n la) as [y0|] eqn:Dn.
        + destruct M1 as (Q & M1). assert (y = y0) by congruence. subst y0. destruct (merged_from _ _ _ _ _ _ M1 Ez) as [H|H]; [left; rewrite (follow_item _ _ _ _ y p Ca Dn); auto|right; eauto].
        + destruct M1 as (Q & U1). assert (y = x) by congruence. subst y. right. exists p. split; auto. rewrite <- (proj1 (U1 p)). auto.
      - left. rewrite L1 in Dy by auto. rewrite (follow_item _ _ _ _ y p Ca Dy). rewrite <- (proj1 (Uk k y Nk Dy p)). auto. }
    destruct (IH W1 la1 W' e S1 C1) as (n' & x' & y' & I' & D' & F'); auto.
    - intros p q z Ep Eq. destruct (From p z Ep) as [Hp|(p' & -> & Hp)], (From q z Eq) as [Hq|(q' & -> & Hq)].
      + exact (Ta _ _ _ Hp Hq).
      + exfalso. exact (Dx _ _ _ Hp Hq).
      + exfalso. exact (Dx _ _ _ Hq Hp).
      + f_equal. exact (Tx _ _ _ Hp Hq).
    - intros n' x' I'. destruct (Hl n' x' (or_intror I')) as (C' & O' & T' & D'). assert (U' := Ux n' x' I'). split; auto. split; [eapply fine_kept; eauto|]. split.
      + intros p q z. rewrite (proj1 (U' p)), (proj1 (U' q)). apply T'.
      + intros p q z Ep. rewrite (proj1 (U' q)). intros Eq. destruct (From p z Ep) as [Hp|(p' & -> & Hp)]; [exact (D' _ _ _ Hp Eq)|].
        apply (Hd n x n' x' (or_introl eq_refl) (or_intror I')) with (p := p') (q := q) (z := z); auto. intros ->. apply Nin. apply (in_map fst) in I'. auto.
    - intros n1 x1 n2 x2 I1 I2 Nn p q z. rewrite (proj1 (Ux n1 x1 I1 p)), (proj1 (Ux n2 x2 I2 q)). apply (Hd n1 x1 n2 x2); auto; right; auto.
    - intros n' x' I'. destruct (Hw n' x' (or_intror I')) as (H1 & H2). split; auto. intros p k z. rewrite (proj1 (Ux n' x' I' _)). apply H2.
    - exists n', x', y'. split; [right; auto|]. assert (Nn : n' <> n) by (intros ->; apply Nin; apply (in_map fst) in I'; auto). rewrite L1 in D' by auto. split; auto.
      eapply fails_back; [eapply Uk; eauto|eapply Ux; eauto|exact F'].
  Qed.
End Loop.

Lemma iadd_err m : forall W a b W' e, sound W -> fine W (EBook a) -> fine W (EBook b) -> tree_like (w_books W) (EBook a) -> tree_like (w_books W) (EBook b) ->
  disjoint (w_books W) (EBook a) (EBook b) -> no_wildcards (w_books W) (EBook b) -> book_iadd m W a b = (W', Some e) -> iadd_fails m W (EBook a) (EBook b) e.
Proof.
  induction m as [|m IH]; intros W a b W' e Sd Oa Ob Ta Tb Dj Nb E; cbn [book_iadd] in E.
  { inversion E; subst. exists []. cbn [follow]. split; [reflexivity|cbn; lia]. }
  change (content_or (w_books W) b) with (content_of (w_books W) b) in E.
  cbn in Oa, Ob. apply content_some in Oa, Ob. destruct Oa as (la & Ca), Ob as (lb & Cb). rewrite Cb in E.
  assert (Kb := so_keys _ Sd b lb Cb). assert (Hb : forall n x, In (n, x) lb -> dget n lb = Some x) by (intros n x I; apply in_dget; auto; apply Kb).
  destruct (loop_err m (book_iadd m) (iadd_ok m) IH a lb W la W' e Sd Ca Ta) as (n & x & y & I & D & (p & F)); auto.
  - intros n x I. assert (D := Hb n x I). assert (F := fun p => follow_item (w_books W) b lb n x p Cb D). split; [apply Kb; apply (in_map fst) in I; auto|]. split; [eapply content_fine; eauto|]. split.
    + intros p q z E1 E2. rewrite <- F in E1, E2. assert (H := Tb _ _ _ E1 E2). congruence.
    + intros p q z E1 E2. rewrite <- F in E2. exact (Dj _ _ _ E1 E2).
  - intros n x n' x' I I' Nn p q z E1 E2. rewrite <- (follow_item _ b lb n x p Cb (Hb n x I)) in E1. rewrite <- (follow_item _ b lb n' x' q Cb (Hb n' x' I')) in E2. assert (H := Tb _ _ _ E1 E2). congruence.
  - apply Kb.
  - intros n x I. assert (F := fun p => follow_item (w_books W) b lb n x p Cb (Hb n x I)). split.
    + apply (Nb [] n x). cbn [app]. rewrite F. reflexivity.
    + intros p k z Ez. apply (Nb (n :: p) k z). cbn [app]. rewrite F. exact Ez.
  - exists (n :: p). rewrite (follow_item _ _ _ _ y p Ca D), (follow_item _ _ _ _ x p Cb (Hb n x I)).
    destruct (follow (w_books W) y p) as [[i|c]|], (follow (w_books W) x p) as [[j|d]|]; auto. destruct F as (F1 & F2). split; auto. cbn [List.length]. lia.
Qed.
