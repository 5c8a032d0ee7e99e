(** Books and sharing, part 4: the actions one by one. *)
From Coq Require Import String.
From Verif Require Import Base Num Axis Calc Content Fill HistAlg AlgSpec HistAlgProofs HistAlgMain Heap HeapSpec HeapProofs HeapAdd HeapMain HeapMain2
  Tree Instr Elem HistFill Glob Book BookSpec BookProofs BookPaths BookIter BookFill BookHeap BookHeapSpec BookHeapProofs BookHeapAdd BookHeapFrame.
Local Open Scope string_scope.
Local Open Scope list_scope.

Notation fine W x := (entry_ok (w_books W) (length (vals W)) x).
Lemma fine_kept R W W' x : kept R W W' -> fine W x -> fine W' x.
Proof. intros [_ _ L1 L2]. destruct x; cbn; lia. Qed.

(** ** += *)
Lemma iadd_items_frame R m (f : world -> nat -> nat -> world * option err) self :
  (forall W a b, framed R W -> R (EBook a) -> R (EBook b) -> frame R W (fst (f W a b))) -> R (EBook self) ->
  forall l W, framed R W -> (forall n x, In (n, x) l -> cut_slash n = None /\ R x /\ fine W x) -> frame R W (fst (iadd_items m f self W l)).
Proof.
  intros Hf Rs. induction l as [|(n, x) l IH]; intros W F Hl; cbn [iadd_items]; fold (iadd_items m f self); [apply frame_refl; auto|].
  destruct (Hl n x (or_introl eq_refl)) as (Cn & Rx & Ox).
  match goal with |- frame R W (fst (match ?X with pair _ _ => _ end)) => assert (Fr : frame R W (fst X)) end.
  { rewrite (getitem_name m _ self n (so_keys _ (proj1 F)) Cn). assert (Same : frame R W W) by (apply frame_refl; auto). destruct (wild n).
    - destruct (items m true false (w_books W) self) as [ls|e0] eqn:Ei; cbn [bind fst]; auto. destruct (items_err _ _ _ _ _ _ Ei) as [->| ->]; auto.
    - destruct (look (w_books W) self n) as [y|] eqn:Ly.
      + assert (Ry : R y /\ fine W y).
        { unfold look in Ly. destruct (content_of (w_books W) self) as [ls|] eqn:Ec; [|discriminate]. apply dget_in in Ly. split.
          - eapply (proj1 (proj2 F)); eauto.
          - eapply (so_entries _ (proj1 F)); eauto. }
        destruct Ry as (Ry & Oy).
        assert (Set_ : forall W1, frame R W W1 -> frame R W (fst (let '(B1, e) := setitem (w_books W1) self n y in (with_books W1 B1, e)))).
        { intros W1 F1. assert (D := set_frame R W1 self n y (proj1 F1) Rs Ry (fine_kept R W W1 y (proj2 F1) Oy)). destruct (setitem (w_books W1) self n y) as [B1 e]. cbn [fst] in *. eapply frame_trans; eauto. }
        destruct y as [i|c], x as [j|d]; auto.
        * destruct (hist_frame R W (OIAdd i j) F I) as (F1 & _); [cbn; intros k Ek; inversion Ek; subst; auto|]. destruct (step (w_hists W) (OIAdd i j)) as [s1 [e|]]; cbn [fst] in *; auto.
        * assert (F1 := Hf W c d F Ry Rx). destruct (f W c d) as [W1 [e|]]; cbn [fst] in *; auto.
      + assert (D := set_frame R W self n x F Rs Rx Ox). destruct (setitem (w_books W) self n x) as [B1 e]. auto. }
  match goal with |- frame R W (fst (match ?X with pair _ _ => _ end)) => destruct X as [W1 [e|]] end; cbn [fst] in *; auto.
  eapply frame_trans; [exact Fr|]. apply IH; [apply Fr|]. intros n' x' I'. destruct (Hl n' x' (or_intror I')) as (C' & R' & O'). split; auto. split; auto. eapply fine_kept; eauto. apply Fr.
Qed.
Lemma iadd_frame R m : forall W a b, framed R W -> R (EBook a) -> R (EBook b) -> frame R W (fst (book_iadd m W a b)).
Proof.
  induction m as [|m IH]; intros W a b F Ra Rb; cbn [book_iadd]; [apply frame_refl; auto|]. change (content_or (w_books W) b) with (content_of (w_books W) b).
  destruct (content_of (w_books W) b) as [l|] eqn:Cb; [|apply frame_refl; auto]. apply iadd_items_frame; auto.
  intros n x I. split; [|split].
  - apply (so_keys _ (proj1 F) b l Cb). apply (in_map fst) in I. auto.
  - eapply (proj1 (proj2 F)); eauto.
  - eapply (so_entries _ (proj1 F)); eauto.
Qed.

(** ** Sample books *)
Definition unfilled_value (h : hobj) : Prop := o_content h = CNone.
Lemma copyonfill_ok R W b : framed R W -> b < length (w_books W) -> (forall p i, at_path (w_books W) b p = Some (EHist i) -> unfilled (vals W) i) ->
  forall m W' r, book_copyonfill m W b = (W', r) ->
  frame R W W' /\ grows W W' /\ (forall k h, length (vals W) <= k -> nth_error (vals W') k = Some h -> unfilled_value h) /\
  (forall y, r = Ok y -> result (fun h => Ok (hist_copy h)) W W W' (EBook b) y).
Proof.
  intros F Lb Un m W' r E. unfold book_copyonfill in E.
  destruct (derive_ok OCopyOnFill (fun h => Ok (hist_copy h))) with (W0 := W) (ok := unfilled (vals W)) (m := m) (W := W) (b := b) (W' := W') (r := r) as (S' & G & Mk & R'); auto.
  - intros vs i h Ei. cbn [value_step]. unfold get_var. rewrite Ei. auto.
  - intros i vs' U L. cbn [safe_op]. unfold unfilled in *. rewrite nth_error_app1; auto.
  - apply F.
  - apply F.
  - apply grows_refl.
  - split; auto.
  - split; [apply grows_frame; auto|]. split; auto. split; auto. intros k h Lk Ek. destruct (Mk k h Lk Ek) as (i & h0 & U & E0 & Eh). inversion Eh; subst h.
    unfold unfilled in U. rewrite E0 in U. unfold unfilled_value, hist_copy. rewrite U. auto.
Qed.
Definition empty_region (W0 : world) (x : entry) : Prop :=
  match x with
  | EHist i => unfilled (vals W0) i
  | EBook b => length (w_books W0) <= b \/ forall p i, follow (w_books W0) x p = Some (EHist i) -> unfilled (vals W0) i
  end.
Lemma empty_framed W0 : sound W0 -> framed (empty_region W0) W0.
Proof.
  intros S. split; auto. split.
  - intros b l k x Rb E I. assert (Lb : b < length (w_books W0)) by (apply content_some; eauto). destruct Rb as [Rb|Rb]; [lia|].
    assert (H : forall p, follow (w_books W0) (EBook b) (k :: p) = follow (w_books W0) x p).
    { intros p. rewrite follow_cons. unfold look. rewrite E, (in_dget k l x); auto. apply (so_keys _ S b l E). }
    destruct x as [i|c]; [apply (Rb [k]); apply H|right]. intros p i Ep. apply (Rb (k :: p)). rewrite H. auto.
  - split; intros i Hi; [|left; auto]. cbn. unfold unfilled. destruct (nth_error (vals W0) i) eqn:E; auto. assert (i < length (vals W0)) by (apply nth_error_Some; congruence). lia.
Qed.
Lemma samples_frame R W0 self l : sound W0 ->
  (forall n x, In (n, x) l -> R x /\ fine W0 x /\ empty_region W0 x) -> R (EBook self) -> empty_region W0 (EBook self) ->
  forall samples m W, framed R W -> framed (empty_region W0) W -> (exists Y, vals W = vals W0 ++ Y /\ Forall unfilled_value Y) -> length (w_books W0) <= length (w_books W) ->
    frame R W (fst (add_samples m W self samples l)).
Proof.
  intros S0 Hl Rs Es. induction samples as [|s samples IH]; intros m W F U (Y & VY & HY) LW; cbn [add_samples]; [apply frame_refl; auto|].
  assert (Hl' : forall n x, In (n, x) l -> fine W x).
  { intros n x I. destruct (Hl n x I) as (_ & O & _). destruct x; cbn in *; [rewrite VY, app_length; lia|lia]. }
  destruct (dict_frame R W l F) as (F1 & V1 & D1); [intros n x I; split; [eapply Hl; eauto|eauto]|].
  destruct (dict_frame (empty_region W0) W l U) as (U1 & _ & _); [intros n x I; split; [eapply Hl; eauto|eauto]|].
  destruct (new_dict W l) as [W1 [[i|b]|e]] eqn:End; cbn [fst snd] in *; auto.
  destruct (D1 _ eq_refl) as (Eb & Lb). inversion Eb; subst b. clear Eb D1.
  assert (Un : forall p i, at_path (w_books W1) (length (w_books W)) p = Some (EHist i) -> unfilled (vals W1) i).
  { intros p i Ep. assert (Ri : empty_region W0 (EHist i)).
    { eapply follow_closed; [apply (proj1 U1)| |exact Ep]. left. auto. }
    cbn in Ri. rewrite V1, VY. unfold unfilled in *. destruct (Nat.lt_ge_cases i (length (vals W0))) as [L|L]; [rewrite nth_error_app1; auto|].
    rewrite nth_error_app2 by auto. destruct (nth_error Y (i - length (vals W0))) as [h|] eqn:Eh; auto. rewrite Forall_forall in HY. apply HY. eapply nth_error_In; eauto. }
  destruct (book_copyonfill m W1 (length (w_books W))) as [W2 r] eqn:Ec.
  destruct (copyonfill_ok R W1 _ (proj1 F1) Lb Un m W2 r Ec) as (F2 & G2 & N2 & R2).
  destruct (copyonfill_ok (empty_region W0) W1 _ (proj1 U1) Lb Un m W2 r Ec) as (U2 & _).
  destruct r as [y|e]; [|eapply frame_trans; eauto]. specialize (R2 y eq_refl).
  assert (Fy := result_fresh _ _ _ _ _ _ [] y R2 eq_refl).
  assert (Oy : fine W2 y) by apply R2.
  assert (NY : forall Q, framed Q W1 -> Q y) by (intros Q (_ & _ & N); destruct y; apply N; cbn in Fy; lia).
  assert (F3 := set_frame R W2 self s y (proj1 F2) Rs (NY R (proj1 F1)) Oy). assert (U3 := set_frame (empty_region W0) W2 self s y (proj1 U2) Es (NY _ (proj1 U1)) Oy).
  assert (LB : length (w_books W0) <= length (w_books W2)) by (assert (A := k_books _ _ _ (proj2 F1)); assert (C := k_books _ _ _ (proj2 F2)); lia).
  destruct (setitem (w_books W2) self s y) as [B3 [e|]]; cbn [fst] in *; [eapply frame_trans; [exact F1|]; eapply frame_trans; eauto|].
  eapply frame_trans; [exact F1|]. eapply frame_trans; [exact F2|]. eapply frame_trans; [exact F3|]. apply IH; [apply F3|apply U3| |].
  - destruct G2 as ((X & Z & _ & EZ) & _). exists (Y ++ Z). change (vals (with_books W2 B3)) with (vals W2). rewrite EZ, V1, VY, app_assoc. split; auto. apply Forall_app. split; auto.
    rewrite Forall_forall. intros h I. apply In_nth_error in I. destruct I as (n & En). apply (N2 (length (vals W1) + n)); [lia|]. rewrite EZ, nth_error_app2 by lia. rewrite <- En. f_equal. lia.
  - assert (A := k_books _ _ _ (proj2 F3)). lia.
Qed.

(** ** Views *)
Section View.
  Variable pattern : string.
  Variable n0 : nat.
  Variable B0 : books.
  Hypothesis K0 : keys_ok B0.
  Hypothesis E0 : entries_ok B0 n0.
  Definition shows (path : option string) (B' : books) (d b : entry) : Prop :=
    forall p i, follow B' d p = Some (EHist i) <-> follow B0 b p = Some (EHist i) /\ fnmatchcase (under path (path_name p)) pattern = true.
  Definition view_post (B B' : books) (b : nat) : Prop :=
    keys_ok B' /\ entries_ok B' n0 /\ (exists Y, B' = B ++ Y) /\
    (forall R, closed R B -> (forall c, length B <= c -> R (EBook c)) -> R (EBook b) -> closed R B').
  Lemma under_deeper path k p : p <> [] -> under (Some (under path k)) (path_name p) = under path (path_name (k :: p)).
  Proof.
    intros N. destruct p as [|k' p]; [contradiction|]. cbn [path_name]. destruct path as [q|]; cbn [under]; auto. rewrite !append_assoc'. auto.
  Qed.
  Lemma view_items_ok m b la : content_of B0 b = Some la ->
    (forall B c path B' r, keys_ok B -> entries_ok B n0 -> (exists X, B = B0 ++ X) -> c < length B0 -> view_ m pattern B c path = (B', r) ->
       view_post B B' c /\
       (forall o, r = Ok o -> match o with
          | Some d => length B <= d < length B' /\ shows path B' (EBook d) (EBook c)
          | None => forall p i, follow B0 (EBook c) p = Some (EHist i) -> fnmatchcase (under path (path_name p)) pattern = false
          end)) ->
    forall path l B B' r, incl l la -> plain_keys l -> keys_ok B -> entries_ok B n0 -> (exists X, B = B0 ++ X) ->
      view_items (view_ m pattern) pattern path B l = (B', r) ->
      view_post B B' b /\
      (forall l', r = Ok l' -> incl (map fst l') (map fst l) /\ plain_keys l' /\ (forall k x, In (k, x) l' -> entry_ok B' n0 x) /\
         (forall R, closed R B -> (forall c, length B <= c -> R (EBook c)) -> R (EBook b) -> forall k x, In (k, x) l' -> R x) /\
         (forall k p i, (exists y, dget k l' = Some y /\ follow B' y p = Some (EHist i)) <->
            (exists x, dget k l = Some x /\ follow B0 x p = Some (EHist i)) /\ fnmatchcase (under path (path_name (k :: p))) pattern = true)).
  Proof.
    intros Cb IH path. induction l as [|(n, x) l IHl]; intros B B' r Il Pl K E PX V; cbn [view_items] in V; fold (view_items (view_ m pattern) pattern path) in V.
    - inversion V; subst. split.
      { split; auto. split; auto. split; [exists []; rewrite app_nil_r; auto|]. auto. }
      intros l' Er. inversion Er; subst. split; [intros k []|]. split; [auto|]. split; [intros k x []|]. split; [intros R _ _ _ k x []|].
      intros k p i. cbn [dget]. split; [intros (y & H & _); discriminate|intros ((y & H & _) & _); discriminate].
    - assert (Ix := Il (n, x) (or_introl eq_refl)). assert (Ox := E0 _ _ _ _ Cb Ix).
      assert (Il' : incl l la) by (intros a I; apply Il; right; auto).
      destruct Pl as (Nd & Pk). cbn [map fst] in Nd. inversion Nd as [|? ? Nn Nd']; subst.
      assert (Pl' : plain_keys l) by (split; auto; intros k I; apply Pk; right; auto).
      destruct PX as (X & EX). assert (LB0 : length B0 <= length B) by (rewrite EX, app_length; lia).
      assert (V0 := entries_valid _ _ E0).
      set (first := match x with
             | EHist h => (B, Ok (if fnmatchcase (under path n) pattern then [(n, x)] else []))
             | EBook c => let '(B1, r) := view_ m pattern B c (Some (under path n)) in
                          (B1, rmap (fun d => match d with Some d => [(n, EBook d)] | None => [] end) r)
             end) in *.
      assert (Step : forall B1 r1, first = (B1, r1) -> view_post B B1 b /\
                (forall here, r1 = Ok here -> (here = [] \/ exists y, here = [(n, y)] /\ entry_ok B1 n0 y /\
                     (forall R, closed R B -> (forall c, length B <= c -> R (EBook c)) -> R (EBook b) -> R y)) /\
                   (forall p i, (exists y, dget n here = Some y /\ follow B1 y p = Some (EHist i)) <-> follow B0 x p = Some (EHist i) /\ fnmatchcase (under path (path_name (n :: p))) pattern = true))).
      { intros B1 r1 E1. unfold first in E1. destruct x as [h|c].
        - inversion E1; subst. split; [split; auto; split; auto; split; [exists []; rewrite app_nil_r; auto|auto]|]. intros here Eh. inversion Eh; subst here. clear Eh E1.
          destruct (fnmatchcase (under path n) pattern) eqn:Fm.
          + split.
            * right. exists (EHist h). split; auto. split; auto. intros R HR Nw Rb. apply (HR b la n); auto. rewrite content_app_old; [exact Cb|apply content_some; eauto].
            * intros p i. cbn [dget]. rewrite String.eqb_refl. split.
              -- intros (y & Ey & Ep). inversion Ey; subst y. destruct p; [|discriminate Ep]. split; auto.
              -- intros (Ep & _). exists (EHist h). split; auto. destruct p; [auto|discriminate Ep].
          + split; [left; auto|]. intros p i. cbn [dget]. split; [intros (y & Ey & _); discriminate|]. intros (Ep & Fm'). destruct p; [|discriminate Ep]. cbn [path_name] in Fm'. congruence.
        - cbn in Ox. destruct (view_ m pattern B c (Some (under path n))) as [B2 r2] eqn:Ev. inversion E1; subst B2 r1. clear E1.
          destruct (IH B c _ B1 r2 K E (ex_intro _ X EX) Ox Ev) as ((K1 & En1 & PX1 & C1) & R1).
          assert (Rc : forall R, closed R B -> R (EBook b) -> R (EBook c)).
          { intros R HR Rb. apply (HR b la n); auto. rewrite EX, content_app_old; [exact Cb|apply content_some; eauto]. }
          split; [split; auto; split; auto; split; auto; intros R HR Nw Rb; apply C1; auto; exact (Rc R HR Rb)|].
          intros here Eh. destruct r2 as [[d|]|e]; cbn [rmap] in Eh; inversion Eh; subst here; clear Eh; specialize (R1 _ eq_refl); cbv beta iota in R1.
          + destruct R1 as (Ld & Sh). split.
            * right. exists (EBook d). split; auto. split; [cbn; lia|]. intros R HR Nw Rb. apply Nw. lia.
            * intros p i. cbn [dget]. rewrite String.eqb_refl. specialize (Sh p i).
              assert (Np : follow B0 (EBook c) p = Some (EHist i) -> p <> []) by (intros Ep ->; discriminate). split.
              -- intros (y & Ey & Ep). inversion Ey; subst y. apply Sh in Ep. destruct Ep as (Ep & Fm). split; auto. rewrite <- under_deeper; auto.
              -- intros (Ep & Fm). exists (EBook d). split; auto. apply Sh. split; auto. rewrite under_deeper; auto.
          + split; [left; auto|]. intros p i. cbn [dget]. split; [intros (y & Ey & _); discriminate|]. intros (Ep & Fm).
            assert (Np : p <> []) by (intros ->; discriminate). specialize (R1 p i Ep). rewrite (under_deeper path n p Np) in R1. congruence. }
      destruct first as [B1 [here|e]] eqn:E1.
      2:{ inversion V; subst. destruct (Step _ _ eq_refl) as (P1 & _). split; auto. discriminate. }
      destruct (Step _ _ eq_refl) as (P1 & R1). destruct (R1 here eq_refl) as (H1 & H2). clear Step R1. destruct P1 as (K1 & En1 & (Y1 & EY1) & C1).
      assert (PX1 : exists X, B1 = B0 ++ X) by (exists (X ++ Y1); rewrite EY1, EX, app_assoc; auto).
      destruct (view_items (view_ m pattern) pattern path B1 l) as [B2 [t'|e]] eqn:E2; inversion V; subst; clear V;
        destruct (IHl _ _ _ Il' Pl' K1 En1 PX1 E2) as ((K2 & En2 & (Y2 & EY2) & C2) & R2);
        (assert (P2 : view_post (B0 ++ X) B' b);
         [split; auto; split; auto; split; [exists (Y1 ++ Y2); rewrite EY2, app_assoc; auto|]; intros R HR Nw Rb; apply C2; auto; intros c Lc; apply Nw; rewrite app_length in Lc; lia|]);
        split; auto; [|discriminate].
      intros l' Er. inversion Er; subst l'. clear Er. destruct (R2 t' eq_refl) as (I2 & (Nd2 & Pk2) & O2 & C2' & S2). clear R2.
      assert (Lk : forall y p, entry_ok ((B0 ++ X) ++ Y1) n0 y -> follow (((B0 ++ X) ++ Y1) ++ Y2) y p = follow ((B0 ++ X) ++ Y1) y p).
      { intros y p O. apply follow_more; [apply (entries_valid _ _ En1)|eapply entry_exists; eauto]. }
      rewrite EY2 in *.
      split; [|split; [|split; [|split]]].
      + rewrite map_app. intros k I. apply in_app_or in I. destruct I as [I|I]; [|right; auto]. destruct H1 as [->|(y & -> & _)]; [destruct I|]. destruct I as [<-|[]]. left. auto.
      + destruct H1 as [->|(y & -> & _)]; [split; auto|]. split; cbn [app map fst].
        * constructor; auto.
        * intros k [<-|I]; auto. apply Pk. left. auto.
      + intros k y I. apply in_app_or in I. destruct I as [I|I]; [|eauto]. destruct H1 as [->|(y' & -> & O1 & _)]; [destruct I|]. destruct I as [I|[]]. inversion I; subst.
        destruct y; cbn in *; rewrite ?app_length in *; lia.
      + intros R HR Nw Rb k y I. apply in_app_or in I. destruct I as [I|I].
        * destruct H1 as [->|(y' & -> & _ & O1)]; [destruct I|]. destruct I as [I|[]]. inversion I; subst. exact (O1 R HR Nw Rb).
        * apply (C2' R) with (k := k); auto. intros c Lc. apply Nw. rewrite app_length in Lc. lia.
      + intros k p i. rewrite dget_app. cbn [dget]. destruct (String.eqb_spec k n) as [->|Nk].
        * assert (Dt : dget n t' = None).
          { destruct (dget n t') as [z|] eqn:D; auto. apply dget_in in D. apply (in_map fst) in D. apply I2 in D. contradiction. }
          rewrite Dt. assert (Q : (exists y, match dget n here with Some x0 => Some x0 | None => None end = Some y /\ follow (((B0 ++ X) ++ Y1) ++ Y2) y p = Some (EHist i)) <->
                                  (exists y, dget n here = Some y /\ follow ((B0 ++ X) ++ Y1) y p = Some (EHist i))).
          { destruct H1 as [->|(y' & -> & O1 & _)]; cbn [dget]; [split; intros (y & Hy & _); discriminate|]. rewrite String.eqb_refl. split; intros (y & Ey & Ep); exists y; (split; [auto|]); inversion Ey; subst; [rewrite Lk in Ep|rewrite Lk]; auto. }
          rewrite Q, H2. split; [intros (Ep & Fm); split; eauto|intros ((x' & Ex' & Ep) & Fm); inversion Ex'; subst; auto].
        * assert (Dh : dget k here = None) by (destruct H1 as [->|(y & -> & _)]; cbn [dget]; auto; destruct (String.eqb_spec k n); auto; contradiction).
          rewrite Dh. apply S2.
  Qed.
  Lemma view_ok m : forall B b path B' r, keys_ok B -> entries_ok B n0 -> (exists X, B = B0 ++ X) -> b < length B0 -> view_ m pattern B b path = (B', r) ->
       view_post B B' b /\
       (forall o, r = Ok o -> match o with
          | Some d => length B <= d < length B' /\ shows path B' (EBook d) (EBook b)
          | None => forall p i, follow B0 (EBook b) p = Some (EHist i) -> fnmatchcase (under path (path_name p)) pattern = false
          end).
  Proof.
    induction m as [|m IH]; intros B b path B' r K E PX Lb V; cbn [view_] in V.
    - inversion V; subst. split; [|discriminate]. split; auto. split; auto. split; [exists []; rewrite app_nil_r; auto|auto].
    - change (content_or B b) with (content_of B b) in V. assert (CB : content_of B b = content_of B0 b) by (destruct PX as (X & ->); apply content_app_old; auto). rewrite CB in V.
      destruct (content_of B0 b) as [la|] eqn:Cb; [|apply content_some in Lb; destruct Lb; congruence].
      destruct (view_items (view_ m pattern) pattern path B la) as [B1 [l'|e]] eqn:E1;
        destruct (view_items_ok m b la Cb IH path la B B1 _ (incl_refl _) (K0 _ _ Cb) K E PX E1) as ((K1 & En1 & (Y1 & EY1) & C1) & R1).
      2:{ inversion V; subst B' r. split; [|discriminate]. split; auto. split; auto. split; eauto. }
      destruct (R1 l' eq_refl) as (I1 & P1 & O1 & C1' & S1). clear R1.
      assert (Sp : forall k p, follow B0 (EBook b) (k :: p) = match dget k la with Some x => follow B0 x p | None => None end) by (intros k p; rewrite follow_cons; unfold look; rewrite Cb; auto).
      destruct l' as [|kx l'].
      + inversion V; subst B' r. split; [split; auto; split; auto; split; eauto|]. intros o Eo. inversion Eo; subst o. intros [|k p] i Ep; [discriminate|]. rewrite Sp in Ep.
        destruct (fnmatchcase (under path (path_name (k :: p))) pattern) eqn:Fm; auto. exfalso.
        destruct (proj2 (S1 k p i)) as (y & D & _); [|discriminate]. split; auto. destruct (dget k la) as [x|]; [eauto|discriminate].
      + rewrite fromdicts_plain in V by auto. cbn [rmap] in V. inversion V; subst B' r. clear V. set (l2 := kx :: l') in *. split.
        * split; [apply keys_new; auto|]. split; [apply entries_new; auto|]. split; [exists (Y1 ++ [book_of l2]); rewrite EY1, app_assoc; auto|].
          intros R HR Nw Rb. apply closed_new; auto. eapply C1'; eauto.
        * intros o Eo. inversion Eo; subst o. split; [rewrite EY1, !app_length; cbn; lia|]. intros [|k p] i; [cbn [follow]; split; [discriminate|intros (H & _); discriminate]|].
          rewrite Sp. rewrite follow_cons. unfold look, content_of. rewrite nth_last. cbn [option_map b_content book_of]. split.
          -- destruct (dget k l2) as [y|] eqn:D; [|discriminate]. rewrite follow_more; [|apply (entries_valid _ _ En1)|eapply entry_exists; eapply O1; apply dget_in; eauto].
             intros Ep. destruct (proj1 (S1 k p i)) as ((x & Dx & Ex) & Fm); [eauto|]. rewrite Dx. auto.
          -- intros (Ep & Fm). destruct (dget k la) as [x|] eqn:Dx; [|discriminate]. destruct (proj2 (S1 k p i)) as (y & Dy & Ey); [eauto|]. rewrite Dy.
             rewrite follow_more; [auto|apply (entries_valid _ _ En1)|eapply entry_exists; eapply O1; apply dget_in; eauto].
  Qed.
End View.
