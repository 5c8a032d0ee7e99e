(** Books and sharing, part 5: programs. *)
From Coq Require Import String.
From Verif Require Import Base Num Axis Calc Content Fill HistAlg AlgSpec HistAlgProofs HistAlgMain Heap HeapSpec HeapProofs HeapAdd HeapMain HeapMain2
  Tree Instr Elem HistFill Glob Book BookSpec BookProofs BookPaths BookIter BookFill BookHeap BookHeapSpec BookHeapProofs BookHeapAdd BookHeapFrame BookHeapActs.
Local Open Scope string_scope.
Local Open Scope list_scope.

Lemma present_fine W x : present W x <-> fine W x.
Proof.
  destruct x as [i|b]; cbn; [|tauto]. change (hist_value W i) with (nth_error (vals W) i). split.
  - intros (h & E). apply nth_error_Some. congruence.
  - intros L. destruct (nth_error (vals W) i) as [h|] eqn:E; eauto. apply nth_error_None in E. lia.
Qed.
Lemma copy_same h : hist_copy h = h.
Proof. unfold hist_copy. rewrite copycontent_id. destruct h; auto. Qed.

Lemma derive_frame R W b mk f (ok : nat -> Prop) : framed R W -> (forall vs i h, nth_error vs i = Some h -> value_step vs (mk i) = new vs (f h)) ->
  (forall i vs', ok i -> i < length (vals W) -> safe_op (vals W ++ vs') (mk i)) -> (forall p i, at_path (w_books W) b p = Some (EHist i) -> ok i) ->
  forall m W' r, derive m mk W b = (W', r) -> frame R W W' /\ grows W W' /\ sound W' /\ (forall y, r = Ok y -> b < length (w_books W) -> result f W W W' (EBook b) y).
Proof.
  intros F Hmk Hok Hb m W' r E. destruct (Nat.lt_ge_cases b (length (w_books W))) as [Lb|Lb].
  - destruct (derive_ok mk f Hmk W ok Hok (proj1 F) m W b W' r) as (S' & G & _ & R'); auto; [apply F|apply grows_refl|split; auto|].
    split; [apply grows_frame; auto|]. auto.
  - assert (E' : W' = W).
    { destruct m as [|m]; cbn [derive] in E; [inversion E; auto|]. unfold content_or in E. destruct (nth_error (w_books W) b) eqn:N; [assert (b < length (w_books W)) by (apply nth_error_Some; congruence); lia|].
      cbn in E. inversion E. auto. }
    subst W'. split; [apply frame_refl; auto|]. split; [apply grows_refl|]. split; [apply F|]. intros y Ey Lb'. lia.
Qed.
Lemma mk_copy vs i h : nth_error vs i = Some h -> value_step vs (OCopy i) = new vs (Ok h).
Proof. intros E. cbn [value_step]. unfold get_var. rewrite E. cbn [rmap]. rewrite copy_same. auto. Qed.
Lemma mk_copyonfill vs i h : nth_error vs i = Some h -> value_step vs (OCopyOnFill i) = new vs (Ok h).
Proof. intros E. cbn [value_step]. unfold get_var. rewrite E. cbn [rmap]. rewrite copy_same. auto. Qed.
Lemma mk_cleared vs i h : nth_error vs i = Some h -> value_step vs (OCleared i) = new vs (Ok (hist_cleared h)).
Proof. intros E. cbn [value_step]. unfold get_var. rewrite E. auto. Qed.
Lemma mk_mul v vs i h : nth_error vs i = Some h -> value_step vs (OMul i v) = new vs (hist_mul h v).
Proof. intros E. cbn [value_step]. unfold get_var. rewrite E. auto. Qed.
Lemma unfilled_app vs vs' i : unfilled vs i -> i < length vs -> unfilled (vs ++ vs') i.
Proof. unfold unfilled. intros U L. rewrite nth_error_app1; auto. Qed.
Lemma all_unfilled_spec W b : all_unfilled W (EBook b) <-> forall p i, at_path (w_books W) b p = Some (EHist i) -> unfilled (vals W) i.
Proof.
  unfold all_unfilled, unfilled, at_path. split.
  - intros H p i E. specialize (H p i). unfold hist_value, value_of in H. fold (vals W) in H. destruct (nth_error (vals W) i); auto.
  - intros H p i h E1 E2. specialize (H p i E1). unfold hist_value, value_of in E2. fold (vals W) in E2. rewrite E2 in H. auto.
Qed.

Lemma act_frame R limit W a : framed R W -> safe W a -> (forall x, In x (uses a) -> R x) -> frame R W (fst (act limit W a)).
Proof.
  intros F Sf U. assert (Same : frame R W W) by (apply frame_refl; auto).
  assert (DF : forall mk f (ok : nat -> Prop) b, (forall vs i h, nth_error vs i = Some h -> value_step vs (mk i) = new vs (f h)) ->
    (forall i vs', ok i -> i < length (vals W) -> safe_op (vals W ++ vs') (mk i)) -> (forall p i, at_path (w_books W) b p = Some (EHist i) -> ok i) ->
    frame R W (fst (no_value (derive limit mk W b)))).
  { intros mk f ok b H1 H2 H3. destruct (derive limit mk W b) as [W' r] eqn:E. destruct (derive_frame R W b mk f ok F H1 H2 H3 limit W' r E) as (Fr & _). auto. }
  destruct a as [|b name x|b name|b|b|b|b v|a b|a b|b v|b|b pre post|samples l|b pattern|o]; cbn [act safe uses] in *.
  - apply new_book_frame. auto.
  - assert (D := set_frame R W b name x F (U _ (or_introl eq_refl)) (U _ (or_intror (or_introl eq_refl))) (proj1 (present_fine W x) Sf)).
    destruct (setitem (w_books W) b name x). auto.
  - assert (D := delitem_frame R W limit b name F (U _ (or_introl eq_refl))). destruct (delitem limit (w_books W) b name). auto.
  - apply (DF OCopy (fun h => Ok h) (fun _ => True)); auto. exact mk_copy.
  - apply (DF OCopyOnFill (fun h => Ok h) (unfilled (vals W))); [exact mk_copyonfill| |].
    + intros i vs' Ui Li. apply unfilled_app; auto.
    + apply all_unfilled_spec. auto.
  - apply (DF OCleared (fun h => Ok (hist_cleared h)) (fun _ => True)); auto. exact mk_cleared.
  - apply (DF (fun i => OMul i v) (fun h => hist_mul h v) (fun _ => True)); auto. apply mk_mul.
  - destruct (book_add limit W a b) as [W' r] eqn:E. cbn [no_value fst].
    destruct (Nat.lt_ge_cases a (length (w_books W))) as [La|La]; [destruct (Nat.lt_ge_cases b (length (w_books W))) as [Lb|Lb]|].
    + destruct (add_ok W (proj1 F) limit W a b W' r) as (S' & M & KC & _); auto; [apply F|apply more_refl|split; [exact La|split; [exact Lb|]]|].
      * intros p i j h k E1 E2 E3 E4. apply (Sf p i j h k); auto.
      * apply more_frame; auto. apply KC; [apply F|apply F|apply U; left; auto|apply U; right; left; auto].
    + assert (W' = W); [|subst; auto]. destruct limit as [|m]; cbn [book_add] in E; [inversion E; auto|]. unfold content_or in E.
      apply nth_error_None in Lb. rewrite Lb in E. cbn [option_map] in E. destruct (option_map b_content (nth_error (w_books W) a)); inversion E; auto.
    + assert (W' = W); [|subst; auto]. destruct limit as [|m]; cbn [book_add] in E; [inversion E; auto|]. unfold content_or in E.
      apply nth_error_None in La. rewrite La in E. cbn [option_map] in E. inversion E; auto.
  - apply iadd_frame; auto; apply U; [left|right; left]; auto.
  - apply on_hists_frame; auto; [apply U; left; auto|]. intros ids _. split; apply Forall_forall; intros o I; apply in_map_iff in I; destruct I as (i & <- & I); cbn; eauto.
  - apply on_hists_frame; auto; [apply U; left; auto|]. intros ids _. split; apply Forall_forall; intros o I; apply in_map_iff in I; destruct I as (i & <- & I); cbn; eauto.
  - apply on_hists_frame; auto; [apply U; left; auto|]. intros ids Ei.
    assert (H : forall i h, In i ids -> nth_error (vals W) i = Some h -> is_filler (ngroups h) (pre i) /\ is_filler (ngroups h) (post i)).
    { intros i h I Eh. apply (hists_below limit _ b ids (so_keys _ (proj1 F)) Ei) in I. destruct I as (p & Ep). apply (Sf p i h); auto. }
    split; apply Forall_forall; intros o I; apply in_app_or in I; destruct I as [I|I]; apply in_map_iff in I; destruct I as (i & <- & I); cbn; eauto; intros h Eh; apply (H i h); auto.
  - cbn [no_value]. unfold samples_book. cbn [new_book]. assert (D := new_book_frame R W F).
    assert (SF := samples_frame R W (length (w_books W)) l (proj1 F)). cbn [new_book] in SF.
    assert (G : frame R (with_books W (w_books W ++ [empty_book])) (fst (add_samples limit (with_books W (w_books W ++ [empty_book])) (length (w_books W)) samples l))).
    { apply SF.
      - intros n x I. destruct (Sf n x I) as (Pr & Un). split; [apply U; apply in_map_iff; exists (n, x); auto|]. split; [apply present_fine; auto|].
        destruct x as [i|c]; cbn.
        + unfold unfilled. destruct (nth_error (vals W) i) as [h|] eqn:Eh; auto. apply (Un [] i h); auto.
        + right. apply all_unfilled_spec. auto.
      - apply F. auto.
      - left. auto.
      - apply D.
      - apply new_book_frame. apply empty_framed. apply F.
      - exists []. rewrite app_nil_r. auto.
      - cbn [with_books w_books]. rewrite app_length. lia. }
    destruct (add_samples limit (with_books W (w_books W ++ [empty_book])) (length (w_books W)) samples l) as [W1 [e|]]; cbn [fst] in *; eapply frame_trans; eauto.
  - unfold book_view. destruct (view_ limit pattern (w_books W) b None) as [B1 r] eqn:E. assert (Fr : frame R W (with_books W B1)).
    { destruct (Nat.lt_ge_cases b (length (w_books W))) as [Lb|Lb].
      - destruct (view_ok pattern (length (vals W)) (w_books W) (so_keys _ (proj1 F)) (so_entries _ (proj1 F)) limit (w_books W) b None B1 r) as ((K1 & E1 & (Y & EY) & C1) & _);
          [apply F|apply F|exists []; rewrite app_nil_r; auto|auto|auto|]. apply books_frame; auto.
        + apply C1; [apply F|apply F|apply U; left; auto].
        + intros c lc _ Ec. rewrite EY, content_app_old; auto. apply content_some. eauto.
        + rewrite EY, app_length. lia.
      - assert (B1 = w_books W); [|subst; destruct W; auto]. destruct limit as [|m]; cbn [view_] in E; [inversion E; auto|]. unfold content_or in E.
        apply nth_error_None in Lb. rewrite Lb in E. cbn [option_map] in E. inversion E; auto. }
    destruct r as [[d|]|e]; auto.
  - destruct (hist_frame R W o F Sf) as (Fr & _).
    + intros i Ti. apply U. rewrite Ti. left. auto.
    + destruct (step (w_hists W) o). auto.
Qed.
Lemma acts_frame R limit l : forall W, framed R W -> safe_all limit W l -> Forall (fun a => forall x, In x (uses a) -> R x) l -> frame R W (act_all limit W l).
Proof.
  induction l as [|a l IH]; intros W F Sf U; cbn [act_all]; [apply frame_refl; auto|]. destruct Sf as (S1 & S2). inversion U; subst.
  assert (D := act_frame R limit W a F S1 H1). eapply frame_trans; [exact D|]. apply IH; auto. apply D.
Qed.

Lemma sound_framed W : sound W -> framed (fun _ => True) W.
Proof. intros S. split; auto. split; [intros b l k x _ _ _; auto|split; auto]. Qed.
Lemma reachable_sound limit W : reachable limit W -> sound W.
Proof.
  induction 1 as [hs Hf|W a Hr IH Hs].
  - split; cbn [start w_books w_hists].
    + intros b l E. unfold content_of in E. destruct b; discriminate.
    + intros b l k x E. unfold content_of in E. destruct b; discriminate.
    + apply (loose_fresh hs Hf).
  - apply (act_frame (fun _ => True) limit W a (sound_framed W IH) Hs). auto.
Qed.
Lemma reachable_all limit W l : reachable limit W -> safe_all limit W l -> reachable limit (act_all limit W l).
Proof. revert W. induction l as [|a l IH]; intros W Hr Hs; auto. destruct Hs as (H1 & H2). apply IH; auto. constructor; auto. Qed.

(** What is outside the region stays as it was. *)
Lemma frame_unchanged R W W' x : framed R W -> frame R W W' -> fine W x -> (forall p y, follow (w_books W) x p = Some y -> ~ R y) -> unchanged W W' x.
Proof.
  intros F (_ & K) Ox NR.
  assert (Eq : forall p x0, follow (w_books W) x p = Some x0 -> forall q, follow (w_books W') x0 q = follow (w_books W) x0 q).
  { intros p x0 E0 q. revert p x0 E0. induction q as [|k q IH]; intros p x0 E0; auto. rewrite !follow_cons. destruct x0 as [h|b]; auto.
    assert (Ob := follow_entry _ _ p (so_entries _ (proj1 F)) x (EBook b) Ox E0). cbn in Ob. apply content_some in Ob. destruct Ob as (l & Cb).
    unfold look. rewrite (k_content _ _ _ K b l (NR p _ E0) Cb), Cb. destruct (dget k l) as [y|] eqn:D; auto. apply (IH (p ++ [k])). rewrite BookProofs.follow_app, E0, follow_cons. unfold look. rewrite Cb, D. auto. }
  intros p. split; [apply (Eq []); auto|]. intros i Ei. assert (Oi := follow_entry _ _ p (so_entries _ (proj1 F)) x (EHist i) Ox Ei). cbn in Oi.
  unfold hist_value, value_of. fold (vals W) (vals W'). destruct (nth_error (vals W) i) as [h|] eqn:Eh; [|apply nth_error_None in Eh; lia].
  apply (k_value _ _ _ K); auto. eapply NR; eauto.
Qed.
Lemma new_spec W x : is_new W x <-> ~ fine W x.
Proof. destruct x as [i|b]; cbn; [|lia]. unfold hist_value, value_of. fold (vals W). rewrite nth_error_None. lia. Qed.
Lemma below_framed W y : sound W -> framed (fun x => below (w_books W) y x \/ is_new W x) W.
Proof.
  intros S. split; auto. split.
  - intros b l k x [(p & E)|N] C I.
    + left. exists (p ++ [k]). rewrite BookProofs.follow_app, E, follow_cons. unfold look. rewrite C, (in_dget k l x); auto. apply (so_keys _ S b l C).
    + exfalso. apply new_spec in N. apply N. cbn. apply content_some. eauto.
  - split; intros i Hi; right; apply new_spec; cbn; lia.
Qed.
(** old things of [W], and what is new in [W'] *)
Lemma old_framed W W' : more W W' -> sound W -> sound W' -> framed (fun x => fine W x \/ is_new W' x) W'.
Proof.
  intros M S S'. split; auto. split.
  - intros b l k x [O|N] C I.
    + left. cbn in O. rewrite (more_content W W' b M O) in C. eapply (so_entries _ S); eauto.
    + exfalso. apply new_spec in N. apply N. cbn. apply content_some. eauto.
  - split; intros i Hi; right; apply new_spec; cbn; lia.
Qed.

(** ** When copies fail: below the recursion limit only if an entry fails. *)
Section Errors.
  Variable mk : nat -> op.
  Variable f : hobj -> res hobj.
  Hypothesis Hmk : forall vs i h, nth_error vs i = Some h -> value_step vs (mk i) = new vs (f h).
  Variable W0 : world.
  Variable ok : nat -> Prop.
  Hypothesis Hok : forall i vs', ok i -> i < length (vals W0) -> safe_op (vals W0 ++ vs') (mk i).
  Hypothesis S0 : sound W0.
  Definition reason (m : nat) (x : entry) (e : err) : Prop :=
    (e = RecursionError /\ exists p c, follow (w_books W0) x p = Some (EBook c) /\ m <= length p) \/
    (exists p i h, follow (w_books W0) x p = Some (EHist i) /\ nth_error (vals W0) i = Some h /\ f h = Err e).
  Lemma derive_items_err m :
    (forall W b W' e, sound W -> grows W0 W -> good_entry W0 ok (EBook b) -> derive m mk W b = (W', Err e) -> reason m (EBook b) e) ->
    forall l W W' e, sound W -> grows W0 W -> NoDup (map fst l) -> (forall n x, In (n, x) l -> good_entry W0 ok x) ->
      derive_items (derive m mk) mk W l = (W', Err e) -> exists n x, In (n, x) l /\ reason m x e.
  Proof.
    intros IH. induction l as [|(n, x) l IHl]; intros W W' e S G Nd Hl E; cbn [derive_items] in E; fold (derive_items (derive m mk) mk) in E; [discriminate|].
    cbn [map fst] in Nd. inversion Nd as [|? ? Nn Nd']; subst. destruct (Hl n x (or_introl eq_refl)) as (Ox & Gx).
    match type of E with (match ?X with pair _ _ => _ end) = _ => assert (Step : forall W1 r1, X = (W1, r1) -> sound W1 /\ grows W W1 /\ (forall e, r1 = Err e -> reason m x e)); [|destruct X as [W1 [y|e1]]] end.
    { intros W1 r1 E1. destruct x as [i|c].
      - cbn in Ox. destruct (nth_error (vals W0) i) as [h|] eqn:Eh; [|apply nth_error_None in Eh; lia].
        assert (SO : safe_op (vals W) (mk i)) by (destruct G as ((X & Y & _ & ->) & _); apply Hok; auto; apply (Gx []); auto).
        destruct (new_hist_ok W (mk i) (f h) S SO (Hmk _ _ _ (grows_value _ _ _ _ G Eh))) as (S1 & B1 & R1). rewrite E1 in *. cbn [fst snd] in *.
        destruct (f h) as [h'|e'] eqn:Ef.
        + destruct R1 as (-> & V1). split; auto. split; [split; [exists [], [h']; rewrite app_nil_r; auto|rewrite B1; auto]|]. discriminate.
        + destruct R1 as (-> & V1). split; auto. split; [split; [exists [], []; rewrite !app_nil_r; auto|rewrite B1; auto]|]. intros e0 E0. inversion E0; subst e0. right. exists [], i, h. auto.
      - destruct (derive_ok mk f Hmk W0 ok Hok S0 m W c W1 r1 S G (conj Ox Gx) E1) as (S1 & G1 & _). split; auto. split; auto. intros e0 ->. exact (IH W c W1 e0 S G (conj Ox Gx) E1). }
    2:{ inversion E; subst. exists n, x. split; [left; auto|]. destruct (Step _ _ eq_refl) as (_ & _ & R). auto. }
    destruct (Step _ _ eq_refl) as (S1 & G1 & _). destruct (derive_items (derive m mk) mk W1 l) as [W2 [l2|e2]] eqn:E2; [discriminate|]. inversion E; subst.
    destruct (IHl _ _ _ S1 (grows_trans _ _ _ G G1) Nd' (fun n x I => Hl n x (or_intror I)) E2) as (n' & x' & I' & R'). exists n', x'. split; auto. right. auto.
  Qed.
  Lemma derive_err m : forall W b W' e, sound W -> grows W0 W -> good_entry W0 ok (EBook b) -> derive m mk W b = (W', Err e) -> reason m (EBook b) e.
  Proof.
    induction m as [|m IH]; intros W b W' e S G Hb E; cbn [derive] in E.
    - inversion E; subst. left. split; auto. exists [], b. split; auto.
    - change (content_or (w_books W) b) with (content_of (w_books W) b) in E. destruct Hb as (Ob & Gb). cbn in Ob.
      assert (Cb : content_of (w_books W) b = content_of (w_books W0) b) by (destruct G as ((X & Y & -> & _) & _); apply content_app_old; auto). rewrite Cb in E.
      destruct (content_of (w_books W0) b) as [l|] eqn:Cl; [|apply content_some in Ob; destruct Ob; congruence].
      destruct (so_keys _ S0 _ _ Cl) as (Nd & Pk).
      assert (Fl : forall n x, In (n, x) l -> forall p, follow (w_books W0) (EBook b) (n :: p) = follow (w_books W0) x p).
      { intros n x I p. rewrite follow_cons. unfold look. rewrite Cl, (in_dget n l x); auto. }
      assert (Hl : forall n x, In (n, x) l -> good_entry W0 ok x).
      { intros n x I. split; [eapply (so_entries _ S0); eauto|]. intros p i Ep. apply (Gb (n :: p)). rewrite (Fl n x I). auto. }
      destruct (derive_items (derive m mk) mk W l) as [W1 [l'|e1]] eqn:E1.
      + destruct (derive_items_ok mk f Hmk W0 ok Hok m (derive_ok mk f Hmk W0 ok Hok S0 m) l W W1 _ S G Nd Hl E1) as (S1 & G1 & Mk1 & R1).
        specialize (R1 l' eq_refl). assert (Nm := items_names _ _ _ _ _ _ R1). destruct R1 as (F1 & J1).
        assert (Pl : plain_keys l') by (unfold plain_keys; rewrite Nm; auto).
        assert (Oe : forall k x, In (k, x) l' -> entry_ok (w_books W1) (length (vals W1)) x).
        { intros k x I. clear - F1 I. induction F1 as [|a c l l' (_ & R) F IH]; [destruct I|]. destruct I as [->|I]; auto. apply R. }
        destruct (new_dict_ok W1 l' S1 Pl Oe) as (E2 & S2). rewrite E2 in E. discriminate.
      + inversion E; subst. destruct (derive_items_err m IH l W W' e S G Nd Hl E1) as (n & x & I & [(-> & p & c & Ep & Lp)|(p & i & h & Ep & Eh & Ef)]).
        * left. split; auto. exists (n :: p), c. rewrite (Fl n x I). split; auto. cbn. lia.
        * right. exists (n :: p), i, h. rewrite (Fl n x I). auto.
  Qed.
End Errors.
