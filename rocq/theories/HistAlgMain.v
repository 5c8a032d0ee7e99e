(** Laws of histogram arithmetic, from the lemmas about contents. *)
From Coq Require Import String.
From Verif Require Import Base Num NumFacts Axis Calc Content Fill FillSpec FillProofs FillProofs2 FillProofs3 FillMain HistAlg AlgSpec HistAlgProofs.
Local Open Scope list_scope.

(** ** Equal axes have the same bins *)
Lemma nums_eqb_eq l : forall m, nums_eqb l m = true -> l = m.
Proof.
  induction l as [|x l IH]; intros [|y m]; cbn [nums_eqb]; try discriminate; auto.
  intros H. apply andb_prop in H. destruct H as (H1 & H2). f_equal; auto using neqb_eq.
Qed.
Lemma axis_eqb_eq a b : axis_eqb a b = true -> a = b.
Proof.
  destruct a, b; cbn [axis_eqb]; try discriminate; auto; intros H;
    repeat (apply andb_prop in H; destruct H as (H & ?));
    repeat match goal with
    | H : String.eqb _ _ = true |- _ => apply String.eqb_eq in H; subst
    | H : neqb _ _ = true |- _ => apply neqb_eq in H; subst
    | H : Nat.eqb _ _ = true |- _ => apply Nat.eqb_eq in H; subst
    | H : Z.eqb _ _ = true |- _ => apply Z.eqb_eq in H; subst
    | H : Bool.eqb _ _ = true |- _ => apply Bool.eqb_prop in H; subst
    | H : nums_eqb _ _ = true |- _ => apply nums_eqb_eq in H; subst
    end; reflexivity.
Qed.
Lemma axes_eqb_eq l : forall m, axes_eqb l m = true -> l = m.
Proof.
  induction l as [|x l IH]; intros [|y m]; cbn [axes_eqb]; try discriminate; auto.
  intros H. apply andb_prop in H. destruct H as (H1 & H2). f_equal; auto using axis_eqb_eq.
Qed.

(** ** Cells of a sum and of a multiple *)
Definition at_ (d : option (list Num)) (i : nat) : Num := match d with Some l => nth i l nzero | None => nzero end.
Lemma cell_at L c ks ss j : cell L c ks ss j = at_ (block c ks) (ravel (l_tots L) ss * l_last L + j).
Proof. reflexivity. Qed.
Lemma nth_map2 d : forall e i, length d = length e -> nth i (map2 nadd d e) nzero = nadd (nth i d nzero) (nth i e nzero).
Proof.
  induction d as [|x d IH]; intros [|y e] [|i]; cbn [map2 nth length]; intros H; try lia; try (rewrite nadd_0_l; reflexivity); auto.
Qed.
Lemma at_join x y i : (forall d e, x = Some d -> y = Some e -> length d = length e) ->
  at_ (join x y) i = nadd (at_ x i) (at_ y i).
Proof.
  destruct x as [d|], y as [e|]; cbn [join at_]; intros H.
  - apply nth_map2. auto.
  - rewrite nadd_0_r. reflexivity.
  - rewrite nadd_0_l. reflexivity.
  - rewrite nadd_0_l. reflexivity.
Qed.
Lemma hist_block_length L n c ks d : hist_ok L n c -> block c ks = Some d -> length d = l_size L.
Proof. intros [->|H] E; [rewrite block_none in E; discriminate|]. eapply block_length; eauto. Qed.
Lemma blocks_fit L n a b ks : hist_ok L n a -> hist_ok L n b ->
  forall d e, block a ks = Some d -> block b ks = Some e -> length d = length e.
Proof.
  intros Ha Hb d e Ea Eb. rewrite (hist_block_length L n a ks d), (hist_block_length L n b ks e); auto.
Qed.

Lemma nmul_0_fin q : nmul nzero (Fin q) = nzero.
Proof. cbn [nmul nzero]. unfold nzero. f_equal. qc_eq. Qed.
Lemma nth_map_fin q d : forall i, nth i (map (fun x => nmul x (Fin q)) d) nzero = nmul (nth i d nzero) (Fin q).
Proof. induction d; intros [|i]; cbn [map nth]; auto; symmetry; apply nmul_0_fin. Qed.

(** ** C26: sum of fills *)
Lemma in_cells_app p (a b : list row) (g : row -> Num) :
  nsum (map g (filter p (a ++ b))) = nadd (nsum (map g (filter p a))) (nsum (map g (filter p b))).
Proof. rewrite filter_app, map_app. apply nsum_app. Qed.

Lemma sum_of_fills L ng m k a b c : fill_pre L ng m a c -> fill_pre L ng m b CNone ->
  exists ca cb cab s, fill_rows L ng m a c = (ca, None) /\ fill_rows L ng m b CNone = (cb, None) /\
    fill_rows L ng m (a ++ b) c = (cab, None) /\ content_add k k ca cb = Ok s /\
    same_cells L s cab /\ (ng <= 1 -> same_content s cab).
Proof.
  intros Ha Hb.
  assert (Hab : fill_pre L ng m (a ++ b) c).
  { apply pre_app. split; auto. destruct Ha as (? & ? & ? & ? & ?), Hb as (? & ? & ? & ? & ?). repeat split; auto. }
  destruct (fill_ok _ _ _ _ _ Ha) as (ca & Ea & Oa & Va & Ba).
  destruct (fill_ok _ _ _ _ _ Hb) as (cb & Eb & Ob & Vb & Bb).
  destruct (fill_ok _ _ _ _ _ Hab) as (cab & Eab & Oab & Vab & Bab).
  destruct (content_add_ok L k ng ca cb Oa Ob) as (s & Es & Os & Bs).
  exists ca, cb, cab, s. split; [auto|]. split; [auto|]. split; [auto|]. split; [auto|].
  assert (SC : same_cells L s cab).
  { apply (same_cells_intro L ng); auto. intros ks ss kd Hs Hk. rewrite Vab by auto. rewrite in_cells_app.
    rewrite cell_at, Bs, at_join; [|apply (blocks_fit L ng); right; auto]. rewrite <- !cell_at.
    rewrite Va, Vb by auto. rewrite (cell_at L CNone), block_none. cbn [at_]. rewrite nadd_0_l, <- nadd_assoc. reflexivity. }
  split; auto. intros Hn. apply (same_content_intro L ng); auto. intros ks. rewrite Bs.
  assert (J : join (block ca ks) (block cb ks) <> None <-> block ca ks <> None \/ block cb ks <> None).
  { destruct (block ca ks), (block cb ks); cbn [join]; intuition congruence. }
  rewrite J, Ba, Bb, Bab.
  assert (P : block (prefill L ng CNone) ks <> None -> block (prefill L ng c) ks <> None \/ ng = 0).
  { destruct ng; auto. cbn [prefill Nat.eqb]. destruct ks; cbn [block assoc]; congruence. }
  destruct ng as [|[|ng]]; [| |lia].
  - (* one block *)
    assert (N : block (prefill L 0 c) [] <> None).
    { destruct Ha as (_ & _ & _ & [->|H] & _); cbn [prefill Nat.eqb block]; [congruence|].
      destruct c; try contradiction. cbn [prefill block]. congruence. }
    cbn [seq]. split.
    + intros [[H|H]|[H|H]]; auto; try (right; inversion H; constructor). right.
      destruct ks; [constructor|]. cbn [prefill Nat.eqb block] in H. congruence.
    + intros [H|H]; auto. inversion H; subst. left. left. exact N.
  - (* one group axis *)
    cbn [seq]. split.
    + intros [[H|H]|[H|H]]; auto.
      * right. inversion H as [|? ? ? ? (r & Hr & E) F]; subst. inversion F; subst. repeat constructor. exists r. split; auto. apply in_app_iff; auto.
      * destruct (P H) as [H'|H']; auto; discriminate.
      * right. inversion H as [|? ? ? ? (r & Hr & E) F]; subst. inversion F; subst. repeat constructor. exists r. split; auto. apply in_app_iff; auto.
    + intros [H|H]; auto. inversion H as [|? ? ? ? (r & Hr & E) F]; subst. inversion F; subst. apply in_app_iff in Hr.
      destruct Hr; [left|right]; right; repeat constructor; exists r; auto.
Qed.

(** ** C28: scaling the content of a fill is filling with scaled weights, but for the squared weights *)
Definition scale_weight (v : Num) (r : row) : row :=
  {| r_keys := r_keys r; r_slots := r_slots r; r_prof := r_prof r;
     r_w := nmul v (r_w r); r_w2 := nmul (nmul v (r_w r)) (nmul v (r_w r)) |}.
Lemma nmul_fin_nan q x : isnan x = false -> qeqb q qc0 = false -> isnan (nmul (Fin q) x) = false.
Proof.
  intros H Hq. destruct x; cbn [nmul isnan] in *; auto; destruct (ninf_sign_cases q) as [(_ & ->)|[(_ & ->)|(E & ->)]]; auto;
    apply qeqb_false in Hq; congruence.
Qed.
Lemma row_weight_scaled q r : qeqb q qc0 = false ->
  row_weight ExprWeight (scale_weight (Fin q) r) = nmul (Fin q) (row_weight ExprWeight r).
Proof.
  intros Hq. cbn [row_weight scale_weight r_w]. destruct (isnan (r_w r)) eqn:E.
  - destruct (r_w r); try discriminate. change (nzero = nmul (Fin q) nzero). rewrite nmul_comm. symmetry. apply nmul_0_fin.
  - rewrite nmul_fin_nan; auto.
Qed.
Lemma nmul_swap_fin q x y : nmul x (nmul (Fin q) y) = nmul (Fin q) (nmul x y).
Proof.
  assert (S : forall q, ninf_sign q = PInf \/ ninf_sign q = NInf \/ ninf_sign q = NaN).
  { intros q'. destruct (ninf_sign_cases q') as [(_ & ->)|[(_ & ->)|(_ & ->)]]; auto. }
  destruct x as [x| | |].
  - rewrite !nmul_assoc_fin. f_equal. f_equal. qc_eq.
  - destruct y as [y| | |].
    + change (nmul PInf (nmul (Fin q) (Fin y))) with (ninf_sign (q * y)%Qc).
      change (nmul (Fin q) (nmul PInf (Fin y))) with (nmul (Fin q) (nmul (Fin y) PInf)). rewrite nmul_assoc_fin. reflexivity.
    + cbn [nmul nneg]. destruct (S q) as [->|[->| ->]]; reflexivity.
    + cbn [nmul nneg]. destruct (S q) as [->|[->| ->]]; reflexivity.
    + reflexivity.
  - destruct y as [y| | |].
    + change (nmul NInf (nmul (Fin q) (Fin y))) with (nneg (ninf_sign (q * y)%Qc)).
      change (nmul (Fin q) (nmul NInf (Fin y))) with (nmul (Fin q) (nmul (Fin y) NInf)). rewrite nmul_assoc_fin. reflexivity.
    + cbn [nmul nneg]. destruct (S q) as [->|[->| ->]]; reflexivity.
    + cbn [nmul nneg]. destruct (S q) as [->|[->| ->]]; reflexivity.
    + reflexivity.
  - destruct y; reflexivity.
Qed.

(** ** Histograms *)
Lemma app_kinds (g1 f1 g2 f2 : list axis) (p : axis -> bool) :
  Forall (fun a => p a = true) g1 -> Forall (fun a => p a = true) g2 ->
  Forall (fun a => p a = false) f1 -> Forall (fun a => p a = false) f2 -> g1 ++ f1 = g2 ++ f2 -> g1 = g2 /\ f1 = f2.
Proof.
  intros H1. revert g2. induction H1 as [|x g1 Hx H1 IH]; intros g2 H2 H3 H4 E.
  - destruct H2 as [|y g2 Hy H2]; auto. cbn [app] in E. subst f1. inversion H3; congruence.
  - destruct H2 as [|y g2 Hy H2].
    + cbn [app] in E. subst f2. inversion H4; congruence.
    + injection E as -> E. destruct (IH g2 H2 H3 H4 E) as (-> & ->). auto.
Qed.
Lemma same_layout h g : hobj_ok h -> hobj_ok g -> axes_eqb (o_axes h) (o_axes g) = true ->
  o_group h = o_group g /\ o_fixed h = o_fixed g /\ o_prof h = o_prof g.
Proof.
  intros (G1 & F1 & P1 & _) (G2 & F2 & P2 & _) E. apply axes_eqb_eq in E. unfold o_axes in E.
  assert (N : forall l, Forall (fun a => is_fixed a = true) l -> Forall (fun a => is_group a = false) l).
  { intros l H. eapply Forall_impl; [|exact H]. intros []; cbn; congruence. }
  assert (N' : forall l, Forall (fun a => is_profile a = true) l -> Forall (fun a => is_group a = false) l /\ Forall (fun a => is_fixed a = false) l).
  { intros l H. split; eapply Forall_impl; try exact H; intros []; cbn; congruence. }
  assert (M : forall f p, Forall (fun a => is_fixed a = true) f -> Forall (fun a => is_profile a = true) p ->
    Forall (fun a => is_group a = false) (f ++ p)%list).
  { intros f p Hf Hp. apply Forall_app. split; [apply N|apply N']; auto. }
  destruct (app_kinds _ _ _ _ is_group G1 G2 (M _ _ F1 P1) (M _ _ F2 P2) E) as (E1 & E2).
  destruct (app_kinds _ _ _ _ is_fixed F1 F2 (proj2 (N' _ P1)) (proj2 (N' _ P2)) E2) as (E3 & E4). auto.
Qed.
Lemma same_layout' h g : hobj_ok h -> hobj_ok g -> axes_eqb (o_axes h) (o_axes g) = true -> weighted h = weighted g ->
  o_layout g = o_layout h /\ length (o_group g) = length (o_group h).
Proof.
  intros Hh Hg E W. destruct (same_layout h g Hh Hg E) as (E1 & E2 & E3).
  unfold weighted, o_layout in *. cbn [l_weighted] in W. rewrite <- E2, <- E3, E1, W. auto.
Qed.
Lemma layout_with h c : o_layout (with_content h c) = o_layout h.
Proof. reflexivity. Qed.

Lemma hist_add_main h g : hobj_ok h -> hobj_ok g -> axes_eqb (o_axes h) (o_axes g) = true -> weighted h = weighted g ->
  exists c, hist_add h g = Ok (with_content h c) /\ hobj_ok (with_content h c) /\
    content_add (l_last (o_layout h)) (l_last (o_layout h)) (o_content h) (o_content g) = Ok c /\
    (forall ks, block c ks = join (block (o_content h) ks) (block (o_content g) ks)).
Proof.
  intros Hh Hg E W. destruct (same_layout' h g Hh Hg E W) as (EL & EG).
  unfold hist_add. rewrite E, EL. destruct Hh as (K1 & K2 & K3 & Hh), Hg as (_ & _ & _ & Hg). rewrite EL, EG in Hg.
  destruct (hist_add_ok (o_layout h) (l_last (o_layout h)) (length (o_group h)) (o_content h) (o_content g) Hh Hg) as (c & Ec & Hc & V & _).
  exists c. rewrite Ec. cbn [bind]. split; auto. split; [|auto]. split; auto.
Qed.
Lemma axes_eqb_swap h g : axes_eqb (o_axes h) (o_axes g) = true -> axes_eqb (o_axes g) (o_axes h) = true.
Proof. intros E. assert (E' := E). apply axes_eqb_eq in E'. rewrite E' in *. auto. Qed.
Lemma axes_eqb_trans h g k : axes_eqb (o_axes h) (o_axes g) = true -> axes_eqb (o_axes g) (o_axes k) = true -> axes_eqb (o_axes h) (o_axes k) = true.
Proof. intros E1 E2. apply axes_eqb_eq in E1. rewrite E1. auto. Qed.
Lemma hobj_blocks_fit h g ks : hobj_ok h -> hobj_ok g -> axes_eqb (o_axes h) (o_axes g) = true -> weighted h = weighted g ->
  forall d e, block (o_content h) ks = Some d -> block (o_content g) ks = Some e -> length d = length e.
Proof.
  intros Hh Hg E W. destruct (same_layout' h g Hh Hg E W) as (EL & EG).
  destruct Hh as (_ & _ & _ & Hh), Hg as (_ & _ & _ & Hg). rewrite EL, EG in Hg. apply (blocks_fit (o_layout h) (length (o_group h))); auto.
Qed.

(** ** Equality of contents *)
Lemma nums_eqb_refl l : Forall (fun x => isnan x = false) l -> nums_eqb l l = true.
Proof. induction 1; cbn [nums_eqb]; auto. rewrite neqb_refl; auto. Qed.
Lemma eq_items_iff f m l : eq_items f m l = true <->
  Forall (fun kv => exists y, assoc (fst kv) m = Some y /\ f (snd kv) y = true) l.
Proof.
  induction l as [|[k x] l IH]; cbn [eq_items]; [split; auto|]. fold (eq_items f m l).
  rewrite andb_true_iff, IH. split.
  - intros (H1 & H2). constructor; auto. cbn [fst snd]. destruct (assoc k m); [eauto|discriminate].
  - intros H. inversion H as [|? ? (y & E & Hy) H']; subst. cbn [fst snd] in *. rewrite E. auto.
Qed.
Lemma node_nil c : node c [] <> NothingThere.
Proof. destruct c; discriminate. Qed.
Lemma node_block c : forall ks, block c ks = match node c ks with AnArray d => Some d | _ => None end.
Proof.
  induction c as [|d|l IH] using content_ind'; intros [|k ks]; try reflexivity. cbn [block node].
  destruct (assoc k l) as [x|] eqn:E; auto. rewrite Forall_forall in IH. apply (IH _ (assoc_in _ _ _ E)).
Qed.
Lemma content_eqb_complete L n : forall a b, content_ok L n a -> content_ok L n b ->
  (forall ks, node a ks = node b ks) -> nan_free a -> content_eqb a b = true.
Proof.
  induction n as [|n IH]; intros a b Ha Hb S F; destruct a as [|d|l], b as [|e|m]; try contradiction; cbn [content_ok] in *.
  - cbn [content_eqb]. assert (E := S []). cbn [node] in E. injection E as ->. apply nums_eqb_refl. apply (F []). reflexivity.
  - destruct Ha as (Fl & Nl & Kl), Hb as (Fm & Nm & Km). cbn [content_eqb].
    assert (G1 : forall k x, assoc k l = Some x -> exists y, assoc k m = Some y).
    { intros k x E. specialize (S [k]). cbn [node] in S. rewrite E in S. destruct (assoc k m); eauto. destruct (node_nil x S). }
    assert (G2 : forall k x, assoc k m = Some x -> exists y, assoc k l = Some y).
    { intros k x E. specialize (S [k]). cbn [node] in S. rewrite E in S. destruct (assoc k l); eauto. destruct (node_nil x (eq_sym S)). }
    rewrite Forall_forall in Kl, Km.
    rewrite !andb_true_iff. split; [split|].
    + apply forallb_forall. intros [k x] Hk. cbn [fst]. destruct (G1 k x) as (y & E).
      { apply assoc_of_in; auto. apply Kl. apply in_map_iff. exists (k, x). auto. }
      unfold has_key. rewrite E. auto.
    + apply forallb_forall. intros [k x] Hk. cbn [fst]. destruct (G2 k x) as (y & E).
      { apply assoc_of_in; auto. apply Km. apply in_map_iff. exists (k, x). auto. }
      unfold has_key. rewrite E. auto.
    + apply eq_items_iff. apply Forall_forall. intros [k x] Hk. cbn [fst snd].
      assert (Ex : assoc k l = Some x) by (apply assoc_of_in; auto; apply Kl; apply in_map_iff; exists (k, x); auto).
      destruct (G1 k x Ex) as (y & Ey). exists y. split; auto.
      rewrite Forall_forall in *. assert (My := assoc_in _ _ _ Ey).
      apply IH; [apply (Fl (k, x))|apply (Fm (k, y))| |]; auto.
      * intros ks. specialize (S (k :: ks)). cbn [node] in S. rewrite Ex, Ey in S. auto.
      * intros ks d Hd. apply (F (k :: ks)). cbn [block]. rewrite Ex. auto.
Qed.
Lemma content_eqb_sound L n : forall a b, content_ok L n a -> content_ok L n b -> content_eqb a b = true ->
  (forall ks, node a ks = node b ks) /\ nan_free a.
Proof.
  induction n as [|n IH]; intros a b Ha Hb E; destruct a as [|d|l], b as [|e|m]; try contradiction; cbn [content_ok content_eqb] in *.
  - assert (E' := E). apply nums_eqb_eq in E'. subst. split; [intros ks; reflexivity|].
    intros [|k ks] d Hd; [|discriminate]. injection Hd as <-. clear - E. induction e as [|x e IH]; auto. cbn [nums_eqb] in E.
    apply andb_prop in E. destruct E as (E1 & E2). constructor; auto. destruct x; auto; discriminate.
  - destruct Ha as (Fl & Nl & Kl), Hb as (Fm & Nm & Km). apply andb_prop in E. destruct E as (E & E3). apply andb_prop in E. destruct E as (E1 & E2).
    rewrite forallb_forall in E2. apply eq_items_iff in E3. rewrite Forall_forall in *.
    assert (K : forall k x, assoc k l = Some x -> exists y, assoc k m = Some y /\ (forall ks, node x ks = node y ks) /\ nan_free x).
    { intros k x Ex. destruct (E3 _ (assoc_in _ _ _ Ex)) as (y & Ey & Hy). cbn [fst snd] in *. exists y. split; auto.
      apply (IH x y); auto; [apply (Fl (k, x)); apply assoc_in; auto|apply (Fm (k, y)); apply assoc_in; auto]. }
    split.
    + intros [|k ks]; [reflexivity|]. cbn [node]. destruct (assoc k l) as [x|] eqn:Ex.
      * destruct (K k x Ex) as (y & -> & H & _). auto.
      * destruct (assoc k m) as [y|] eqn:Ey; auto. assert (H := E2 _ (assoc_in _ _ _ Ey)). cbn [fst] in H. unfold has_key in H. rewrite Ex in H. discriminate.
    + intros [|k ks] d Hd; [discriminate|]. cbn [block] in Hd. destruct (assoc k l) as [x|] eqn:Ex; [|discriminate].
      destruct (K k x Ex) as (y & _ & _ & H). eapply H; eauto.
Qed.
Lemma content_eqb_iff L n a b : hist_ok L n a -> hist_ok L n b ->
  (content_eqb a b = true <-> (forall ks, node a ks = node b ks) /\ nan_free a).
Proof.
  intros [->|Ha] [->|Hb].
  - cbn [content_eqb]. split; auto. intros _. split; auto. intros ks d H. rewrite block_none in H. discriminate.
  - split; [destruct b; try discriminate; destruct n; contradiction|]. intros (S & _). specialize (S []). destruct b; try discriminate. destruct n; contradiction.
  - split; [destruct a; try discriminate; destruct n; contradiction|]. intros (S & _). specialize (S []). destruct a; try discriminate. destruct n; contradiction.
  - split; [apply (content_eqb_sound L n); auto|intros (S & F); apply (content_eqb_complete L n); auto].
Qed.
