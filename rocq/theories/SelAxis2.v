(** What the axes answer to a selection: all numeric axes together, and selections at an edge succeed. *)
From Coq Require Import String Sorted.
From Verif Require Import Base Num NumFacts Axis AxisSpec AxisProofs AxisProofs2 AxisMain Calc Content Fill FillSpec Tree Order Expr HistAlg AlgSpec Nd Proj HistFillProofs Select SelSpec SelAxis.
Local Open Scope list_scope.

Lemma numeric_bin e n l h u o nf cl : numeric_axis (ABin e n l h u o nf cl) -> exists l' h', l = Fin l' /\ h = Fin h' /\ 0 < n /\ (this l' < this h')%Q.
Proof.
  intros (Hn & Hm & Hl & Hh). destruct l as [l| | |]; try discriminate. destruct h as [h| | |]; try discriminate. exists l, h.
  split; auto. split; auto. split; auto. eapply mk_bin_lt; eauto.
Qed.
Lemma numeric_split e es u o nf cl : numeric_axis (ASplit e es u o nf cl) -> strictly_sorted es /\ es <> [] /\ nonan es.
Proof. intros (raw & Hn & Hm). eapply mk_split_edges; eauto. Qed.
Lemma numeric_intbin e mn mx u o : numeric_axis (AIntbin e mn mx u o) -> (mn <= mx)%Z.
Proof. intros H. cbn in H. unfold mk_intbin in H. destruct (Z.ltb_spec mx mn); [discriminate|auto]. Qed.

Definition unbounded (c : scmp) (x : Num) : Prop := (x = NInf /\ c = SGe) \/ (x = PInf /\ c = SLe).
Lemma axis_select_ok a c v x tol a' s : numeric_axis a -> small_for a tol -> as_real v = Some x -> x <> NaN ->
  axis_select a c v tol = Ok (Selected a' s) ->
  exists e t, s = CutSlice t /\ stands_for a tol x e /\ (aligned a c \/ unbounded c x) /\ totbins a' <> 0 /\ axis_expr a' = axis_expr a /\
    is_fixed a' = true /\ a' <> ANull /\ keeps_inside (fun z => satisfies c e z = true) (keys a) t (keys a').
Proof.
  intros Ha Ht Hv Hx H. destruct a; cbn in Ha; try contradiction; cbn [axis_select] in H.
  - destruct (numeric_bin _ _ _ _ _ _ _ _ Ha) as (l & h & -> & -> & Hn & Hlh). exact (bin_select_ok _ _ _ _ _ _ _ _ _ _ _ _ _ _ Hn Hlh Hv Hx H).
  - apply (numeric_intbin e mn mx underflow overflow) in Ha. exact (intbin_select_ok _ _ _ _ _ _ _ _ _ _ _ Ha Ht Hv Hx H).
  - destruct (numeric_split _ _ _ _ _ _ Ha) as (H1 & H2 & H3). exact (split_select_ok _ _ _ _ _ _ _ _ _ _ _ _ H1 H3 H2 Hv Hx H).
Qed.

(** [x != nan]: everything but NaN. *)
Lemma axis_select_nan a tol a' s : numeric_axis a -> axis_select a SNe (KS (SNum NaN)) tol = Ok (Selected a' s) ->
  exists t, s = CutSlice t /\ totbins a' <> 0 /\ axis_expr a' = axis_expr a /\ is_fixed a' = true /\ a' <> ANull /\ keeps_inside (fun z => z <> NaN) (keys a) t (keys a').
Proof.
  intros Ha H. destruct a; cbn in Ha; try contradiction; cbn [axis_select] in H.
  - destruct (numeric_bin _ _ _ _ _ _ _ _ Ha) as (l & h & -> & -> & Hn & Hlh). unfold bin_select in H. cbn [as_real is_ninf is_pinf isnan andb scmp_is] in H.
    apply checked_ok in H. destruct H as (H & Ht). inversion H; subst. eexists. split; [reflexivity|]. do 3 (split; auto). split; [discriminate|]. cbn [keys].
    rewrite !keys_bin_as_split by auto. pose proof (edges_all (bin_edges numbins l h) underflow overflow nanflow closedlow (bin_edges_sorted _ _ _ Hn Hlh) (bin_edges_nonan _ _ _ Hn) ltac:(discriminate)) as G.
    rewrite bin_edges_length in G. replace (Z.of_nat (S numbins) - 1)%Z with (Z.of_nat numbins) in G by lia. exact G.
  - cbn in H. unfold intbin_select in H. cbn in H. discriminate.
  - destruct (numeric_split _ _ _ _ _ _ Ha) as (H1 & H2 & H3). unfold split_select in H. cbn [as_real is_ninf is_pinf isnan andb scmp_is] in H.
    apply checked_ok in H. destruct H as (H & Ht). inversion H; subst. eexists. split; [reflexivity|]. do 3 (split; auto). split; [discriminate|]. cbn [keys].
    apply edges_all; auto.
Qed.

(** ** Selections at an edge succeed *)
Lemma qround_qz z : qround (qz z) = z.
Proof.
  unfold qround. rewrite qfloor_qz. replace (qz z - qz z)%Qc with qc0 by (apply Qc_ext; qc_push; ring). reflexivity.
Qed.
Lemma absdiff_self q : absdiff (Fin q) (Fin q) = nzero.
Proof.
  unfold absdiff. change (nsub (Fin q) (Fin q)) with (Fin (q - q)%Qc). replace (q - q)%Qc with qc0 by (apply Qc_ext; qc_push; ring). reflexivity.
Qed.
Lemma absdiff_zero q y : absdiff (Fin q) y = nzero -> y = Fin q.
Proof.
  destruct y as [y| | |]; try discriminate. unfold absdiff. change (nsub (Fin q) (Fin y)) with (Fin (q - y)%Qc). change (nsub (Fin y) (Fin q)) with (Fin (y - q)%Qc).
  assert (I : forall a b, Fin a = Fin b -> a = b) by congruence.
  destruct (nltb _ _); intros H; apply I in H; f_equal; apply Qc_ext; apply Qc_ext_iff in H; revert H; qc_push; intros H; lra.
Qed.
Lemma absdiff_nonneg q y : y <> NaN -> nltb (absdiff (Fin q) y) nzero = false.
Proof.
  intros Hy. destruct y as [y| | |]; try congruence; try reflexivity. unfold absdiff. change (nsub (Fin q) (Fin y)) with (Fin (q - y)%Qc). change (nsub (Fin y) (Fin q)) with (Fin (y - q)%Qc).
  destruct (nltb (Fin (q - y)) nzero) eqn:E; auto. cbn [nltb nzero] in *. apply qltb_iff in E. apply qltb_false. revert E. qc_push. lra.
Qed.
(** The distance [nearest] gives is zero if some edge is the value itself. *)
Lemma nearest_zero q ys : nonan ys -> forall i best, (fst (fst best) = nzero \/ (In (Fin q) ys /\ nltb nzero (fst (fst best)) = true)) ->
  fst (fst (nearest (Fin q) i ys best)) = nzero.
Proof.
  induction ys as [|y ys IH]; intros Hn i [[bd bx] bi] H; cbn [nearest].
  - destruct H as [H|([] & _)]; auto.
  - cbn [fst] in H. apply IH; [intros z Hz; apply Hn; right; auto|]. assert (Hy : y <> NaN) by (apply Hn; left; auto).
    destruct H as [->|(Hi & Hb)].
    + left. rewrite absdiff_nonneg by auto. destruct (neqb (absdiff (Fin q) y) nzero) eqn:E; cbn [orb andb]; auto.
      apply neqb_eq in E. destruct (nltb y bx); auto.
    + destruct Hi as [->|Hi].
      * left. rewrite absdiff_self, Hb. reflexivity.
      * destruct (nltb (absdiff (Fin q) y) bd || neqb (absdiff (Fin q) y) bd && nltb y bx); cbn [fst]; [|auto].
        destruct (nltb nzero (absdiff (Fin q) y)) eqn:E; auto. left.
        pose proof (absdiff_nonneg q y Hy) as E'. destruct (absdiff (Fin q) y) as [d| | |] eqn:Ed; try discriminate.
        -- cbn in E, E'. apply qltb_false in E. apply qltb_false in E'. unfold nzero. f_equal. apply Qc_ext. revert E E'. qc_push. intros; lra.
        -- exfalso. clear - Ed Hy. unfold absdiff in Ed. destruct y as [y| | |]; try congruence; cbn in Ed; try discriminate. destruct (qltb _ _) in Ed; discriminate.
Qed.
Lemma sorted_nth es : strictly_sorted es -> nonan es -> forall i j e, nth_error es i = Some e -> nth_error es j = Some e -> i = j.
Proof.
  induction 1 as [|x l Hl IH Hf]; intros Hn i j e Hi Hj; [destruct i; discriminate|]. rewrite Forall_forall in Hf.
  destruct i as [|i], j as [|j]; cbn in Hi, Hj; auto.
  - inversion Hi; subst. apply nth_error_In in Hj. specialize (Hf _ Hj). rewrite nltb_irrefl in Hf. discriminate.
  - inversion Hj; subst. apply nth_error_In in Hi. specialize (Hf _ Hi). rewrite nltb_irrefl in Hf. discriminate.
  - f_equal. eapply IH; eauto. intros z Hz. apply Hn. right; auto.
Qed.
Lemma checked_selected a s : length (keys a) = totbins a -> keys a <> [] -> checked a s = Ok (Selected a (CutSlice s)).
Proof. intros H H'. unfold checked. destruct (Nat.eqb_spec (totbins a) 0) as [E|E]; auto. exfalso. apply H'. apply length_zero_iff_nil. congruence. Qed.
Lemma inside_nonempty P ks s ks' : keeps_inside P ks s ks' -> (exists k x, In k ks /\ contains k x /\ P x) -> ks' <> [].
Proof.
  intros (-> & H) (k & x & Hk & Hx & HP). apply In_nth_error in Hk. destruct Hk as (i & Hi). apply (H i k x Hi Hx) in HP.
  assert (Hl : i < length ks) by (apply nth_error_Some; congruence). unfold in_slice in HP. intros E. apply (f_equal (@length _)) in E.
  unfold slice_list, slice_len in E. rewrite firstn_length, skipn_length in E. cbn in E. assert (slice_hi s (length ks) <= length ks); [|lia].
  unfold slice_hi. destruct s as [? [z|]]; auto. unfold clip. lia.
Qed.
Lemma aligned_cmp cl c : (match c with SLt | SGe => cl = true | SLe | SGt => cl = false | _ => False end) -> lower_cmp cl c = true \/ (lower_cmp cl c = false /\ upper_cmp cl c = true).
Proof. destruct c, cl; intros H; try contradiction; try discriminate; unfold lower_cmp, upper_cmp; cbn; auto. Qed.

Lemma axis_select_edge a c q tol : numeric_axis a -> nltb nzero tol = true -> is_edge a (Fin q) -> aligned a c -> leaves_bins a c (Fin q) ->
  exists a' t, axis_select a c (KS (SNum (Fin q))) tol = Ok (Selected a' (CutSlice t)).
Proof.
  intros Ha Ht He Hc Hl. destruct a; cbn in Ha; try contradiction; cbn [axis_select].
  - destruct (numeric_bin _ _ _ _ _ _ _ _ Ha) as (l & h & -> & -> & Hn & Hlh). destruct He as (j & Hj & He). rewrite i2x_edge in He by auto. injection He as ->.
    unfold bin_select. cbn [as_real is_ninf is_pinf isnan andb].
    assert (Hd : qeqb (h - l) qc0 = false). { apply qeqb_false. intros E. apply Qc_ext_iff in E. revert E. qc_push. lra. }
    change (nsub (Fin h) (Fin l)) with (Fin (h - l)%Qc). replace (neqb (Fin (h - l)) nzero) with false by (cbn; auto).
    assert (Es : ndiv (nnat numbins) (Fin (h - l)) = Fin (qz (Z.of_nat numbins) / (h - l))%Qc) by (unfold nnat, nz, ndiv; rewrite Hd; reflexivity).
    assert (Et : nmul (nsub (Fin (edge numbins l h j)) (Fin l)) (Fin (qz (Z.of_nat numbins) / (h - l))%Qc) = Fin (qz (Z.of_nat j))).
    { change (nsub (Fin (edge numbins l h j)) (Fin l)) with (Fin (edge numbins l h j - l)%Qc). cbn [nmul]. f_equal. apply Qc_ext. unfold edge. pose proof (qn_pos numbins Hn). qc_push. field. split; intros ?; lra. }
    rewrite Es, Et. cbn [nround bind]. rewrite qround_qz.
    replace (neqb (Fin (qz (Z.of_nat numbins) / (h - l))) nzero) with false.
    2:{ symmetry. cbn. apply qeqb_false. intros E. pose proof (scale_pos numbins l h Hn Hlh) as Sp. rewrite E in Sp. cbn in Sp. lra. }
    replace (Z.min (Z.of_nat numbins) (Z.max 0 (Z.of_nat j))) with (Z.of_nat j) by lia.
    rewrite <- Es. change (Fin (h - l)) with (nsub (Fin h) (Fin l)). rewrite (edge_scale numbins l h Hn Hlh), absdiff_self, Ht.
    replace ((Z.of_nat j <? 0)%Z || (Z.of_nat numbins <? Z.of_nat j)%Z) with false by (destruct (Z.ltb_spec (Z.of_nat j) 0), (Z.ltb_spec (Z.of_nat numbins) (Z.of_nat j)); auto; lia).
    fold (lower_cmp closedlow c). fold (upper_cmp closedlow c). rewrite Nat2Z.id.
    assert (Hs := bin_edges_sorted numbins l h Hn Hlh). assert (Hnn := bin_edges_nonan numbins l h Hn). assert (Nth := bin_edges_nth numbins l h Hn j Hj).
    cbn [leaves_bins keys] in Hl. rewrite keys_bin_as_split in Hl by auto.
    destruct (aligned_cmp closedlow c ltac:(destruct c; exact Hc)) as [El|(El & Eu)]; rewrite El; [|rewrite Eu].
    + do 2 eexists. apply checked_selected; [apply keys_length_totbins; [reflexivity|discriminate]|]. cbn [keys]. rewrite keys_lower_bin by auto.
      eapply inside_nonempty; [eapply edges_lower; eauto|]. destruct Hl as (k & x & ? & ? & ?). eauto.
    + do 2 eexists. apply checked_selected; [apply keys_length_totbins; [reflexivity|discriminate]|]. cbn [keys]. rewrite keys_upper_bin by auto.
      eapply inside_nonempty; [eapply edges_upper; eauto|]. destruct Hl as (k & x & ? & ? & ?). eauto.
  - apply (numeric_intbin e mn mx underflow overflow) in Ha. destruct He as (z & Hz & He). injection He as ->. unfold intbin_select. cbn [as_real is_ninf is_pinf andb orb].
    assert (E1 : nltb (nadd (nz z) tol) (nz mn) = false).
    { destruct tol as [t| | |]; try discriminate; try reflexivity. unfold nz, nadd. cbn [nltb nzero] in *. apply qltb_iff in Ht. apply qltb_false. revert Ht. qc_push. intros Ht.
      assert (inject_Z mn <= inject_Z z)%Q by (rewrite <- Zle_Qle; lia). lra. }
    assert (E2 : nltb (nz mx) (nsub (nz z) tol) = false).
    { destruct tol as [t| | |]; try discriminate; try reflexivity. change (nsub (nz z) (Fin t)) with (Fin (qz z - t)%Qc). unfold nz. cbn [nltb nzero] in *. apply qltb_iff in Ht. apply qltb_false. revert Ht. qc_push. intros Ht.
      assert (inject_Z z <= inject_Z mx)%Q by (rewrite <- Zle_Qle; lia). lra. }
    change (Fin (qz z)) with (nz z). rewrite E1, E2. unfold nz at 1. cbn [nround bind]. rewrite qround_qz. unfold nz at 1 2. rewrite absdiff_self, Ht.
    destruct Hl as (y & Hy & Hl). change (Fin (qz z)) with (nz z) in Hl. unfold int_checked.
    destruct c; cbn in Hc; try contradiction; cbn [satisfies] in Hl; rewrite ?nz_lt, ?nz_le in Hl; try apply Z.ltb_lt in Hl; try apply Z.leb_le in Hl;
      match goal with |- context [(?a <? ?b)%Z] => destruct (Z.ltb_spec a b); [lia|] end; eauto.
  - destruct (numeric_split _ _ _ _ _ _ Ha) as (H1 & H2 & H3). cbn in He. unfold split_select. cbn [as_real is_ninf is_pinf isnan andb].
    destruct edges as [|y0 ys] eqn:Ees; [congruence|]. rewrite <- Ees in *.
    destruct (nearest (Fin q) 1 ys (absdiff (Fin q) y0, y0, 0)) as [[d y] j] eqn:En.
    assert (Hd : d = nzero).
    { change d with (fst (fst (d, y, j))). rewrite <- En. apply nearest_zero; [intros z Hz; apply H3; rewrite Ees; right; auto|]. cbn [fst].
      assert (Hy : y0 <> NaN) by (apply H3; rewrite Ees; left; auto). rewrite Ees in He. destruct He as [->|He]; [left; apply absdiff_self|].
      right. split; auto. rewrite Ees in H1. inversion H1 as [|? ? Hss Hf]; subst. rewrite Forall_forall in Hf. specialize (Hf _ He).
      destruct y0 as [y0| | |]; try congruence; try reflexivity; try discriminate. unfold absdiff. change (nsub (Fin q) (Fin y0)) with (Fin (q - y0)%Qc). cbn [nltb nzero] in *.
      apply qltb_iff in Hf. replace (qltb (q - y0) qc0) with false; [|symmetry; apply qltb_false; revert Hf; qc_push; lra]. cbn [nltb]. apply qltb_iff. revert Hf. qc_push. lra. }
    assert (Nth : nth_error edges j = Some y /\ d = absdiff (Fin q) y).
    { apply nearest_ok in En. destruct En as [E|(k & E1 & -> & E3)]; [inversion E; subst; auto|]. rewrite Ees. split; auto. }
    destruct Nth as (Nth & Ed). rewrite Hd in Ed. symmetry in Ed. apply absdiff_zero in Ed. subst y. rewrite Hd, Ht.
    fold (lower_cmp closedlow c). fold (upper_cmp closedlow c).
    destruct (aligned_cmp closedlow c ltac:(destruct c; exact Hc)) as [El|(El & Eu)]; rewrite El; [|rewrite Eu].
    + do 2 eexists. apply checked_selected; [apply keys_length_totbins; [reflexivity|discriminate]|]. cbn [keys].
      eapply inside_nonempty; [eapply edges_lower; eauto|]. destruct Hl as (k & x & ? & ? & ?). eauto.
    + do 2 eexists. apply checked_selected; [apply keys_length_totbins; [reflexivity|discriminate]|]. cbn [keys].
      eapply inside_nonempty; [eapply edges_upper; eauto|]. destruct Hl as (k & x & ? & ? & ?). eauto.
Qed.
