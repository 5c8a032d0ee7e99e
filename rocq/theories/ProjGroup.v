(** Projecting out one group axis of any number of keys: the numbers are right, and the shape is right
    exactly when the number of keys is a power of two. *)
From Coq Require Import String Permutation.
From Verif Require Import Base Num NumFacts Axis Calc Content Fill FillSpec FillProofs FillProofs2 FillProofs3 FillMain
  HistAlg AlgSpec HistAlgProofs HistAlgMain Nd NdProofs Proj ProjSpec ProjProofs ProjMain ProjMain2 ProjFill ProjLaws.
Local Open Scope list_scope.

Lemma bshape_lead_l a : bshape_rev (a ++ [1]) a = Some (a ++ [1]).
Proof. induction a as [|x a IH]; cbn [app bshape_rev]; auto. rewrite IH, Nat.eqb_refl. reflexivity. Qed.
Lemma bshape_lead_r a : bshape_rev a (a ++ [1]) = Some (a ++ [1]).
Proof. induction a as [|x a IH]; cbn [app bshape_rev]; auto. rewrite IH, Nat.eqb_refl. reflexivity. Qed.
Lemma bindex_rev_more s : forall i t, length i = length s -> bindex_rev s (i ++ t) = bindex_rev s i.
Proof. induction s as [|x s IH]; intros [|j i] t H; cbn [length] in H; try lia; cbn [app bindex_rev]; auto. f_equal. apply IH. lia. Qed.
Lemma bindex_lead s i : Forall2 lt i s -> bindex s (0 :: i) = i.
Proof.
  intros H. unfold bindex. cbn [rev]. rewrite bindex_rev_more by (rewrite !rev_length; eapply Forall2_length; eauto).
  fold (bindex s i). apply bindex_same. auto.
Qed.
Lemma anew_lead s f : anew (1 :: s) f = anew s (fun i => f (0 :: i)).
Proof. unfold anew. cbn [indices seq flat_map]. rewrite app_nil_r, map_map. reflexivity. Qed.
Lemma aget_lead s d i : aget (1 :: s) d (0 :: i) = aget s d i.
Proof. unfold aget. cbn [ravel]. reflexivity. Qed.
Lemma lt_lead i s : Forall2 lt i s -> Forall2 lt (0 :: i) (1 :: s).
Proof. constructor; auto. Qed.

(** A shape, possibly with one more dimension of size 1 in front. *)
Definition lead (b : bool) (s : list nat) : list nat := if b then 1 :: s else s.
Lemma badd_lead b b' s d e : length d = prod s -> length e = prod s ->
  badd (lead b s) d (lead b' s) e = Ok (lead (b || b') s, map2 nadd d e).
Proof.
  intros Hd He. destruct b, b'; cbn [lead orb].
  - apply badd_same; cbn [prod fold_right]; fold (prod s); lia.
  - unfold badd. cbn [rev]. rewrite bshape_lead_l, rev_app_distr, rev_involutive. cbn [rev app]. do 2 f_equal.
    rewrite anew_lead. apply (array_ext s); [apply anew_length|rewrite map2_length; congruence|].
    intros i Hi. rewrite aget_anew by auto. rewrite (bindex_lead s i), (bindex_same (1 :: s)), aget_lead by auto using lt_lead. symmetry. apply aget_map2; auto.
  - unfold badd. cbn [rev]. rewrite bshape_lead_r, rev_app_distr, rev_involutive. cbn [rev app]. do 2 f_equal.
    rewrite anew_lead. apply (array_ext s); [apply anew_length|rewrite map2_length; congruence|].
    intros i Hi. rewrite aget_anew by auto. rewrite (bindex_lead s i), (bindex_same (1 :: s)), aget_lead by auto using lt_lead. symmetry. apply aget_map2; auto.
  - apply badd_same; auto.
Qed.

Definition pow2 (n : nat) : Prop := exists k, n = 2 ^ k.
Lemma pow2_half n : pow2 n -> 2 <= n -> exists h, n = h + h /\ pow2 h.
Proof. intros (k & ->) H. destruct k; cbn [Nat.pow] in *; [lia|]. exists (2 ^ k). split; [lia|exists k; auto]. Qed.
Lemma pow2_double h : pow2 h -> pow2 (h + h).
Proof. intros (k & ->). exists (S k). cbn. lia. Qed.
Lemma pow2_consecutive h : 2 <= h -> pow2 h -> pow2 (S h) -> False.
Proof. intros H (a & Ea) (b & Eb). destruct a, b; cbn [Nat.pow] in *; lia. Qed.

Definition sums_to (sh : list nat) (arrs : list (list Num)) (d : list Num) : Prop :=
  length d = prod sh /\ forall i, nth i d nzero = nsum (map (fun a => nth i a nzero) arrs).
Lemma sums_to_app sh a b d e : sums_to sh a d -> sums_to sh b e -> sums_to sh (a ++ b) (map2 nadd d e).
Proof.
  intros (H1 & H2) (H3 & H4). split; [rewrite map2_length; congruence|]. intros i. rewrite nth_map2 by congruence. rewrite H2, H4, nsum_app2. reflexivity.
Qed.
Lemma sums_to_one sh a : length a = prod sh -> sums_to sh [a] a.
Proof. intros H. split; auto. intros i. cbn [map]. rewrite nsum_cons. cbn [nsum fold_right]. rewrite nadd_0_r. reflexivity. Qed.

Lemma addall_arrays sh : forall n f arrs, length arrs = n -> 2 <= n -> n <= f -> Forall (fun a => length a = prod sh) arrs ->
  exists b d, addall_fuel f (map (PArr sh) arrs) = Ok (PArr (lead b sh) d) /\ sums_to sh arrs d /\ (b = false <-> pow2 n).
Proof.
  intros n. induction n as [n IH] using (well_founded_induction lt_wf). intros f arrs Hn H2 Hf Ho.
  destruct f as [|f]; [lia|].
  destruct arrs as [|a0 [|a1 [|a2 rest]]] eqn:Ea; cbn [length] in Hn; try lia.
  - inversion Ho as [|? ? Ha Ho']; subst. inversion Ho' as [|? ? Hb _]; subst. exists false, (map2 nadd a0 a1).
    cbn [map addall_fuel addany py_add as_array bind fst snd]. rewrite badd_same by auto. cbn [parr rmap bind fst snd]. split; auto. split.
    + apply (sums_to_app sh [a0] [a1]); auto using sums_to_one.
    + split; auto. intros _. exists 1. reflexivity.
  - rewrite <- Ea in *. assert (Hn' : length arrs = n) by (rewrite Ea; cbn; lia). assert (H3 : 3 <= n) by lia. clear Hn.
    assert (Em : addall_fuel (S f) (map (PArr sh) arrs) =
      (do l <- addall_fuel f (firstn (length (map (PArr sh) arrs) / 2) (map (PArr sh) arrs));
       do r <- addall_fuel f (skipn (length (map (PArr sh) arrs) / 2) (map (PArr sh) arrs)); addany l r)) by (rewrite Ea; reflexivity).
    rewrite Em. clear Em. rewrite map_length, Hn', firstn_map, skipn_map.
    pose proof (Nat.div_mod n 2 ltac:(lia)) as Hdm. pose proof (Nat.mod_upper_bound n 2 ltac:(lia)) as Hmod.
    set (h := n / 2) in *. set (r := n mod 2) in *. clearbody h r.
    assert (Hsk : length (skipn h arrs) = n - h) by (rewrite skipn_length; lia).
    assert (Hfi : length (firstn h arrs) = h) by (rewrite firstn_length; lia).
    assert (O1 : Forall (fun a => length a = prod sh) (firstn h arrs)).
    { apply Forall_forall; intros x Hx; rewrite Forall_forall in Ho; apply Ho; rewrite <- (firstn_skipn h); apply in_or_app; auto. }
    assert (O2 : Forall (fun a => length a = prod sh) (skipn h arrs)).
    { apply Forall_forall; intros x Hx; rewrite Forall_forall in Ho; apply Ho; rewrite <- (firstn_skipn h); apply in_or_app; auto. }
    destruct (IH (n - h) ltac:(lia) f (skipn h arrs) Hsk ltac:(lia) ltac:(lia) O2) as (b2 & d2 & E2 & S2 & P2).
    assert (Earr : arrs = firstn h arrs ++ skipn h arrs) by (symmetry; apply firstn_skipn).
    destruct (Nat.eq_dec h 1) as [->|Hh].
    + destruct (firstn 1 arrs) as [|a [|? ?]] eqn:E1; cbn [length] in Hfi; try lia. inversion O1 as [|? ? La _]; subst.
      destruct f as [|f]; [lia|]. cbn [map]. change (addall_fuel (S f) [PArr sh a]) with (Ok (PList [PArr sh a])).
      cbn [bind]. rewrite E2. cbn [bind addany py_add as_array stack fst snd]. change (1 :: sh) with (lead true sh).
      rewrite badd_lead; [|auto|apply S2]. cbn [parr rmap bind fst snd orb]. exists true, (map2 nadd a d2). split; auto. split.
      * rewrite Earr. apply (sums_to_app sh [a]); auto using sums_to_one.
      * split; [discriminate|]. intros Hp. apply pow2_half in Hp; [|lia]. destruct Hp as (q & Hq & _). lia.
    + destruct (IH h ltac:(lia) f (firstn h arrs) Hfi ltac:(lia) ltac:(lia) O1) as (b1 & d1 & E1 & S1 & P1).
      rewrite E1. cbn [bind]. rewrite E2. cbn [bind].
      assert (Eadd : addany (PArr (lead b1 sh) d1) (PArr (lead b2 sh) d2) = Ok (PArr (lead (b1 || b2) sh) (map2 nadd d1 d2))).
      { cbn [addany py_add as_array bind fst snd]. rewrite badd_lead; [reflexivity|apply S1|apply S2]. }
      rewrite Eadd. exists (b1 || b2), (map2 nadd d1 d2). split; auto. split; [rewrite Earr; apply sums_to_app; auto|].
      rewrite orb_false_iff, P1, P2. split.
      * intros (Q1 & Q2). destruct (Nat.eq_dec r 0) as [Hr|Hr].
        -- replace n with (h + h) by lia. apply pow2_double; auto.
        -- exfalso. apply (pow2_consecutive h); auto; [lia|]. replace (S h) with (n - h) by lia. auto.
      * intros Hp. apply pow2_half in Hp; [|lia]. destruct Hp as (q & Hq & Hp). assert (h = q) by lia. subst q.
        replace (n - h) with h by lia. auto.
Qed.

(** A histogram with one group axis that is projected out. *)
Lemma project_one_group h a l axes : hobj_ok h -> o_group h = [a] -> o_content h = CDict l -> 2 <= length l ->
  all_in axes (o_fixed h) = true -> axis_in a axes = false ->
  let L' := layout_keep (keep_of axes (o_fixed h)) (o_layout h) in
  exists b d, project (view h) axes = Ok (PH (proj_head h axes CNone) (PArr (lead b (l_shape L')) d)) /\
    (b = false <-> pow2 (length l)) /\ length d = l_size L' /\
    forall ss kd, in_shape L' ss -> has_column L' kd ->
      nth (ravel (l_tots L') ss * l_last L' + column_of L' kd) d nzero =
      nsum (map (fun kv => nsum (map (fun ss' => hcell h [fst kv] ss' kd) (slots_over (keep_of axes (o_fixed h)) (l_tots (o_layout h)) ss))) l).
Proof.
  intros Hok Hg Hc Hl Ha Hna L'. pose proof (keep_length axes h) as Hf.
  destruct (Hok) as (_ & _ & _ & [Hc'|Hc']); [congruence|]. rewrite Hg, Hc in Hc'. cbn [length content_ok] in Hc'. destruct Hc' as (Fl & Nl & Kl).
  assert (D : exists ds, map snd l = map CArr ds).
  { clear - Fl. induction Fl as [|[k x] l Hx Hl (ds & E)]; [exists []; auto|]. destruct x as [|d|]; try contradiction. exists (d :: ds). cbn. congruence. }
  destruct D as (ds & Ds).
  set (k := keep_of axes (o_fixed h)) in *.
  assert (P : proj_items (projarray k) (map (fun kv => (fst kv, embed (o_layout h) (snd kv))) l) =
     Ok (combine (map fst l) (map (fun d => PArr (l_shape L') (proj_data k (o_layout h) d)) ds))).
  { clear - Ds Hf. revert ds Ds. induction l as [|[q x] l IH]; intros [|d ds] E; cbn [map] in E; try discriminate; auto.
    cbn [snd] in E. inversion E; subst. cbn [map proj_items fst snd embed combine]. rewrite projarray_embed by auto. cbn [bind].
    fold (proj_items (projarray k)). rewrite (IH ds) by auto. reflexivity. }
  assert (Hlen : length l = length ds) by (rewrite <- (map_length snd l), Ds, map_length; auto).
  destruct (addall_arrays (l_shape L') (length ds) (length ds) (map (proj_data k (o_layout h)) ds)) as (b & d & E & (Sd & Sv) & Pb);
    [apply map_length|lia|lia|apply Forall_map; apply Forall_forall; intros x _; rewrite prod_shape; apply proj_data_length; auto|].
  exists b, d. split; [|split; [rewrite Hlen; auto|split; [rewrite <- prod_shape; auto|]]].
  - unfold project, view; cbn [p_head p_content o_group o_fixed o_prof with_content].
    assert (Ha' : all_in axes (o_group h ++ o_fixed h) = true).
    { unfold all_in in *. rewrite forallb_forall in *. intros x Hx. specialize (Ha x Hx). unfold axis_in in *. rewrite existsb_app, Ha. apply orb_true_r. }
    rewrite Ha'. cbn [negb]. change (rebuild (with_content h CNone)) with (rebuild h). rewrite (rebuild_proj h axes Hok).
    rewrite Hg, Hc, embed_dict. cbn [map]. rewrite Hna. cbn [projcontent]. fold (keep_of axes (o_fixed h)). fold k.
    change (fun c : pv => projarray k c) with (projarray k). rewrite P. cbn [bind].
    replace (map snd (combine (map fst l) (map (fun d0 => PArr (l_shape L') (proj_data k (o_layout h) d0)) ds)))
      with (map (PArr (l_shape L')) (map (proj_data k (o_layout h)) ds)).
    + unfold addall. rewrite !map_length. rewrite E. reflexivity.
    + rewrite map_map. symmetry. clear - Hlen. revert ds Hlen. induction l as [|[q x] l IH]; intros [|d ds] H; cbn [length] in H; try lia; auto.
      cbn [map combine snd]. f_equal. apply IH. lia.
  - intros ss kd Hs Hk. rewrite Sv, map_map.
    assert (Hj : column_of L' kd < l_last (o_layout h)) by (pose proof (column_lt L' kd Hk); exact H).
    assert (Hcell : forall kv d', In kv l -> snd kv = CArr d' -> nth (ravel (l_tots L') ss * l_last L' + column_of L' kd) (proj_data k (o_layout h) d') nzero
       = nsum (map (fun ss' => hcell h [fst kv] ss' kd) (slots_over k (l_tots (o_layout h)) ss))).
    { intros kv d' Hin Hd. unfold L' in *. rewrite proj_data_cell by auto. f_equal. apply map_ext. intros ss'. unfold hcell, cell. rewrite Hc. cbn [block].
      rewrite (assoc_of_in (fst kv) (snd kv) l); auto.
      - rewrite Hd. cbn [block]. rewrite column_keep. reflexivity.
      - rewrite Forall_forall in Kl. apply Kl. apply in_map; auto.
      - destruct kv; auto. }
    clear - Hcell Ds. revert ds Ds Hcell. induction l as [|kv l IH]; intros [|d ds] E Hcell; cbn [map] in E; try discriminate; auto.
    inversion E. cbn [map]. rewrite !nsum_cons. f_equal; [apply Hcell; [left|]; auto|]. apply IH; auto. intros. apply Hcell; [right|]; auto.
Qed.
