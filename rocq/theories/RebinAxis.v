(** Which old bins a new bin is made of. *)
From Coq Require Import String Sorted.
From Verif Require Import Base Num NumFacts Axis AxisSpec AxisProofs AxisProofs2 AxisMain Calc Content Fill FillSpec Expr HistAlg AlgSpec Nd Proj HistFillProofs Select SelSpec SelAxis SelAxis2 Rebin RebinSpec.
Local Open Scope list_scope.

Lemma key_iff es u o nf cl i x : strictly_sorted es -> nonan es -> es <> [] ->
  ((exists k, nth_error (keys_split es u o nf cl) i = Some k /\ contains k x) <->
   (x = NaN /\ nf = true /\ i = length es - 1 + b2n u + b2n o) \/
   (x <> NaN /\ i < length es - 1 + b2n u + b2n o /\ i + 1 = b2n u + cnt cl x es)).
Proof.
  intros Hs Hn Hne. assert (0 < length es) as Hl by (destruct es; cbn; [congruence|lia]). split.
  - intros (k & Hk & Hc). pose proof (keys_split_length es u o nf cl Hne) as El.
    assert (i < length (keys_split es u o nf cl)) as Hi by (apply nth_error_Some; congruence). rewrite El in Hi.
    destruct (key_place es Hs Hn u o nf cl i k x Hne Hk Hc) as [(-> & H)|(H1 & H2 & H3)]; [left|right; auto].
    destruct nf; cbn [b2n] in Hi; [|lia]. split; [auto|split; [auto|lia]].
  - rewrite keys_split_fkeys. intros H. assert (P := proj2 (split_pos_holds es Hs Hne Hn cl x _) eq_refl). revert P. unfold split_pos.
    pose proof (cnt_le cl x es) as Hc. pose proof (split_fins_length es cl) as Hf. destruct H as [(-> & -> & ->)|(Hx & Hi & E)].
    + intros _. exists KNaN. split; [|reflexivity]. pose proof (fkeys_nan u o (split_under es cl) (split_fins es cl) (split_over es cl)) as G.
      rewrite Hf in G. rewrite <- G. f_equal. lia.
    + assert (isnan x = false) as -> by (destruct x; auto; congruence). destruct (Nat.eqb_spec (cnt cl x es) 0) as [E0|E0]; [|destruct (Nat.eqb_spec (cnt cl x es) (length es)) as [E1|E1]]; intros P; cbn [pos_holds] in P.
      * destruct u; cbn [b2n] in E; [|lia]. assert (i = 0) by lia. subst i. eexists. split; [apply fkeys_under|exact P].
      * destruct o; cbn [b2n] in Hi; [|lia]. exists (split_over es cl). split; [|exact P].
        rewrite <- (fkeys_over u nf (split_under es cl) (split_fins es cl) (split_over es cl)). f_equal. lia.
      * destruct P as (k & Hk & Hk'). exists k. split; auto. rewrite <- Hk, <- (fkeys_fin u o nf (split_under es cl) (split_fins es cl) (split_over es cl)).
        -- f_equal. lia.
        -- lia.
Qed.

(** ** The scan of the edges *)
Lemma sorted_skip es j : strictly_sorted es -> forall m e, m <= j -> nth_error es j = Some e -> e <> NaN -> nonan es -> scan (skipn m es) m e = Ok j.
Proof.
  intros Hs m e Hm He Hn Hnn. remember (j - m) as d eqn:Ed. revert m Hm Ed. induction d as [|d IH]; intros m Hm Ed.
  - assert (m = j) by lia. subst m. destruct (skipn j es) as [|y t] eqn:E.
    + exfalso. apply (f_equal (@length _)) in E. rewrite skipn_length in E. cbn in E. assert (j < length es) by (apply nth_error_Some; congruence). lia.
    + cbn [scan]. assert (y = e). { pose proof (firstn_skipn j es) as F. rewrite <- F, E in He. assert (j < length es) by (apply nth_error_Some; rewrite <- F, E; congruence). rewrite nth_error_app2 in He; rewrite firstn_length in *; [|lia]. replace (j - Nat.min j (length es)) with 0 in He by lia. cbn in He. congruence. }
      subst y. rewrite nltb_irrefl. reflexivity.
  - assert (m < length es) as Hml by (assert (j < length es) by (apply nth_error_Some; congruence); lia).
    destruct (nth_error es m) as [y|] eqn:Ey; [|apply nth_error_None in Ey; lia].
    assert (skipn m es = y :: skipn (S m) es) as ->.
    { clear - Ey. revert m Ey. induction es as [|z es IH]; intros [|m] Ey; cbn in *; try discriminate; [congruence|]. rewrite IH by auto. reflexivity. }
    cbn [scan]. assert (nltb y e = true) as ->.
    { assert (m < j) as Hmj by lia. clear - Hs Ey He Hmj. revert m j Ey He Hmj. induction Hs as [|z l Hl IH Hf]; intros [|m] [|j] Ey He Hmj; cbn in *; try lia; try discriminate.
      - inversion Ey; subst. rewrite Forall_forall in Hf. apply Hf. eapply nth_error_In; eauto.
      - apply (IH m j); auto. lia. }
    replace (m + 1) with (S m) by lia. apply IH; lia.
Qed.

(** The positions of the new edges among the old ones. *)
Inductive positions (es : list Num) : list Num -> list nat -> Prop :=
| pos_nil : positions es [] []
| pos_cons e news j js : nth_error es j = Some e -> positions es news js -> positions es (e :: news) (j :: js).
Lemma positions_ex es news : (forall e, In e news -> In e es) -> exists js, positions es news js.
Proof.
  induction news as [|e news IH]; intros H; [exists []; constructor|]. destruct IH as (js & Hj); [intros x Hx; apply H; right; auto|].
  destruct (In_nth_error es e (H e (or_introl eq_refl))) as (j & Ej). exists (j :: js). constructor; auto.
Qed.
Lemma positions_length es news js : positions es news js -> length js = length news.
Proof. induction 1; cbn; auto. Qed.
Lemma positions_nth es news js : positions es news js -> forall k j, nth_error js k = Some j -> exists e, nth_error news k = Some e /\ nth_error es j = Some e.
Proof. induction 1; intros [|k] i Hi; cbn in *; try discriminate; [inversion Hi; subst; eauto|auto]. Qed.
Lemma lt_position es i j a b : strictly_sorted es -> nth_error es i = Some a -> nth_error es j = Some b -> nltb a b = true -> i < j.
Proof.
  intros Hs Ha Hb H. destruct (Nat.lt_trichotomy i j) as [L|[->|L]]; auto; exfalso.
  - assert (a = b) by congruence. subst. rewrite nltb_irrefl in H. discriminate.
  - assert (nltb b a = true) as H'.
    { clear H. revert i j Ha Hb L. induction Hs as [|z l Hl IH Hf]; intros [|i] [|j] Ha Hb L; cbn in *; try lia; try discriminate.
      - inversion Hb; subst. rewrite Forall_forall in Hf. apply Hf. eapply nth_error_In; eauto.
      - apply (IH i j); auto. lia. }
    assert (nltb a a = true) by (eapply nltb_trans; eauto). rewrite nltb_irrefl in *. discriminate.
Qed.

Lemma bin_ranges_ok es u : strictly_sorted es -> nonan es -> forall news js j0 e0, nth_error es j0 = Some e0 -> strictly_sorted (e0 :: news) -> positions es news js ->
  bin_ranges es u (b2n u + j0) (S j0) news = Ok (pairs_of (map (plus (b2n u)) (j0 :: js)), b2n u + last (j0 :: js) 0).
Proof.
  intros Hs Hn news. induction news as [|e news IH]; intros js j0 e0 E0 Hs' Hp; inversion Hp as [|? ? j js' Ej Hp']; subst; [reflexivity|].
  cbn [bin_ranges]. inversion Hs' as [|? ? Hs2 Hf]; subst. assert (j0 < j) by (apply (lt_position es j0 j e0 e); auto; inversion Hf; auto).
  rewrite (sorted_skip es j Hs (S j0) e) by (auto; try lia; apply Hn; eapply nth_error_In; eauto). cbn [bind].
  assert ((if u then j + 1 else j) = b2n u + j) as Eu by (destruct u; cbn; lia). cbv zeta. rewrite Eu.
  assert ((if u then b2n u + j else b2n u + j + 1) = S j) as -> by (destruct u; cbn; lia).
  rewrite (IH js' j e) by auto. reflexivity.
Qed.
Definition ranges (m : nat) (u o nf : bool) (js : list nat) : list (nat * nat) :=
  (if u then [(0, S (hd 0 js))] else []) ++ pairs_of (map (plus (b2n u)) js) ++
  (if o then [(b2n u + last js 0, m + b2n u + b2n o)] else []) ++ (if nf then [(m + b2n u + b2n o, S (m + b2n u + b2n o))] else []).
Lemma rebin_ranges_ok es u o nf news js : strictly_sorted es -> nonan es -> strictly_sorted news -> news <> [] -> positions es news js ->
  rebin_ranges es u o nf news = Ok (ranges (length es - 1) u o nf js).
Proof.
  intros Hs Hn Hs' Hne Hp. destruct Hp as [|e news j js Ej Hp]; [congruence|]. unfold rebin_ranges.
  assert (Hen : e <> NaN) by (apply Hn; eapply nth_error_In; eauto).
  pose proof (sorted_skip es j Hs 0 e (Nat.le_0_l j) Ej Hen Hn) as E0. cbn [skipn] in E0. rewrite E0. cbn [bind].
  assert ((if u then j + 1 else j) = b2n u + j) as Eu by (destruct u; cbn; lia). cbv zeta. rewrite Eu.
  assert ((if u then b2n u + j else b2n u + j + 1) = S j) as -> by (destruct u; cbn; lia).
  rewrite (bin_ranges_ok es u Hs Hn news js j e) by auto. cbn [bind fst snd]. unfold ranges. rewrite Nat.add_1_r. destruct u; reflexivity.
Qed.

Definition range_list (r : nat * nat) : list nat := seq (fst r) (snd r - fst r).
Definition part (rs : list (nat * nat)) (i : nat) : list nat := range_list (nth i rs (0, 0)).
Lemma in_range_list lo hi j : In j (range_list (lo, hi)) <-> lo <= j < hi.
Proof. unfold range_list. rewrite in_seq. cbn. lia. Qed.

Section Parts.
  Variables (es news : list Num) (js : list nat).
  Hypothesis Hs : strictly_sorted es.
  Hypothesis Hn : nonan es.
  Hypothesis Hs' : strictly_sorted news.
  Hypothesis Hn' : nonan news.
  Hypothesis Hne : news <> [].
  Hypothesis Hp : positions es news js.
  Variables (u o nf cl : bool).
  Let m := length es - 1.
  Let m' := length news - 1.
  Let rs := ranges m u o nf js.

  Lemma old_ne : es <> [].
  Proof. intros ->. destruct Hp as [|e ? j ? Ej _]; [congruence|]. destruct j; discriminate. Qed.
  Lemma js_ne : 0 < length js.
  Proof. rewrite (positions_length _ _ _ Hp). destruct news; [congruence|cbn; lia]. Qed.
  Lemma js_lt k : k < length js -> nth k js 0 <= m.
  Proof.
    intros H. destruct (nth_error js k) as [j|] eqn:E; [|apply nth_error_None in E; lia]. rewrite (nth_error_nth _ _ 0 E).
    destruct (positions_nth _ _ _ Hp k j E) as (e & _ & Ee). assert (j < length es) by (apply nth_error_Some; congruence). unfold m. lia.
  Qed.
  Lemma js_cnt x k : k < length js -> (k < cnt cl x news <-> nth k js 0 < cnt cl x es).
  Proof.
    intros H. destruct (nth_error js k) as [j|] eqn:E; [|apply nth_error_None in E; lia]. rewrite (nth_error_nth _ _ 0 E).
    destruct (positions_nth _ _ _ Hp k j E) as (e & Ee' & Ee).
    rewrite <- (cnt_nth cl x news Hs' k e Ee'), <- (cnt_nth cl x es Hs j e Ee). reflexivity.
  Qed.
  (** The slice for each new bin. *)
  Lemma range_under : u = true -> nth 0 rs (0, 0) = (0, S (nth 0 js 0)).
  Proof. intros ->. unfold rs, ranges. cbn. destruct js; reflexivity. Qed.
  Lemma range_bin k : k < m' -> nth (b2n u + k) rs (0, 0) = (b2n u + nth k js 0, b2n u + nth (S k) js 0).
  Proof.
    intros Hk. pose proof (positions_length _ _ _ Hp) as Hl. unfold rs, ranges. rewrite app_nth2 by (destruct u; cbn; lia).
    replace (b2n u + k - length (if u then [(0, S (hd 0 js))] else [])) with k by (destruct u; cbn; lia).
    assert (k < length (pairs_of (map (plus (b2n u)) js))) as Hk' by (rewrite pairs_of_length, map_length; unfold m' in Hk; lia).
    rewrite app_nth1 by auto. apply nth_error_nth. apply pairs_of_nth. unfold m' in Hk.
    rewrite !nth_error_map, !(nth_error_nth' js 0) by lia. split; reflexivity.
  Qed.
  Lemma range_over : o = true -> nth (b2n u + m') rs (0, 0) = (b2n u + nth m' js 0, m + b2n u + 1).
  Proof.
    intros ->. pose proof (positions_length _ _ _ Hp) as Hl. pose proof js_ne. unfold rs, ranges. rewrite app_nth2 by (destruct u; cbn; lia).
    replace (b2n u + m' - length (if u then [(0, S (hd 0 js))] else [])) with m' by (destruct u; cbn; lia).
    rewrite app_nth2 by (rewrite pairs_of_length, map_length; unfold m'; lia). rewrite pairs_of_length, map_length, Hl. unfold m'. rewrite Nat.sub_diag. cbn [app nth b2n].
    do 2 f_equal. rewrite <- Hl. clear - H. destruct js as [|j l]; [cbn in H; lia|]. cbn [length]. replace (S (length l) - 1) with (length l) by lia. clear H.
    revert j. induction l as [|i l IH]; intros j; auto. exact (IH i).
  Qed.
  Lemma range_nan : nf = true -> nth (b2n u + m' + b2n o) rs (0, 0) = (m + b2n u + b2n o, S (m + b2n u + b2n o)).
  Proof.
    intros ->. pose proof (positions_length _ _ _ Hp) as Hl. unfold rs, ranges. rewrite app_nth2 by (destruct u; cbn; lia).
    replace (b2n u + m' + b2n o - length (if u then [(0, S (hd 0 js))] else [])) with (m' + b2n o) by (destruct u; cbn; lia).
    rewrite app_nth2 by (rewrite pairs_of_length, map_length; unfold m'; lia). rewrite pairs_of_length, map_length, Hl.
    replace (m' + b2n o - (length news - 1)) with (b2n o) by (unfold m'; lia). destruct o; reflexivity.
  Qed.

  Lemma split_unions : unions_of (fun _ => True) (keys_split es u o nf cl) (keys_split news u o nf cl) (part rs).
  Proof.
    intros i k' Hk. split; [apply seq_NoDup|].
    pose proof old_ne as Hoe. pose proof js_ne as Hj. pose proof (positions_length _ _ _ Hp) as Hl. pose proof (keys_split_length es u o nf cl Hoe) as El. fold m in El.
    assert (G : forall x, contains k' x <-> (x = NaN /\ nf = true /\ i = m' + b2n u + b2n o) \/ (x <> NaN /\ i < m' + b2n u + b2n o /\ i + 1 = b2n u + cnt cl x news)).
    { intros x. pose proof (key_iff news u o nf cl i x Hs' Hn' Hne) as K. fold m' in K. rewrite <- K. split; [eauto|]. intros (k & Ek & C). rewrite Hk in Ek. inversion Ek; subst; auto. }
    assert (O : forall x lo hi, (exists j k, In j (range_list (lo, hi)) /\ nth_error (keys_split es u o nf cl) j = Some k /\ contains k x) <->
      exists j, lo <= j < hi /\ ((x = NaN /\ nf = true /\ j = m + b2n u + b2n o) \/ (x <> NaN /\ j < m + b2n u + b2n o /\ j + 1 = b2n u + cnt cl x es))).
    { intros x lo hi. split.
      - intros (j & k & Hi & Ek & C). apply in_range_list in Hi. exists j. split; auto. apply (key_iff es u o nf cl j x Hs Hn Hoe). eauto.
      - intros (j & Hi & H). apply (key_iff es u o nf cl j x Hs Hn Hoe) in H. destruct H as (k & Ek & C). exists j, k. rewrite in_range_list. auto. }
    assert (Hc : forall x, cnt cl x es <= length es) by (intros; apply cnt_le). assert (Hc' : forall x, cnt cl x news <= length news) by (intros; apply cnt_le).
    pose proof Hk as Hk0. rewrite keys_split_fkeys in Hk. unfold part. assert (Lm : length news = S m') by (unfold m'; destruct news; [congruence|cbn; lia]).
    assert (Le : length es = S m) by (unfold m; destruct es; [congruence|cbn; lia]). rewrite El.
    destruct (fkeys_inv _ _ _ _ _ _ _ _ Hk) as [(Eu & -> & _)|[(k & -> & Ek)|[(Eo & -> & _)|(En & -> & _)]]].
    - rewrite range_under by auto. split; [intros j; rewrite in_range_list; pose proof (js_lt 0 Hj); rewrite Eu; cbn; lia|]. intros x _. rewrite G, O. clear G O.
      pose proof (js_cnt x 0 Hj) as Hx. specialize (Hc x). rewrite Eu in *. cbn [b2n] in *. pose proof (js_lt 0 Hj) as J0. split.
      + intros [(_ & _ & H)|(X & _ & H)]; [lia|]. exists (cnt cl x es). split; [lia|]. right. split; [auto|split; lia].
      + intros (j & Hi & [(_ & _ & H1)|(X & H1 & H2)]); [lia|]. right. split; [auto|split; lia].
    - assert (k < m') as Hkm by (assert (k < length (split_fins news cl)) by (apply nth_error_Some; congruence); rewrite split_fins_length in *; auto).
      rewrite range_bin by auto. pose proof (js_lt (S k)) as J1. split; [intros j; rewrite in_range_list; lia|]. intros x _. rewrite G, O. clear G O.
      pose proof (js_cnt x k) as X1. pose proof (js_cnt x (S k)) as X2. specialize (Hc x). split.
      + intros [(_ & _ & H)|(X & _ & H)]; [lia|]. exists (b2n u + cnt cl x es - 1). split; [lia|]. right. split; [auto|split; lia].
      + intros (j & Hi & [(_ & _ & H1)|(X & H1 & H2)]); [lia|]. right. split; [auto|split; lia].
    - rewrite split_fins_length in *. fold m'. rewrite range_over by auto. split; [intros j; rewrite in_range_list, Eo; cbn; lia|]. intros x _. rewrite G, O. clear G O.
      pose proof (js_cnt x m') as X1. specialize (Hc x). specialize (Hc' x). rewrite Eo in *. cbn [b2n] in *. split.
      + intros [(_ & _ & H)|(X & _ & H)]; [lia|]. exists (b2n u + cnt cl x es - 1). split; [lia|]. right. split; [auto|split; lia].
      + intros (j & Hi & [(_ & _ & H1)|(X & H1 & H2)]); [lia|]. right. split; [auto|split; lia].
    - rewrite split_fins_length in *. fold m'. rewrite range_nan by auto. split; [intros j; rewrite in_range_list, En; cbn; lia|]. intros x _. rewrite G, O. clear G O. split.
      + intros [(-> & _ & H)|(X & H & _)]; [|lia]. exists (m + b2n u + b2n o). split; [lia|]. left. auto.
      + intros (j & Hi & [(-> & _ & H1)|(X & H1 & H2)]); [|lia]. left. split; [auto|split; [auto|lia]].
  Qed.
End Parts.
