(** What the axes answer to a selection. *)
From Coq Require Import String Sorted.
From Verif Require Import Base Num NumFacts Axis AxisSpec AxisProofs AxisProofs2 AxisMain Calc Content Fill FillSpec Tree Order Expr HistAlg AlgSpec Nd Proj HistFillProofs Select SelSpec.
Local Open Scope list_scope.

(** ** The keys of an axis with given edges *)
Lemma pairs_of_cons {A} (x y : A) t : pairs_of (x :: y :: t) = (x, y) :: pairs_of (y :: t).
Proof. reflexivity. Qed.
Lemma pairs_firstn {A} (l : list A) : forall j, pairs_of (firstn (S j) l) = firstn j (pairs_of l).
Proof.
  induction l as [|x l IH]; intros j; [cbn; rewrite firstn_nil; reflexivity|]. destruct l as [|y t].
  - cbn. destruct j; reflexivity.
  - destruct j as [|j]; [reflexivity|]. change (firstn (S (S j)) (x :: y :: t)) with (x :: y :: firstn j t).
    rewrite !pairs_of_cons. cbn [firstn]. f_equal. exact (IH j).
Qed.
Lemma pairs_skipn {A} (l : list A) : forall j, pairs_of (skipn j l) = skipn j (pairs_of l).
Proof.
  induction l as [|x l IH]; intros j; [cbn; rewrite !skipn_nil; reflexivity|]. destruct j as [|j]; [reflexivity|].
  cbn [skipn]. rewrite IH. destruct l as [|y t]; [cbn; rewrite !skipn_nil; reflexivity|]. reflexivity.
Qed.
Lemma skipn_last {A} (l : list A) d : forall j, j < length l -> last (skipn j l) d = last l d.
Proof.
  induction l as [|x l IH]; intros j H; cbn [length] in H; [lia|]. destruct j as [|j]; [reflexivity|]. cbn [skipn].
  rewrite IH by lia. destruct l; [cbn in H; lia|reflexivity].
Qed.

Section Edges.
  Variable es : list Num.
  Hypothesis Hs : strictly_sorted es.
  Hypothesis Hnan : nonan es.
  Variables (u o nf cl : bool).
  Let ks := keys_split es u o nf cl.
  Let numbers := length es - 1 + b2n u + b2n o.

  Lemma keys_split_length (H : es <> []) : length ks = numbers + b2n nf.
  Proof.
    unfold ks, numbers, keys_split. rewrite !app_length, map_length, pairs_of_length. destruct u, o, nf; cbn; lia.
  Qed.
  Lemma lower_keys j : j < length es -> keys_split (firstn (j + 1) es) u false false cl = firstn (j + b2n u) ks.
  Proof.
    clear Hs Hnan. intros H. replace (j + 1) with (S j) by lia. unfold ks, keys_split. rewrite pairs_firstn, <- firstn_map. rewrite !app_nil_r.
    assert (E : hd NaN (firstn (S j) es) = hd NaN es) by (destruct es; reflexivity). rewrite E.
    assert (G : firstn j (map (fun p : Num * Num => KIv (fst p) (snd p) cl (negb cl)) (pairs_of es) ++ (if o then [KIv (last es NaN) PInf cl true] else []) ++ (if nf then [KNaN] else [])) = firstn j (map (fun p : Num * Num => KIv (fst p) (snd p) cl (negb cl)) (pairs_of es))).
    { rewrite firstn_app, map_length, pairs_of_length. replace (j - (length es - 1)) with 0 by lia. apply app_nil_r. }
    destruct u.
    - replace (j + b2n true) with (S j) by (cbn; lia). cbn [app firstn]. rewrite G. reflexivity.
    - replace (j + b2n false) with j by (cbn; lia). cbn [app]. rewrite G. reflexivity.
  Qed.
  Lemma upper_keys j : j < length es ->
    keys_split (skipn j es) false o false cl = firstn (length es - 1 - j + b2n o) (skipn (j + b2n u) ks).
  Proof.
    clear Hs Hnan. intros H. unfold ks, keys_split. rewrite pairs_skipn, skipn_last by auto.
    assert (G : forall (X : list key), skipn (j + b2n u) ((if u then [KIv NInf (hd NaN es) true (negb cl)] else []) ++ X) = skipn j X).
    { intros X. destruct u; [replace (j + b2n true) with (S j) by (cbn; lia)|replace (j + b2n false) with j by (cbn; lia)]; reflexivity. }
    rewrite G. rewrite skipn_app, map_length, pairs_of_length. replace (j - (length es - 1)) with 0 by lia. cbn [skipn app].
    rewrite <- skipn_map. rewrite firstn_app, skipn_length, map_length, pairs_of_length.
    rewrite (firstn_all2 (skipn j _)) by (rewrite skipn_length, map_length, pairs_of_length; lia). f_equal. rewrite app_nil_r.
    replace (length es - 1 - j + b2n o - (length es - 1 - j)) with (b2n o) by lia. destruct o, nf; reflexivity.
  Qed.
  Lemma all_keys : es <> [] -> keys_split es u o false cl = firstn numbers ks.
  Proof.
    intros H. unfold ks, keys_split, numbers. rewrite app_nil_r, !app_assoc. rewrite firstn_app.
    assert (E : length (((if u then [KIv NInf (hd NaN es) true (negb cl)] else []) ++ map (fun p : Num * Num => KIv (fst p) (snd p) cl (negb cl)) (pairs_of es)) ++
     (if o then [KIv (last es NaN) PInf cl true] else [])) = length es - 1 + b2n u + b2n o).
    { rewrite !app_length, map_length, pairs_of_length. destruct u, o; cbn; lia. }
    rewrite E, Nat.sub_diag. rewrite firstn_all2 by lia. symmetry. apply app_nil_r.
  Qed.

  (** Where a value is: the bin after all the edges below it. *)
  Lemma key_place i k x : es <> [] -> nth_error ks i = Some k -> contains k x ->
    (x = NaN /\ numbers <= i) \/ (x <> NaN /\ i < numbers /\ i + 1 = b2n u + cnt cl x es).
  Proof.
    intros Hne Hk Hc. unfold ks in Hk. rewrite keys_split_fkeys in Hk.
    destruct (fkeys_pos _ _ _ _ _ _ _ _ _ Hk Hc) as (p & Hp & Hi). apply (split_pos_holds es Hs Hne Hnan) in Hp.
    rewrite split_fins_length in Hi. unfold split_pos in Hp. pose proof (cnt_le cl x es) as Hl. assert (0 < length es) by (destruct es; cbn; [congruence|lia]).
    unfold numbers. destruct (isnan x) eqn:Ex.
    - subst p. left. split; [destruct x; cbn in Ex; congruence|]. lia.
    - right. split; [intros ->; discriminate|]. destruct (Nat.eqb_spec (cnt cl x es) 0) as [E0|E0]; [|destruct (Nat.eqb_spec (cnt cl x es) (length es)) as [E1|E1]]; subst p.
      + destruct Hi as (-> & ->). cbn. lia.
      + destruct Hi as (-> & ->). cbn. lia.
      + destruct Hi as (-> & ?). lia.
  Qed.
  Lemma key_above i k x j e : es <> [] -> nth_error es j = Some e -> nth_error ks i = Some k -> contains k x ->
    (j + b2n u <= i < numbers <-> below cl x e = true).
  Proof.
    intros Hne He Hk Hc. destruct (key_place i k x Hne Hk Hc) as [(-> & Hi)|(Hx & Hi & Hp)].
    - split; [lia|]. unfold below. destruct cl, e; discriminate.
    - rewrite (cnt_nth cl x es Hs j e He). lia.
  Qed.
  Lemma key_below i k x j e : es <> [] -> nth_error es j = Some e -> nth_error ks i = Some k -> contains k x ->
    (i < j + b2n u <-> x <> NaN /\ below cl x e = false).
  Proof.
    intros Hne He Hk Hc. assert (Hj : j < length es) by (apply nth_error_Some; congruence).
    destruct (key_place i k x Hne Hk Hc) as [(-> & Hi)|(Hx & Hi & Hp)].
    - split; [unfold numbers in Hi; lia|]. intros (H & _). congruence.
    - destruct (below cl x e) eqn:E.
      + apply (cnt_nth cl x es Hs j e He) in E. split; [lia|intros (_ & H); discriminate].
      + split; [auto|]. intros _. destruct (Nat.lt_ge_cases i (j + b2n u)) as [H|H]; auto. exfalso.
        assert (below cl x e = true); [|congruence]. apply (cnt_nth cl x es Hs j e He). lia.
  Qed.
  Lemma key_number i k x : es <> [] -> nth_error ks i = Some k -> contains k x -> (i < numbers <-> x <> NaN).
  Proof. intros Hne Hk Hc. destruct (key_place i k x Hne Hk Hc) as [(-> & Hi)|(Hx & Hi & Hp)]; split; auto; try lia. congruence. Qed.
End Edges.

(** The conditions in terms of comparisons. *)
Definition lower_cmp (cl : bool) (c : scmp) : bool := cl && scmp_is c SLt || negb cl && scmp_is c SLe.
Definition upper_cmp (cl : bool) (c : scmp) : bool := cl && scmp_is c SGe || negb cl && scmp_is c SGt.
Lemma lower_satisfies cl c e x : e <> NaN -> lower_cmp cl c = true -> (x <> NaN /\ below cl x e = false <-> satisfies c e x = true).
Proof.
  intros He H. unfold below. destruct cl, c; try discriminate; cbn [satisfies].
  - split; [intros (Hx & H')|]; [|intros H'; split; [intros ->; discriminate|]].
    + rewrite nleb_nltb in H' by (destruct e, x; cbn; congruence). apply negb_false_iff in H'. auto.
    + rewrite nleb_nltb; [rewrite H'; reflexivity|destruct e; cbn; congruence|destruct x; cbn in *; congruence].
  - split; [intros (Hx & H')|]; [|intros H'; split; [intros ->; discriminate|]].
    + rewrite nleb_nltb by (destruct e, x; cbn; congruence). rewrite H'. reflexivity.
    + rewrite nleb_nltb in H'; [apply negb_true_iff in H'; auto|destruct x; cbn in *; congruence|destruct e; cbn; congruence].
Qed.
Lemma upper_satisfies cl c e x : upper_cmp cl c = true -> below cl x e = satisfies c e x.
Proof. unfold below. destruct cl, c; try discriminate; reflexivity. Qed.

(** Slices with bounds inside the dimension *)
Lemma clip_nat n z : (0 <= z <= Z.of_nat n)%Z -> clip n z = Z.to_nat z.
Proof. intros H. unfold clip. destruct (Z.ltb_spec z 0); lia. Qed.
Lemma zslice_list {A} lo hi (l : list A) : (0 <= lo <= Z.of_nat (length l))%Z -> (0 <= hi <= Z.of_nat (length l))%Z ->
  slice_list (zslice lo hi) l = firstn (Z.to_nat hi - Z.to_nat lo) (skipn (Z.to_nat lo) l).
Proof. intros H1 H2. unfold slice_list, slice_len, zslice, slice_lo, slice_hi. rewrite !clip_nat by auto. reflexivity. Qed.
Lemma zslice_in lo hi n i : (0 <= lo <= Z.of_nat n)%Z -> (0 <= hi <= Z.of_nat n)%Z ->
  (in_slice (zslice lo hi) n i <-> (lo <= Z.of_nat i < hi)%Z).
Proof. intros H1 H2. unfold in_slice, zslice, slice_lo, slice_hi. rewrite !clip_nat by auto. lia. Qed.

Lemma edges_lower es u o nf cl j e c : strictly_sorted es -> nonan es -> nth_error es j = Some e -> lower_cmp cl c = true ->
  keeps_inside (fun x => satisfies c e x = true) (keys_split es u o nf cl) (zslice 0 (Z.of_nat j + b2z u))
               (keys_split (firstn (j + 1) es) u false false cl).
Proof.
  intros Hs Hn He Hc. assert (Hj : j < length es) by (apply nth_error_Some; congruence).
  assert (Hne : es <> []) by (intros ->; cbn in Hj; lia). assert (B : b2z u = Z.of_nat (b2n u)) by (destruct u; reflexivity).
  assert (Hl := keys_split_length es u o nf cl Hne). assert (He' : e <> NaN) by (apply Hn; eapply nth_error_In; eauto). split.
  - rewrite zslice_list by (rewrite Hl; lia). cbn [skipn Z.to_nat]. rewrite (lower_keys es u o nf cl j Hj). f_equal. lia.
  - intros i k x Hk Hx. rewrite zslice_in by (rewrite Hl; lia). rewrite <- (lower_satisfies cl c e x He' Hc).
    rewrite <- (key_below es Hs Hn u o nf cl i k x j e Hne He Hk Hx). lia.
Qed.
Lemma edges_upper es u o nf cl j e c : strictly_sorted es -> nonan es -> nth_error es j = Some e -> upper_cmp cl c = true ->
  keeps_inside (fun x => satisfies c e x = true) (keys_split es u o nf cl)
               (zslice (Z.of_nat j + b2z u) (Z.of_nat (length es) - 1 + b2z u + b2z o)) (keys_split (skipn j es) false o false cl).
Proof.
  intros Hs Hn He Hc. assert (Hj : j < length es) by (apply nth_error_Some; congruence).
  assert (Hne : es <> []) by (intros ->; cbn in Hj; lia). assert (B : b2z u = Z.of_nat (b2n u)) by (destruct u; reflexivity).
  assert (B' : b2z o = Z.of_nat (b2n o)) by (destruct o; reflexivity).
  assert (Hl := keys_split_length es u o nf cl Hne). split.
  - rewrite zslice_list by (rewrite Hl; lia). rewrite (upper_keys es u o nf cl j Hj). f_equal; [lia|]. f_equal. lia.
  - intros i k x Hk Hx. rewrite zslice_in by (rewrite Hl; lia). rewrite <- (upper_satisfies cl c e x Hc).
    rewrite <- (key_above es Hs Hn u o nf cl i k x j e Hne He Hk Hx). lia.
Qed.
Lemma edges_all es u o nf cl : strictly_sorted es -> nonan es -> es <> [] ->
  keeps_inside (fun x => x <> NaN) (keys_split es u o nf cl) (zslice 0 (Z.of_nat (length es) - 1 + b2z u + b2z o)) (keys_split es u o false cl).
Proof.
  intros Hs Hn Hne. assert (B : b2z u = Z.of_nat (b2n u)) by (destruct u; reflexivity).
  assert (B' : b2z o = Z.of_nat (b2n o)) by (destruct o; reflexivity). assert (0 < length es) by (destruct es; cbn; [congruence|lia]).
  assert (Hl := keys_split_length es u o nf cl Hne). split.
  - rewrite zslice_list by (rewrite Hl; lia). cbn [skipn Z.to_nat]. rewrite (all_keys es u o nf cl Hne). f_equal. lia.
  - intros i k x Hk Hx. rewrite zslice_in by (rewrite Hl; lia). rewrite <- (key_number es Hs Hn u o nf cl i k x Hne Hk Hx). lia.
Qed.

(** ** bin *)
Lemma pairs_map {A} (E : nat -> A) m : forall s, pairs_of (map E (seq s (S m))) = map (fun i => (E i, E (i + 1))) (seq s m).
Proof.
  induction m as [|m IH]; intros s; [reflexivity|]. change (seq s (S (S m))) with (s :: S s :: seq (S (S s)) m).
  cbn [map]. rewrite pairs_of_cons. specialize (IH (S s)). change (seq (S s) (S m)) with (S s :: seq (S (S s)) m) in IH. cbn [map] in IH.
  rewrite IH. cbn [seq map]. rewrite (Nat.add_1_r s). reflexivity.
Qed.
Lemma last_map_seq {A} (E : nat -> A) m d : forall s, last (map E (seq s (S m))) d = E (s + m).
Proof.
  induction m as [|m IH]; intros s; [cbn; f_equal; lia|]. change (seq s (S (S m))) with (s :: seq (S s) (S m)). cbn [map].
  specialize (IH (S s)). change (last (E s :: map E (seq (S s) (S m))) d) with (match map E (seq (S s) (S m)) with [] => E s | _ => last (map E (seq (S s) (S m))) d end).
  rewrite IH. cbn [seq map]. f_equal. lia.
Qed.
Lemma keys_bin_edges m a b u o nf cl (E : nat -> Num) s : E s = a -> E (s + m) = b -> (forall i, i <= m -> 0 < m -> i2x m a b i = E (s + i)) ->
  keys_bin m a b u o nf cl = keys_split (map E (seq s (S m))) u o nf cl.
Proof.
  intros Ha Hb Hi. unfold keys_bin, keys_split. rewrite pairs_map, last_map_seq, map_map. cbn [seq map hd fst snd]. rewrite Ha, Hb.
  do 2 f_equal. transitivity (map (fun i => KIv (E (s + i)) (E (s + i + 1)) cl (negb cl)) (seq 0 m)).
  - apply map_ext_in. intros i Hi'. apply in_seq in Hi'. rewrite !Hi by lia. do 2 f_equal; lia.
  - clear. revert s. induction m as [|m IH]; intros s; auto. cbn [seq map]. rewrite Nat.add_0_r. f_equal.
    rewrite <- seq_shift, map_map, <- IH. apply map_ext. intros i. replace (s + S i) with (S s + i) by lia. reflexivity.
Qed.

  Lemma firstn_seq m : forall s j, j <= m -> firstn j (seq s m) = seq s j.
  Proof. induction m as [|m IH]; intros s [|j] H; cbn [seq firstn]; auto; try lia. rewrite IH by lia. reflexivity. Qed.
  Lemma skipn_seq m : forall s j, j <= m -> skipn j (seq s m) = seq (s + j) (m - j).
  Proof.
    induction m as [|m IH]; intros s [|j] H; cbn [seq skipn]; auto; try lia; [rewrite Nat.add_0_r; reflexivity|].
    rewrite IH by lia. f_equal; lia.
  Qed.
Section BinSel.
  Variables (n : nat) (l h : Qc).
  Hypothesis Hn : 0 < n.
  Hypothesis Hlh : (this l < this h)%Q.
  Definition bin_edges : list Num := map (i2x n (Fin l) (Fin h)) (seq 0 (S n)).
  Lemma bin_edges_nth j : j <= n -> nth_error bin_edges j = Some (Fin (edge n l h j)).
  Proof.
    intros H. unfold bin_edges. rewrite nth_error_map, (nth_error_nth' _ 0) by (rewrite seq_length; lia). rewrite seq_nth by lia.
    cbn [Nat.add option_map]. rewrite i2x_edge by auto. reflexivity.
  Qed.
  Lemma bin_edges_length : length bin_edges = S n.
  Proof. unfold bin_edges. rewrite map_length, seq_length. reflexivity. Qed.
  Lemma edge_lt i j : i < j -> (this (edge n l h i) < this (edge n l h j))%Q.
  Proof.
    intros H. unfold edge. pose proof (qn_pos n Hn) as Hp. qc_push. apply Qplus_lt_l.
    apply Qmult_lt_r; [lra|]. apply Qmult_lt_r; [apply Qinv_lt_0_compat; auto|]. rewrite <- Zlt_Qlt. lia.
  Qed.
  Lemma bin_edges_sorted : strictly_sorted bin_edges.
  Proof.
    unfold strictly_sorted, bin_edges. generalize 0. induction (S n) as [|m IH]; intros s; cbn [seq map]; [constructor|].
    constructor; [apply IH|]. apply Forall_forall. intros y Hy. apply in_map_iff in Hy. destruct Hy as (i & <- & Hi). apply in_seq in Hi.
    rewrite !i2x_edge by auto. cbn. apply qltb_iff. apply edge_lt. lia.
  Qed.
  Lemma bin_edges_nonan : nonan bin_edges.
  Proof. intros x Hx. apply in_map_iff in Hx. destruct Hx as (i & <- & _). rewrite i2x_edge by auto. discriminate. Qed.
  Lemma keys_bin_as_split u o nf cl : keys_bin n (Fin l) (Fin h) u o nf cl = keys_split bin_edges u o nf cl.
  Proof.
    apply keys_bin_edges; cbn [Nat.add]; auto; rewrite i2x_edge by auto; f_equal; [apply edge_0; auto|apply edge_n; auto].
  Qed.
  Lemma edge_scale j : nadd (ndiv (nz (Z.of_nat j)) (ndiv (nnat n) (nsub (Fin h) (Fin l)))) (Fin l) = Fin (edge n l h j).
  Proof.
    assert (Hd : ~ (this h - this l == 0)%Q) by lra. assert (Hp := qn_pos n Hn).
    change (nsub (Fin h) (Fin l)) with (Fin (h - l)%Qc). unfold nnat, nz, ndiv. destruct (qeqb (h - l) qc0) eqn:E.
    { exfalso. apply qeqb_iff in E. apply Hd. rewrite <- this_sub, E. reflexivity. }
    destruct (qeqb (qz (Z.of_nat n) / (h - l)) qc0) eqn:E'.
    { exfalso. apply qeqb_iff in E'. apply Qc_ext_iff in E'. revert E'. qc_push. intros E'. 
      assert (0 < inject_Z (Z.of_nat n) / (this h - this l))%Q; [|lra]. apply Qlt_shift_div_l; lra. }
    cbn [nadd]. f_equal. apply Qc_ext. unfold edge. qc_push. field. split; intros ?; lra.
  Qed.

  Lemma qn_pos' j : 0 < j -> (0 < inject_Z (Z.of_nat j))%Q.
  Proof. intros H. change 0%Q with (inject_Z 0). rewrite <- Zlt_Qlt. lia. Qed.
  Lemma keys_lower_bin j u o nf cl : j <= n ->
    keys_bin j (Fin l) (Fin (edge n l h j)) u o nf cl = keys_split (firstn (j + 1) bin_edges) u o nf cl.
  Proof.
    intros Hj. unfold bin_edges. rewrite firstn_map, firstn_seq by lia. rewrite Nat.add_1_r. apply keys_bin_edges; cbn [Nat.add].
    - rewrite i2x_edge by auto. f_equal. apply edge_0; auto.
    - rewrite i2x_edge by auto. reflexivity.
    - intros i Hi Hj0. rewrite !i2x_edge by auto. f_equal. apply Qc_ext. unfold edge. pose proof (qn_pos n Hn). pose proof (qn_pos' j Hj0).
      qc_push. field. split; intros ?; lra.
  Qed.
  Lemma keys_upper_bin j u o nf cl : j <= n ->
    keys_bin (n - j) (Fin (edge n l h j)) (Fin h) u o nf cl = keys_split (skipn j bin_edges) u o nf cl.
  Proof.
    intros Hj. unfold bin_edges. rewrite skipn_map, skipn_seq by lia. replace (S n - j) with (S (n - j)) by lia. cbn [Nat.add]. apply keys_bin_edges.
    - rewrite i2x_edge by auto. reflexivity.
    - rewrite i2x_edge by auto. f_equal. replace (j + (n - j)) with n by lia. apply edge_n; auto.
    - intros i Hi Hj0. rewrite !i2x_edge by auto. f_equal. apply Qc_ext. unfold edge. pose proof (qn_pos n Hn). pose proof (qn_pos' (n - j) Hj0) as Hq.
      assert (E : (inject_Z (Z.of_nat (n - j)) == inject_Z (Z.of_nat n) - inject_Z (Z.of_nat j))%Q).
      { rewrite <- inject_Z_opp || idtac. replace (Z.of_nat (n - j)) with (Z.of_nat n + - Z.of_nat j)%Z by lia. rewrite inject_Z_plus, inject_Z_opp. ring. }
      assert (E2 : (inject_Z (Z.of_nat (j + i)) == inject_Z (Z.of_nat j) + inject_Z (Z.of_nat i))%Q).
      { rewrite Nat2Z.inj_add, inject_Z_plus. ring. }
      qc_push. rewrite E2. rewrite E in *. field. split; intros ?; lra.
  Qed.
End BinSel.
Lemma checked_ok a s r : checked a s = Ok r -> r = Selected a (CutSlice s) /\ totbins a <> 0.
Proof. unfold checked. destruct (Nat.eqb_spec (totbins a) 0); intros H; inversion H; auto. Qed.

Lemma bin_select_ok e n l h u o nf cl c v x tol a' s : 0 < n -> (this l < this h)%Q -> as_real v = Some x -> x <> NaN ->
  bin_select e n (Fin l) (Fin h) u o nf cl c v tol = Ok (Selected a' s) ->
  exists y t, s = CutSlice t /\ stands_for (ABin e n (Fin l) (Fin h) u o nf cl) tol x y /\
    (aligned (ABin e n (Fin l) (Fin h) u o nf cl) c \/ (x = NInf /\ c = SGe) \/ (x = PInf /\ c = SLe)) /\ totbins a' <> 0 /\ axis_expr a' = e /\
    is_fixed a' = true /\ a' <> ANull /\ keeps_inside (fun z => satisfies c y z = true) (keys_bin n (Fin l) (Fin h) u o nf cl) t (keys a').
Proof.
  intros Hn Hlh Hv Hx. unfold bin_select. rewrite Hv. set (numbers := (Z.of_nat n + b2z u + b2z o)%Z).
  assert (Hs := bin_edges_sorted n l h Hn Hlh). assert (Ha := bin_edges_nonan n l h Hn).
  assert (Hne : bin_edges n l h <> []) by (unfold bin_edges; cbn; discriminate).
  assert (ALL : forall r, checked (ABin e n (Fin l) (Fin h) u o false cl) (zslice 0 numbers) = Ok r -> r = Selected a' s ->
    exists t, s = CutSlice t /\ totbins a' <> 0 /\ a' = ABin e n (Fin l) (Fin h) u o false cl /\ keeps_inside (fun z => z <> NaN) (keys_bin n (Fin l) (Fin h) u o nf cl) t (keys a')).
  { intros r H1 H2. apply checked_ok in H1. destruct H1 as (-> & Ht). inversion H2; subst. exists (zslice 0 numbers). split; auto. split; auto. split; auto. cbn [keys].
    rewrite !keys_bin_as_split by auto. pose proof (edges_all (bin_edges n l h) u o nf cl Hs Ha Hne) as G. rewrite bin_edges_length in G.
    replace (Z.of_nat (S n) - 1 + b2z u + b2z o)%Z with numbers in G by (unfold numbers; lia). exact G. }
  destruct (is_ninf x && scmp_is c SGe) eqn:E1.
  { intros H. destruct (ALL _ H eq_refl) as (t & -> & Ht & -> & G). apply andb_true_iff in E1. destruct E1 as (E1 & E2).
    destruct x; try discriminate. destruct c; try discriminate. exists NInf, t. split; auto. split; [right; auto|]. split; [auto|]. split; auto. split; auto. split; auto. split; [discriminate|].
    destruct G as (G1 & G2). split; auto. intros i k z Hk Hz. rewrite (G2 i k z Hk Hz). cbn [satisfies]. destruct z; cbn; split; congruence. }
  destruct (is_pinf x && scmp_is c SLe) eqn:E2.
  { intros H. destruct (ALL _ H eq_refl) as (t & -> & Ht & -> & G). apply andb_true_iff in E2. destruct E2 as (E2 & E3).
    destruct x; try discriminate. destruct c; try discriminate. exists PInf, t. split; auto. split; [right; auto|]. split; [auto|]. split; auto. split; auto. split; auto. split; [discriminate|].
    destruct G as (G1 & G2). split; auto. intros i k z Hk Hz. rewrite (G2 i k z Hk Hz). cbn [satisfies]. destruct z; cbn; split; congruence. }
  assert (En : isnan x = false) by (destruct x; cbn; congruence). rewrite En. cbn [andb].
  destruct (neqb (nsub (Fin h) (Fin l)) nzero); [discriminate|]. intros H. apply bind_ok in H. destruct H as (z & Hz & H).
  destruct (neqb (ndiv (nnat n) (nsub (Fin h) (Fin l))) nzero); [discriminate|].
  set (zc := Z.min (Z.of_nat n) (Z.max 0 z)) in *. assert (Hzc : zc = Z.of_nat (Z.to_nat zc)) by (unfold zc; lia). rewrite Hzc in H.
  rewrite (edge_scale n l h Hn Hlh) in H. destruct (nltb (absdiff x (Fin (edge n l h (Z.to_nat zc)))) tol) eqn:Et; [|discriminate].
  destruct (Z.ltb_spec z 0) as [H0|H0]; [discriminate|]. destruct (Z.ltb_spec (Z.of_nat n) z) as [H1|H1]; [discriminate|]. cbn [orb] in H.
  assert (Ez : Z.to_nat zc = Z.to_nat z) by (unfold zc; lia). rewrite Ez in *. set (j := Z.to_nat z) in *. assert (Hj : j <= n) by lia.
  assert (St : stands_for (ABin e n (Fin l) (Fin h) u o nf cl) tol x (Fin (edge n l h j))).
  { left. split; auto. exists j. split; auto. rewrite i2x_edge by auto. reflexivity. }
  assert (Nth := bin_edges_nth n l h Hn j Hj). exists (Fin (edge n l h j)).
  fold (lower_cmp cl c) in H. fold (upper_cmp cl c) in H. destruct (lower_cmp cl c) eqn:El.
  - apply checked_ok in H. destruct H as (H & Ht). inversion H; subst a' s. exists (zslice 0 (z + b2z u)). split; auto. split; auto.
    split; [left; unfold lower_cmp in El; destruct cl, c; try discriminate; reflexivity|]. split; auto. split; auto. split; auto. split; [discriminate|]. cbn [keys].
    rewrite keys_lower_bin, keys_bin_as_split by auto. replace z with (Z.of_nat j) by lia. apply edges_lower; auto.
  - destruct (upper_cmp cl c) eqn:Eu; [|discriminate]. apply checked_ok in H. destruct H as (H & Ht). inversion H; subst a' s. exists (zslice (z + b2z u) numbers). split; auto. split; auto.
    split; [left; unfold upper_cmp in Eu; destruct cl, c; try discriminate; reflexivity|]. split; auto. split; auto. split; auto. split; [discriminate|]. cbn [keys].
    rewrite keys_upper_bin, keys_bin_as_split by auto. replace z with (Z.of_nat j) by lia.
    pose proof (edges_upper (bin_edges n l h) u o nf cl j _ c Hs Ha Nth Eu) as G. rewrite bin_edges_length in G.
    replace (Z.of_nat (S n) - 1 + b2z u + b2z o)%Z with numbers in G by (unfold numbers; lia). exact G.
Qed.

(** ** split *)
Lemma nearest_ok x ys : forall i best d y k, nearest x i ys best = (d, y, k) ->
  (d, y, k) = best \/ exists m, nth_error ys m = Some y /\ k = i + m /\ d = absdiff x y.
Proof.
  induction ys as [|y0 ys IH]; intros i best d y k H; cbn [nearest] in H; [auto|]. destruct best as [[bd bx] bi].
  apply IH in H. destruct H as [H|(m & H1 & H2 & H3)]; [|right; exists (S m); repeat split; auto; lia].
  destruct (nltb (absdiff x y0) bd || neqb (absdiff x y0) bd && nltb y0 bx); [|auto].
  inversion H; subst. right. exists 0. repeat split; auto; lia.
Qed.
Lemma split_select_ok e es u o nf cl c v x tol a' s : strictly_sorted es -> nonan es -> es <> [] -> as_real v = Some x -> x <> NaN ->
  split_select e es u o nf cl c v tol = Ok (Selected a' s) ->
  exists y t, s = CutSlice t /\ stands_for (ASplit e es u o nf cl) tol x y /\
    (aligned (ASplit e es u o nf cl) c \/ (x = NInf /\ c = SGe) \/ (x = PInf /\ c = SLe)) /\ totbins a' <> 0 /\ axis_expr a' = e /\
    is_fixed a' = true /\ a' <> ANull /\ keeps_inside (fun z => satisfies c y z = true) (keys_split es u o nf cl) t (keys a').
Proof.
  intros Hs Ha Hne Hv Hx. unfold split_select. rewrite Hv. set (m := (Z.of_nat (length es) - 1)%Z). set (numbers := (m + b2z u + b2z o)%Z).
  assert (ALL : forall r, checked (ASplit e es u o false cl) (zslice 0 numbers) = Ok r -> r = Selected a' s ->
    exists t, s = CutSlice t /\ totbins a' <> 0 /\ a' = ASplit e es u o false cl /\ keeps_inside (fun z => z <> NaN) (keys_split es u o nf cl) t (keys a')).
  { intros r H1 H2. apply checked_ok in H1. destruct H1 as (-> & Ht). inversion H2; subst. exists (zslice 0 numbers). split; auto. split; auto. split; auto. cbn [keys].
    exact (edges_all es u o nf cl Hs Ha Hne). }
  destruct (is_ninf x && scmp_is c SGe) eqn:E1.
  { intros H. destruct (ALL _ H eq_refl) as (t & -> & Ht & -> & G). apply andb_true_iff in E1. destruct E1 as (E1 & E2).
    destruct x; try discriminate. destruct c; try discriminate. exists NInf, t. split; auto. split; [right; auto|]. split; [auto|]. split; auto. split; auto. split; auto. split; [discriminate|].
    destruct G as (G1 & G2). split; auto. intros i k z Hk Hz. rewrite (G2 i k z Hk Hz). cbn [satisfies]. destruct z; cbn; split; congruence. }
  destruct (is_pinf x && scmp_is c SLe) eqn:E2.
  { intros H. destruct (ALL _ H eq_refl) as (t & -> & Ht & -> & G). apply andb_true_iff in E2. destruct E2 as (E2 & E3).
    destruct x; try discriminate. destruct c; try discriminate. exists PInf, t. split; auto. split; [right; auto|]. split; [auto|]. split; auto. split; auto. split; auto. split; [discriminate|].
    destruct G as (G1 & G2). split; auto. intros i k z Hk Hz. rewrite (G2 i k z Hk Hz). cbn [satisfies]. destruct z; cbn; split; congruence. }
  assert (En : isnan x = false) by (destruct x; cbn; congruence). rewrite En. cbn [andb]. clear ALL E1 E2.
  destruct es as [|y0 ys] eqn:Ees; [congruence|]. rewrite <- Ees in *.
  destruct (nearest x 1 ys (absdiff x y0, y0, 0)) as [[d y] j] eqn:En'. intros H. destruct (nltb d tol) eqn:Et; [|discriminate].
  assert (Nth : nth_error es j = Some y /\ d = absdiff x y).
  { apply nearest_ok in En'. destruct En' as [E|(k & E1 & -> & E3)]; [inversion E; subst; auto|]. subst es. split; auto. }
  destruct Nth as (Nth & ->). assert (Hj : j < length es) by (apply nth_error_Some; congruence).
  assert (St : stands_for (ASplit e es u o nf cl) tol x y) by (left; split; auto; eapply nth_error_In; eauto).
  exists y. fold (lower_cmp cl c) in H. fold (upper_cmp cl c) in H. destruct (lower_cmp cl c) eqn:El.
  - apply checked_ok in H. destruct H as (H & Ht). inversion H; subst a' s. exists (zslice 0 (Z.of_nat j + b2z u)). split; auto. split; auto.
    split; [left; unfold lower_cmp in El; destruct cl, c; try discriminate; reflexivity|]. split; auto. split; auto. split; auto. split; [discriminate|]. cbn [keys].
    apply edges_lower; auto.
  - destruct (upper_cmp cl c) eqn:Eu; [|discriminate]. apply checked_ok in H. destruct H as (H & Ht). inversion H; subst a' s. eexists. split; [reflexivity|]. split; auto.
    split; [left; unfold upper_cmp in Eu; destruct cl, c; try discriminate; reflexivity|]. split; auto. split; auto. split; auto. split; [discriminate|]. cbn [keys].
    pose proof (edges_upper es u o nf cl j _ c Hs Ha Nth Eu) as G. rewrite skipn_length.
    replace (Z.of_nat j + b2z u + Z.of_nat (length es - j) + b2z o - 1)%Z with (Z.of_nat (length es) - 1 + b2z u + b2z o)%Z by lia. exact G.
Qed.

(** ** intbin *)
Lemma absdiff_fin a b t : nltb (absdiff (Fin a) (Fin b)) (Fin t) = true -> (this a - this b < this t)%Q /\ (this b - this a < this t)%Q.
Proof.
  unfold absdiff. change (nsub (Fin a) (Fin b)) with (Fin (a - b)%Qc). change (nsub (Fin b) (Fin a)) with (Fin (b - a)%Qc). cbn [nltb nzero].
  destruct (qltb (a - b) qc0) eqn:E; intros H; apply qltb_iff in H; [apply qltb_iff in E|apply qltb_false in E]; revert E H; qc_push; intros E H; split; lra.
Qed.
Definition ikeys (mn mx : Z) : list key := map (fun i => KInt (mn + Z.of_nat i)) (seq 0 (Z.to_nat (mx - mn + 1))).
Lemma intbin_keys mn mx u o i k x : nth_error (keys_intbin mn mx u o) i = Some k -> contains k x -> (mn <= mx)%Z ->
  (i = 0 /\ u = true /\ nltb x (nz mn) = true) \/
  (exists z, (mn <= z <= mx)%Z /\ x = nz z /\ Z.of_nat i = (z - mn + b2z u)%Z) \/
  (o = true /\ Z.of_nat i = (mx - mn + 1 + b2z u)%Z /\ nltb (nz mx) x = true).
Proof.
  intros Hk Hc Hm. change (keys_intbin mn mx u o) with ((if u then [KIv NInf (nz mn) true false] else []) ++ ikeys mn mx ++ (if o then [KIv (nz mx) PInf false true] else [])) in Hk.
  assert (Hl : length (ikeys mn mx) = Z.to_nat (mx - mn + 1)) by (unfold ikeys; rewrite map_length, seq_length; reflexivity).
  assert (Hk' : nth_error (fkeys u o false (KIv NInf (nz mn) true false) (ikeys mn mx) (KIv (nz mx) PInf false true)) i = Some k).
  { unfold fkeys. rewrite app_nil_r. exact Hk. }
  apply fkeys_inv in Hk'. destruct Hk' as [(-> & -> & ->)|[(j & -> & Hj)|[(-> & -> & ->)|(? & _)]]]; [| | |discriminate].
  - left. split; auto. split; auto. destruct Hc as (_ & [Hc|(Hc & _)]); [auto|discriminate].
  - right; left. unfold ikeys in Hj. assert (Hjl : j < Z.to_nat (mx - mn + 1)) by (rewrite <- Hl; unfold ikeys; apply nth_error_Some; congruence).
    rewrite nth_error_map, (nth_error_nth' _ 0) in Hj by (rewrite seq_length; auto). rewrite seq_nth in Hj by auto. cbn in Hj. inversion Hj; subst k.
    exists (mn + Z.of_nat j)%Z. split; [lia|]. split; [exact Hc|]. destruct u; cbn; lia.
  - right; right. split; auto. split; [rewrite Hl; destruct u; cbn; lia|]. destruct Hc as ([Hc|(Hc & _)] & _); [auto|discriminate].
Qed.
Lemma nz_lt a b : nltb (nz a) (nz b) = (a <? b)%Z.
Proof. apply nltb_nz. Qed.
Lemma nz_le a b : nleb (nz a) (nz b) = (a <=? b)%Z.
Proof. rewrite nleb_nltb by reflexivity. rewrite nz_lt. destruct (Z.ltb_spec b a), (Z.leb_spec a b); cbn; auto; lia. Qed.
Lemma nlt_nz_trans x a b : nltb x (nz a) = true -> (a <= b)%Z -> nltb x (nz b) = true.
Proof. intros H1 H2. eapply nltb_nleb_trans; [exact H1|]. rewrite nz_le. apply Z.leb_le. auto. Qed.
Lemma nz_nlt_trans x a b : nltb (nz b) x = true -> (a <= b)%Z -> nltb (nz a) x = true.
Proof.
  intros H1 H2. destruct (Z.eq_dec a b) as [->|]; auto. eapply nltb_trans; [|exact H1]. rewrite nz_lt. apply Z.ltb_lt. lia.
Qed.
Lemma keys_intbin_length mn mx u o : (mn <= mx)%Z -> length (keys_intbin mn mx u o) = Z.to_nat (mx - mn + 1) + b2n u + b2n o.
Proof. intros H. unfold keys_intbin. rewrite !app_length, map_length, seq_length. destruct u, o; cbn; lia. Qed.
Lemma int_lower_keys mn mx u o z : (mn <= z <= mx)%Z ->
  keys_intbin mn z u false = firstn (Z.to_nat (z - mn + 1) + b2n u) (keys_intbin mn mx u o).
Proof.
  intros H. unfold keys_intbin. rewrite app_nil_r.
  assert (G : forall X, firstn (Z.to_nat (z - mn + 1)) (map (fun i => KInt (mn + Z.of_nat i)) (seq 0 (Z.to_nat (mx - mn + 1))) ++ X) = map (fun i => KInt (mn + Z.of_nat i)) (seq 0 (Z.to_nat (z - mn + 1)))).
  { intros X. rewrite firstn_app, map_length, seq_length. replace (Z.to_nat (z - mn + 1) - Z.to_nat (mx - mn + 1)) with 0 by lia. cbn [firstn].
    rewrite app_nil_r, firstn_map. f_equal. apply firstn_seq. lia. }
  destruct u.
  - replace (Z.to_nat (z - mn + 1) + b2n true) with (S (Z.to_nat (z - mn + 1))) by (cbn; lia). cbn [app firstn]. rewrite G. reflexivity.
  - replace (Z.to_nat (z - mn + 1) + b2n false) with (Z.to_nat (z - mn + 1)) by (cbn; lia). cbn [app]. rewrite G. reflexivity.
Qed.
Lemma int_upper_keys mn mx u o z : (mn <= z <= mx)%Z ->
  keys_intbin z mx false o = skipn (Z.to_nat (z - mn) + b2n u) (keys_intbin mn mx u o).
Proof.
  intros H. unfold keys_intbin.
  assert (G : forall X, skipn (Z.to_nat (z - mn)) (map (fun i => KInt (mn + Z.of_nat i)) (seq 0 (Z.to_nat (mx - mn + 1))) ++ X) = map (fun i => KInt (z + Z.of_nat i)) (seq 0 (Z.to_nat (mx - z + 1))) ++ X).
  { intros X. rewrite skipn_app, map_length, seq_length. replace (Z.to_nat (z - mn) - Z.to_nat (mx - mn + 1)) with 0 by lia. cbn [skipn]. f_equal.
    rewrite skipn_map, skipn_seq by lia. cbn [Nat.add]. replace (Z.to_nat (mx - mn + 1) - Z.to_nat (z - mn)) with (Z.to_nat (mx - z + 1)) by lia.
    assert (Ez : z = (mn + Z.of_nat (Z.to_nat (z - mn)))%Z) by lia. set (N := Z.to_nat (mx - z + 1)). set (J := Z.to_nat (z - mn)) in *. rewrite Ez. clearbody N J. clear.
    revert J. induction N as [|N IH]; intros J; auto. cbn [seq map]. f_equal; [f_equal; lia|]. rewrite IH. rewrite <- seq_shift, map_map. apply map_ext. intros i. f_equal. lia. }
  destruct u.
  - replace (Z.to_nat (z - mn) + b2n true) with (S (Z.to_nat (z - mn))) by (cbn; lia). cbn [app skipn]. rewrite G. reflexivity.
  - replace (Z.to_nat (z - mn) + b2n false) with (Z.to_nat (z - mn)) by (cbn; lia). cbn [app]. rewrite G. reflexivity.
Qed.
Lemma int_lower mn mx u o z : (mn <= z <= mx)%Z ->
  keeps_inside (fun x => nleb x (nz z) = true) (keys_intbin mn mx u o) (Slice None (Some (z - mn + b2z u + 1)%Z)) (keys_intbin mn z u false).
Proof.
  intros H. assert (Hl := keys_intbin_length mn mx u o ltac:(lia)). assert (B : b2z u = Z.of_nat (b2n u)) by (destruct u; reflexivity). split.
  - unfold slice_list, slice_len, slice_lo, slice_hi. rewrite clip_nat by (rewrite Hl; lia). cbn [skipn]. rewrite (int_lower_keys mn mx u o z H). f_equal. lia.
  - intros i k x Hk Hx. unfold in_slice, slice_lo, slice_hi. rewrite clip_nat by (rewrite Hl; lia).
    destruct (intbin_keys mn mx u o i k x Hk Hx ltac:(lia)) as [(-> & -> & Hi)|[(y & Hy & -> & Hi)|(-> & Hi & Hi')]].
    + split; [intros _|cbn; lia]. apply nltb_nleb. apply nlt_nz_trans with mn; auto. lia.
    + rewrite nz_le, Z.leb_le. lia.
    + split; [lia|]. intros E. exfalso. assert (nltb (nz mx) (nz z) = true) by (eapply nltb_nleb_trans; eauto). rewrite nz_lt in H0. apply Z.ltb_lt in H0. lia.
Qed.
Lemma int_upper mn mx u o z : (mn <= z <= mx)%Z ->
  keeps_inside (fun x => nleb (nz z) x = true) (keys_intbin mn mx u o) (Slice (Some (z - mn + b2z u)%Z) None) (keys_intbin z mx false o).
Proof.
  intros H. assert (Hl := keys_intbin_length mn mx u o ltac:(lia)). assert (B : b2z u = Z.of_nat (b2n u)) by (destruct u; reflexivity). split.
  - unfold slice_list, slice_len, slice_lo, slice_hi. rewrite clip_nat by (rewrite Hl; lia). rewrite (int_upper_keys mn mx u o z H).
    replace (Z.to_nat (z - mn + b2z u)) with (Z.to_nat (z - mn) + b2n u) by lia. symmetry. apply firstn_all2. rewrite skipn_length. lia.
  - intros i k x Hk Hx. assert (Hil : i < length (keys_intbin mn mx u o)) by (apply nth_error_Some; congruence).
    unfold in_slice, slice_lo, slice_hi. rewrite clip_nat by (rewrite Hl; lia).
    destruct (intbin_keys mn mx u o i k x Hk Hx ltac:(lia)) as [(-> & -> & Hi)|[(y & Hy & -> & Hi)|(-> & Hi & Hi')]].
    + split; [cbn; lia|]. intros E. exfalso. assert (nltb x (nz z) = true) by (eapply nlt_nz_trans; eauto; lia).
      rewrite nleb_nltb in E; [|reflexivity|destruct x; cbn in *; congruence]. rewrite H0 in E. discriminate.
    + rewrite nz_le, Z.leb_le. lia.
    + split; [intros _|lia]. apply nltb_nleb. apply nz_nlt_trans with mx; auto. lia.
Qed.
(** Next to an integer threshold there is no value of the axis but the integers. *)
Lemma int_strict_lower mn mx u o i k x z : nth_error (keys_intbin mn mx u o) i = Some k -> contains k x -> (mn < z <= mx)%Z ->
  (nltb x (nz z) = true <-> nleb x (nz (z - 1)) = true).
Proof.
  intros Hk Hc Hz. destruct (intbin_keys mn mx u o i k x Hk Hc ltac:(lia)) as [(-> & -> & Hi)|[(y & Hy & -> & Hi)|(-> & Hi & Hi')]].
  - split; intros _; [apply nltb_nleb|]; eapply nlt_nz_trans; eauto; lia.
  - rewrite nz_lt, nz_le, Z.ltb_lt, Z.leb_le. lia.
  - assert (F : nltb x (nz z) = false) by (apply nltb_asym; eapply nz_nlt_trans; eauto; lia). rewrite F. split; [discriminate|]. intros E. exfalso.
    assert (nltb (nz mx) (nz (z - 1)) = true) by (eapply nltb_nleb_trans; eauto). rewrite nz_lt in H. apply Z.ltb_lt in H. lia.
Qed.
Lemma int_strict_upper mn mx u o i k x z : nth_error (keys_intbin mn mx u o) i = Some k -> contains k x -> (mn <= z < mx)%Z ->
  (nltb (nz z) x = true <-> nleb (nz (z + 1)) x = true).
Proof.
  intros Hk Hc Hz. destruct (intbin_keys mn mx u o i k x Hk Hc ltac:(lia)) as [(-> & -> & Hi)|[(y & Hy & -> & Hi)|(-> & Hi & Hi')]].
  - assert (F : nltb (nz z) x = false) by (apply nltb_asym; eapply nlt_nz_trans; eauto; lia). rewrite F. split; [discriminate|]. intros E. exfalso.
    rewrite nleb_nltb in E; [|reflexivity|destruct x; cbn in *; congruence]. rewrite (nlt_nz_trans x mn (z + 1) Hi) in E by lia. discriminate.
  - rewrite nz_lt, nz_le, Z.ltb_lt, Z.leb_le. lia.
  - split; intros _; [apply nltb_nleb|]; eapply nz_nlt_trans; eauto; lia.
Qed.
Lemma keeps_inside_iff (P Q : Num -> Prop) ks s ks' : (forall i k x, nth_error ks i = Some k -> contains k x -> (P x <-> Q x)) ->
  keeps_inside P ks s ks' -> keeps_inside Q ks s ks'.
Proof. intros H (H1 & H2). split; auto. intros i k x Hk Hx. rewrite (H2 i k x Hk Hx). eauto. Qed.
Lemma int_checked_ok e mn mx u o s r : int_checked e mn mx u o s = Ok r -> r = Selected (AIntbin e mn mx u o) (CutSlice s) /\ (mn <= mx)%Z.
Proof. unfold int_checked. destruct (Z.ltb_spec mx mn); intros H'; inversion H'; auto. Qed.
Lemma intbin_select_ok e mn mx u o c v x tol a' s : (mn <= mx)%Z -> nleb tol (Fin (qfrac 1 2)) = true -> as_real v = Some x -> x <> NaN ->
  intbin_select e mn mx u o c v tol = Ok (Selected a' s) ->
  exists y t, s = CutSlice t /\ stands_for (AIntbin e mn mx u o) tol x y /\
    (aligned (AIntbin e mn mx u o) c \/ (x = NInf /\ c = SGe) \/ (x = PInf /\ c = SLe)) /\ totbins a' <> 0 /\ axis_expr a' = e /\
    is_fixed a' = true /\ a' <> ANull /\ keeps_inside (fun z => satisfies c y z = true) (keys_intbin mn mx u o) t (keys a').
Proof.
  intros Hm Ht Hv Hx. unfold intbin_select. rewrite Hv.
  destruct (is_ninf x && (scmp_is c SGe || scmp_is c SGt) || is_pinf x && (scmp_is c SLe || scmp_is c SLt)); [discriminate|].
  destruct (nltb (nadd x tol) (nz mn)) eqn:E1; [discriminate|]. destruct (nltb (nz mx) (nsub x tol)) eqn:E2; [discriminate|].
  intros H. apply bind_ok in H. destruct H as (r & Hr & H). destruct (nltb (absdiff x (nz r)) tol) eqn:E3; [|discriminate].
  assert (Hrm : (mn <= r <= mx)%Z).
  { destruct x as [q| | |]; try discriminate. destruct tol as [t| | |]; try discriminate.
    apply absdiff_fin in E3. change (nadd (Fin q) (Fin t)) with (Fin (q + t)%Qc) in E1. change (nsub (Fin q) (Fin t)) with (Fin (q - t)%Qc) in E2.
    unfold nz in *. cbn [nltb] in E1, E2. apply qltb_false in E1. apply qltb_false in E2. apply nleb_iff in Ht.
    assert (Ht' : (this t <= 1 # 2)%Q).
    { destruct Ht as [Ht|(Ht & _)]; [cbn [nltb] in Ht; apply qltb_iff in Ht; rewrite this_qfrac in Ht; lra|inversion Ht; rewrite this_qfrac; lra]. }
    revert E1 E2 E3. qc_push. intros E1 E2 (E3 & E4).
    split; apply Z.lt_succ_r; rewrite Zlt_Qlt; [replace (Z.succ r) with (r + 1)%Z by lia|replace (Z.succ mx) with (mx + 1)%Z by lia]; rewrite inject_Z_plus; change (inject_Z 1) with 1%Q; lra. }
  assert (St : stands_for (AIntbin e mn mx u o) tol x (nz r)) by (left; split; auto; exists r; auto).
  exists (nz r). destruct c; try discriminate; apply int_checked_ok in H; destruct H as (H & Hr'); inversion H; subst a' s; eexists; (split; [reflexivity|]);
    (split; [exact St|]); (split; [left; exact I|]); (split; [cbn [totbins]; lia|]); (split; [reflexivity|]); (split; [reflexivity|]); (split; [discriminate|]); cbn [keys satisfies].
  - eapply keeps_inside_iff; [|apply int_lower; lia]. intros i k z Hk Hz. symmetry. eapply int_strict_lower; eauto. lia.
  - apply int_lower. lia.
  - eapply keeps_inside_iff; [|apply int_upper; lia]. intros i k z Hk Hz. symmetry. eapply int_strict_upper; eauto. lia.
  - apply int_upper. lia.
Qed.
