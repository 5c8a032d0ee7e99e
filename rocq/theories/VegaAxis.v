(** The bins of the axis that is plotted *)
From Coq Require Import String Sorted Lia Lqa.
From Verif Require Import Base Num NumFacts Axis AxisSpec AxisProofs AxisProofs2 AxisMain Calc Content Fill FillSpec Tree Order Expr InstrSpec Elem HistFill HistSpec KeySpec HistAlg AlgSpec
  Nd Proj ProjSpec Select Table TableSpec Pandas PandasSpec PandasProofs Vega VegaSpec VegaProofs.
Local Open Scope list_scope.
Local Open Scope nat_scope.

Lemma fine_listed a : axis_fine a -> is_fixed a = true -> listed a.
Proof.
  intros Ha Hf. assert (Hn : a <> ANull).
  { destruct Ha as [e|e w org nf cl ax M|e n l hh u o nf cl ax M Hn Hb|e mn mx u o ax M|e raw u o nf cl ax Hr M|e]; try discriminate.
    - unfold mk_groupbin in M. destruct (nleb _ _); [discriminate|]. injection M as <-. discriminate.
    - apply mk_bin_ok in M. destruct M as (-> & _). discriminate.
    - apply mk_intbin_ok in M. destruct M as (-> & _). discriminate.
    - apply mk_split_ok in M. destruct M as (-> & _). discriminate. }
  split; auto. split; auto. destruct a; try discriminate; try congruence; try (apply keys_length_totbins; [reflexivity|discriminate]).
  cbn [as_bin]. rewrite keys_length_totbins by (try reflexivity; discriminate). cbn [totbins b2n]. lia.
Qed.

Definition key_ends (k : key) : option (Num * Num) :=
  match k with
  | KIv lo hi _ _ => if isfin lo && isfin hi then Some (lo, hi) else None
  | KInt z => Some (nsub (nz z) half, nadd (nz z) half)
  | _ => None
  end.
Definition as_key (k' k : key) : Prop := key_ends k' = key_ends k /\ (forall z, k' <> KInt z) /\ forall z, contains k' (nz z) <-> contains k (nz z).
Lemma nltb_nz x y : nltb (nz x) (nz y) = true <-> (x < y)%Z.
Proof. cbn. rewrite qltb_iff, !this_qz, <- Zlt_Qlt. reflexivity. Qed.

Lemma half_below x y : nltb (nz x) (nsub (nz y) half) = true <-> (x < y)%Z.
Proof.
  cbn. rewrite qltb_iff. qc_push. unfold Qminus. split; intros H.
  - assert (X : (inject_Z x < inject_Z y)%Q) by lra. rewrite <- Zlt_Qlt in X. auto.
  - assert (X : (inject_Z x + 1 <= inject_Z y)%Q) by (change 1%Q with (inject_Z 1); rewrite <- inject_Z_plus, <- Zle_Qle; lia). lra.
Qed.
Lemma half_above x y : nltb (nadd (nz y) half) (nz x) = true <-> (y < x)%Z.
Proof.
  cbn. rewrite qltb_iff. qc_push. split; intros H.
  - assert (X : (inject_Z y < inject_Z x)%Q) by lra. rewrite <- Zlt_Qlt in X. auto.
  - assert (X : (inject_Z y + 1 <= inject_Z x)%Q) by (change 1%Q with (inject_Z 1); rewrite <- inject_Z_plus, <- Zle_Qle; lia). lra.
Qed.
Lemma half_above' x y : nltb (nsub (nz y) half) (nz x) = true <-> (y <= x)%Z.
Proof.
  cbn. rewrite qltb_iff. qc_push. unfold Qminus. split; intros H.
  - assert (X : (inject_Z y < inject_Z x + 1)%Q) by lra. change 1%Q with (inject_Z 1) in X. rewrite <- inject_Z_plus, <- Zlt_Qlt in X. lia.
  - assert (X : (inject_Z y <= inject_Z x)%Q) by (rewrite <- Zle_Qle; lia). lra.
Qed.
Lemma half_below' x y : nltb (nz x) (nadd (nz y) half) = true <-> (x <= y)%Z.
Proof.
  cbn. rewrite qltb_iff. qc_push. split; intros H.
  - assert (X : (inject_Z x < inject_Z y + 1)%Q) by lra. change 1%Q with (inject_Z 1) in X. rewrite <- inject_Z_plus, <- Zlt_Qlt in X. lia.
  - assert (X : (inject_Z x <= inject_Z y)%Q) by (rewrite <- Zle_Qle; lia). lra.
Qed.
Lemma half_not x y : nz x <> nsub (nz y) half.
Proof.
  intros E. destruct (Z.lt_ge_cases x y) as [H|H].
  - apply half_below in H. rewrite E, nltb_irrefl in H. discriminate.
  - apply half_above' in H. rewrite E, nltb_irrefl in H. discriminate.
Qed.
Lemma half_not' x y : nz x <> nadd (nz y) half.
Proof.
  intros E. destruct (Z.lt_ge_cases y x) as [H|H].
  - apply half_above in H. rewrite E, nltb_irrefl in H. discriminate.
  - apply half_below' in H. rewrite E, nltb_irrefl in H. discriminate.
Qed.
(** The bins of intbin.bin() *)
Lemma intbin_edge mn mx i : (mn <= mx)%Z -> i2x (Z.to_nat (mx - mn + 1)) (nsub (nz mn) half) (nadd (nz mx) half) i = nsub (nz (mn + Z.of_nat i)) half.
Proof.
  intros H. unfold i2x, nnat, nz, half. cbn [nsub nadd nneg]. unfold nsub, ndiv. cbn [nadd nneg].
  assert (Hn : qeqb (qz (Z.of_nat (Z.to_nat (mx - mn + 1)))) qc0 = false).
  { apply qeqb_false. intros X. apply qz_inj in X. lia. }
  rewrite Hn. cbn [nmul nadd]. f_equal. apply Qc_ext. qc_push. rewrite Z2Nat.id by lia.
  assert (P : (inject_Z (mx - mn + 1) > 0)%Q) by (change 0%Q with (inject_Z 0); rewrite <- Zlt_Qlt; lia).
  assert (E : (inject_Z (mx - mn + 1) == inject_Z mx - inject_Z mn + 1)%Q) by (rewrite inject_Z_plus; unfold Zminus; rewrite inject_Z_plus, inject_Z_opp; reflexivity).
  assert (X : (inject_Z mx + (1 # 2) + - (inject_Z mn + - (1 # 2)) == inject_Z (mx - mn + 1))%Q) by lra.
  rewrite X. assert (Y : (inject_Z (Z.of_nat i) / inject_Z (mx - mn + 1) * inject_Z (mx - mn + 1) == inject_Z (Z.of_nat i))%Q) by (field; lra).
  rewrite Y, inject_Z_plus. lra.
Qed.
Lemma intbin_edge' mn mx i : (mn <= mx)%Z -> i2x (Z.to_nat (mx - mn + 1)) (nsub (nz mn) half) (nadd (nz mx) half) (i + 1) = nadd (nz (mn + Z.of_nat i)) half.
Proof.
  intros H. rewrite intbin_edge by auto. cbn. f_equal. apply Qc_ext. qc_push. rewrite Nat2Z.inj_add, !inject_Z_plus. change (inject_Z (Z.of_nat 1)) with 1%Q. lra.
Qed.

Lemma F2_map {A B C} (R : B -> C -> Prop) (f : A -> B) (g : A -> C) l : (forall x, In x l -> R (f x) (g x)) -> Forall2 R (map f l) (map g l).
Proof. induction l as [|x l IH]; intros H; cbn [map]; constructor; auto. - apply H. left; auto. - apply IH. intros; apply H. right; auto. Qed.
Lemma intbin_keys e mn mx u o : (mn <= mx)%Z -> Forall2 as_key (keys (as_bin (AIntbin e mn mx u o))) (keys (AIntbin e mn mx u o)).
Proof.
  intros H. cbn [as_bin keys]. unfold keys_bin, keys_intbin. rewrite app_nil_r. apply Forall2_app; [|apply Forall2_app].
  - destruct u; constructor; [|constructor]. split; [reflexivity|]. split; [discriminate|]. intros z. cbn [contains negb]. unfold in_interval.
    rewrite half_below, nltb_nz. split; intros (H1 & [H2|(X & _)]); try discriminate; split; auto.
  - apply F2_map. intros i Hi. rewrite intbin_edge, intbin_edge' by auto. split; [reflexivity|]. split; [discriminate|]. intros z. cbn [contains negb]. unfold in_interval.
    rewrite half_above', half_below'. split.
    + intros ([H1|(_ & X & _)] & [H2|(X' & _)]); try discriminate; [|exfalso; exact (half_not _ _ X)]. replace z with (mn + Z.of_nat i)%Z by lia. reflexivity.
    + intros E. assert (E1 : qz z = qz (mn + Z.of_nat i)) by (change (match nz z with Fin q => q | _ => qc0 end = qz (mn + Z.of_nat i)); rewrite E; reflexivity). apply qz_inj in E1. split; left; lia.
  - destruct o; constructor; [|constructor]. split; [reflexivity|]. split; [discriminate|]. intros z. cbn [contains negb]. unfold in_interval.
    rewrite half_above, nltb_nz. split; intros ([H1|(X & Y & _)] & H2); try discriminate; try (split; auto; fail). exfalso. exact (half_not' _ _ Y).
Qed.

Lemma Forall2_nth_error {A B} (R : A -> B -> Prop) l m : Forall2 R l m -> forall i, match nth_error l i, nth_error m i with Some x, Some y => R x y | None, None => True | _, _ => False end.
Proof. induction 1; intros [|i]; cbn; auto. apply IHForall2. Qed.
Lemma nth_of_error {A} (l : list A) i d : nth i l d = match nth_error l i with Some x => x | None => d end.
Proof. revert i. induction l as [|x l IH]; intros [|i]; cbn; auto. Qed.
Lemma iends_eq a s : axis_fine a -> is_number_axis a = true -> iends a s = bin_ends a s.
Proof.
  intros Ha Hn. unfold iends, bin_ends, dk. rewrite nth_of_error.
  assert (G : forall k, match k with KIv lo hi _ _ => if isfin lo && isfin hi then Some (lo, hi) else None | _ => None end = key_ends k \/ exists z, k = KInt z) by (intros []; eauto).
  destruct Ha as [e|e w org nf cl ax M|e n l hh u o nf cl ax M Hn' Hb|e mn mx u o ax M|e raw u o nf cl ax Hr M|e]; try discriminate.
  - unfold mk_groupbin in M. destruct (nleb _ _); [discriminate|]. injection M as <-. discriminate.
  - apply mk_bin_ok in M. destruct M as (-> & _). cbn [as_bin]. destruct (nth_error _ s) as [k|] eqn:E; auto. destruct k; auto. exfalso. apply nth_error_In in E. cbn [keys] in E. unfold keys_bin in E. rewrite !in_app_iff, in_map_iff in E.
    destruct E as [E|[(x & E & _)|[E|E]]]; try discriminate; repeat (match type of E with context [if ?b then _ else _] => destruct b end; try contradiction); destruct E as [E|[]]; discriminate.
  - apply mk_intbin_ok in M. destruct M as (-> & Hm). pose proof (Forall2_nth_error _ _ _ (intbin_keys e mn mx u o Hm) s) as R.
    destruct (nth_error (keys (as_bin _)) s) as [k'|], (nth_error (keys (AIntbin _ _ _ _ _)) s) as [k|]; try contradiction; auto.
    destruct R as (R1 & R2 & _). destruct (G k') as [->|(z & ->)]; [|exfalso; exact (R2 z eq_refl)]. rewrite R1. destruct k; reflexivity.
  - apply mk_split_ok in M. destruct M as (-> & _). cbn [as_bin]. destruct (nth_error _ s) as [k|] eqn:E; auto. destruct k; auto. exfalso. apply nth_error_In in E. cbn [keys] in E. unfold keys_split in E. rewrite !in_app_iff, in_map_iff in E.
    destruct E as [E|[(x & E & _)|[E|E]]]; try discriminate; repeat (match type of E with context [if ?b then _ else _] => destruct b end; try contradiction); destruct E as [E|[]]; discriminate.
Qed.
Lemma ends_low a : is_number_axis a = true -> axis_low (as_bin a) = fst (axis_ends a).
Proof. destruct a; try discriminate; reflexivity. Qed.
Lemma ends_high a : is_number_axis a = true -> axis_high (as_bin a) = snd (axis_ends a).
Proof. destruct a; try discriminate; reflexivity. Qed.

(** Labels *)
Lemma names_bin_ok a s : axis_fine a -> is_fixed a = true -> s < totbins a -> names_bin a s (text_of (dk a s)).
Proof.
  intros Ha Hf Hs. destruct (fine_listed a Ha Hf) as (_ & Hn & Hl). unfold dk. rewrite nth_of_error.
  destruct (nth_error (keys (as_bin a)) s) as [k|] eqn:E; [|apply nth_error_None in E; lia].
  destruct Ha as [e|e w org nf cl ax M|e n l hh u o nf cl ax M Hn' Hb|e mn mx u o ax M|e raw u o nf cl ax Hr M|e]; try discriminate.
  - unfold mk_groupbin in M. destruct (nleb _ _); [discriminate|]. injection M as <-. discriminate.
  - apply mk_bin_ok in M. destruct M as (-> & _). cbn [as_bin] in E. cbn [names_bin]. exists k. split; auto. destruct k; auto. exfalso. apply nth_error_In in E. cbn [keys] in E. unfold keys_bin in E. rewrite !in_app_iff, in_map_iff in E.
    destruct E as [E|[(x & E & _)|[E|E]]]; try discriminate; repeat (match type of E with context [if ?b then _ else _] => destruct b end; try contradiction); destruct E as [E|[]]; discriminate.
  - apply mk_intbin_ok in M. destruct M as (-> & Hm). pose proof (Forall2_nth_error _ _ _ (intbin_keys e mn mx u o Hm) s) as R. rewrite E in R. cbn [names_bin].
    destruct (nth_error (keys (AIntbin _ _ _ _ _)) s) as [k2|]; [|contradiction]. destruct R as (_ & R2 & R3). exists k2, k. split; auto.
    apply nth_error_In in E. cbn [as_bin keys] in E. unfold keys_bin in E. rewrite !in_app_iff, in_map_iff in E.
    destruct E as [E|[(x & <- & _)|[E|E]]]; auto; try contradiction; repeat (match type of E with context [if ?b then _ else _] => destruct b end; try contradiction); destruct E as [<-|[]]; reflexivity.
  - apply mk_split_ok in M. destruct M as (-> & _). cbn [as_bin] in E. cbn [names_bin]. exists k. split; auto. destruct k; auto. exfalso. apply nth_error_In in E. cbn [keys] in E. unfold keys_split in E. rewrite !in_app_iff, in_map_iff in E.
    destruct E as [E|[(x & E & _)|[E|E]]]; try discriminate; repeat (match type of E with context [if ?b then _ else _] => destruct b end; try contradiction); destruct E as [E|[]]; discriminate.
  - cbn [as_bin keys] in *. cbn [names_bin keys]. rewrite E. unfold keys_cut in E. destruct s as [|[|s]]; cbn in E; [| |destruct s; discriminate]; injection E as <-; eexists; split; reflexivity.
Qed.

(** ** The edges *)
Lemma middle_nth {A} (u : bool) (x : A) (mid : list A) rest s k : nth_error ((if u then [x] else []) ++ mid ++ rest) s = Some k ->
  k = x \/ (exists i, s = b2n u + i /\ i < length mid /\ nth_error mid i = Some k) \/ In k rest.
Proof.
  intros E. assert (H : (u = true /\ s = 0 /\ k = x) \/ exists s', s = b2n u + s' /\ nth_error (mid ++ rest) s' = Some k).
  { destruct u; cbn [app] in E; [destruct s as [|s]; cbn [nth_error] in E; [left; injection E as <-; auto|right; exists s; auto]|right; exists s; auto]. }
  destruct H as [(_ & _ & H)|(s' & -> & H)]; auto. right. destruct (Nat.lt_ge_cases s' (length mid)) as [Hl|Hl].
  - left. exists s'. rewrite nth_error_app1 in H by auto. auto.
  - right. rewrite nth_error_app2 in H by auto. apply nth_error_In in H. auto.
Qed.
Lemma sorted_nth_lt es : strictly_sorted es -> forall i j, i < j -> j < length es -> nltb (nth i es NaN) (nth j es NaN) = true.
Proof.
  induction 1 as [|x l Hl IH Hf]; intros i j Hij Hj; [cbn in Hj; lia|]. destruct j as [|j]; [lia|]. cbn [length] in Hj. destruct i as [|i]; cbn [nth].
  - rewrite Forall_forall in Hf. apply Hf. apply nth_In. lia.
  - apply IH; lia.
Qed.
Lemma last_nth {A} (l : list A) d : last l d = nth (length l - 1) l d.
Proof. induction l as [|x l IH]; auto. destruct l as [|y t]; auto. change (last (x :: y :: t) d) with (last (y :: t) d). rewrite IH. cbn [length]. replace (S (S (length t)) - 1) with (S (S (length t) - 1)) by lia. reflexivity. Qed.
Lemma edges_ok a : axis_fine a -> is_number_axis a = true -> exists u n (e : nat -> Num),
  (forall s lo hi, bin_ends a s = Some (lo, hi) -> exists i, i < n /\ s = u + i /\ lo = e i /\ hi = e (S i)) /\
  (forall i j, i < j -> j <= n -> nltb (e i) (e j) = true) /\ axis_ends a = (e 0, e n).
Proof.
  intros Ha Hn.
  destruct Ha as [e|e w org nf cl ax M|e n l hh u o nf cl ax M Hn' Hb|e mn mx u o ax M|e raw u o nf cl ax Hr M|e]; try discriminate.
  - unfold mk_groupbin in M. destruct (nleb _ _); [discriminate|]. injection M as <-. discriminate.
  - apply mk_bin_ok in M. destruct M as (-> & _ & Hlt & _). specialize (Hlt Hn').
    assert (Hlh : (this l < this hh)%Q). { apply Qnot_le_lt. intros X. rewrite <- Bool.not_true_iff_false in Hlt. apply Hlt. apply nleb_iff. cbn. destruct (Qle_lt_or_eq _ _ X) as [Y|Y]; [left; apply qltb_iff; auto|right; split; auto; f_equal; apply Qc_ext; auto]. }
    exists (b2n u), n, (fun i => i2x n (Fin l) (Fin hh) i). split; [|split].
    + intros s lo hi E. unfold bin_ends in E. destruct (nth_error _ s) as [k|] eqn:Ek; [|discriminate]. cbn [keys] in Ek. unfold keys_bin in Ek. apply middle_nth in Ek.
      destruct Ek as [->|[(i & -> & Hi & Ek)|Ek]].
      * discriminate.
      * rewrite map_length, seq_length in Hi. exists i. split; auto. split; auto. rewrite nth_error_map, (nth_error_nth' _ 0), seq_nth in Ek by (rewrite ?seq_length; auto). cbn [option_map plus] in Ek. injection Ek as <-.
        destruct (_ && _); [|discriminate]. injection E as <- <-. split; auto. f_equal. lia.
      * rewrite in_app_iff in Ek. destruct Ek as [Ek|Ek]; [destruct o|destruct nf]; try contradiction; destruct Ek as [<-|[]]; cbn in E; discriminate.
    + intros i j Hij Hj. rewrite !i2x_edge by auto. cbn. apply qltb_iff. unfold edge. qc_push.
      assert (P : (0 < inject_Z (Z.of_nat n))%Q) by (change 0%Q with (inject_Z 0); rewrite <- Zlt_Qlt; lia).
      assert (Q : (inject_Z (Z.of_nat i) < inject_Z (Z.of_nat j))%Q) by (rewrite <- Zlt_Qlt; lia).
      apply Qplus_lt_l. apply Qmult_lt_compat_r; [lra|]. unfold Qdiv. apply Qmult_lt_compat_r; auto. apply Qinv_lt_0_compat. auto.
    + cbn [axis_ends]. rewrite !i2x_edge by auto. unfold edge.
      assert (P : (0 < inject_Z (Z.of_nat n))%Q) by (change 0%Q with (inject_Z 0); rewrite <- Zlt_Qlt; lia).
      f_equal; f_equal; apply Qc_ext; qc_push; field; lra.
  - apply mk_intbin_ok in M. destruct M as (-> & Hm). exists (b2n u), (Z.to_nat (mx - mn + 1)), (fun i => nsub (nz (mn + Z.of_nat i)) half). split; [|split].
    + intros s lo hi E. unfold bin_ends in E. destruct (nth_error _ s) as [k|] eqn:Ek; [|discriminate]. cbn [keys] in Ek. unfold keys_intbin in Ek. apply middle_nth in Ek.
      destruct Ek as [->|[(i & -> & Hi & Ek)|Ek]].
      * discriminate.
      * rewrite map_length, seq_length in Hi. exists i. split; auto. split; auto. rewrite nth_error_map, (nth_error_nth' _ 0), seq_nth in Ek by (rewrite ?seq_length; auto). cbn [option_map plus] in Ek. injection Ek as <-.
        injection E as <- <-. split; auto. rewrite Nat2Z.inj_succ. unfold Z.succ, nz, half, nsub. cbn [nadd nneg]. f_equal. apply Qc_ext. qc_push. rewrite !inject_Z_plus. change (inject_Z 1) with 1%Q. lra.
      * destruct o; try contradiction; destruct Ek as [<-|[]]; cbn in E; discriminate.
    + intros i j Hij Hj. cbn. apply qltb_iff. qc_push. assert (Q : (inject_Z (mn + Z.of_nat i) < inject_Z (mn + Z.of_nat j))%Q) by (rewrite <- Zlt_Qlt; lia). lra.
    + cbn [axis_ends]. rewrite Z2Nat.id by lia. replace (mn + Z.of_nat 0)%Z with mn by lia. f_equal. replace (mn + (mx - mn + 1))%Z with (mx + 1)%Z by lia. unfold nz, half, nsub. cbn [nadd nneg]. f_equal. apply Qc_ext. qc_push. rewrite !inject_Z_plus. change (inject_Z 1) with 1%Q. lra.
  - apply mk_split_ok in M as M0. destruct M0 as (-> & _). destruct (mk_split_edges _ _ _ _ _ _ _ Hr M) as (Hs & Hne & Hnn). set (es := sort_num raw) in *.
    exists (b2n u), (length es - 1), (fun i => nth i es NaN). split; [|split].
    + intros s lo hi E. unfold bin_ends in E. destruct (nth_error _ s) as [k|] eqn:Ek; [|discriminate]. cbn [keys] in Ek. unfold keys_split in Ek. apply middle_nth in Ek.
      destruct Ek as [->|[(i & -> & Hi & Ek)|Ek]].
      * discriminate.
      * rewrite map_length, pairs_of_length in Hi. exists i. split; auto. split; auto. rewrite nth_error_map in Ek. destruct (nth_error (pairs_of es) i) as [[x y]|] eqn:Ep; [|discriminate]. injection Ek as <-.
        apply pairs_of_nth in Ep. destruct Ep as (E1 & E2). cbn [fst snd] in E. destruct (_ && _); [|discriminate]. injection E as <- <-.
        split; symmetry; apply nth_error_nth; auto.
      * rewrite in_app_iff in Ek. destruct Ek as [Ek|Ek]; [destruct o|destruct nf]; try contradiction; destruct Ek as [<-|[]]; cbn [key_ends] in E; [|discriminate]. rewrite andb_false_r in E. discriminate.
    + intros i j Hij Hj. apply sorted_nth_lt; auto. destruct es; [congruence|]. cbn [length] in *. lia.
    + cbn [axis_ends]. rewrite last_nth. f_equal. destruct es; reflexivity.
Qed.
