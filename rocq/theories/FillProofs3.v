(** The flat index, and what a whole fill does. *)
From Coq Require Import String Permutation.
From Verif Require Import Base Num NumFacts Axis Calc Content Fill FillSpec AxisProofs2 FillProofs FillProofs2.

Lemma Forall2_length {A B} (R : A -> B -> Prop) l m : Forall2 R l m -> length l = length m.
Proof. induction 1; simpl; congruence. Qed.

Fixpoint flat_row_loop (acc : option Z) (ts : list nat) (ss : list (option Z)) : option Z :=
  match ts, ss with
  | t :: ts', s :: ss' => flat_row_loop (flat_elem t acc s) ts' ss'
  | _, _ => acc
  end.
Definition flat_row (tots : list nat) (ss : list (option Z)) : option Z :=
  match tots, ss with
  | _ :: ts, s :: ss' => flat_row_loop s ts ss'
  | _, _ => Some 0%Z
  end.

Definition prod (ts : list nat) : nat := fold_right Nat.mul 1 ts.
Lemma prod_pos ss ts : Forall2 lt ss ts -> 1 <= prod ts.
Proof. induction 1; simpl in *; nia. Qed.
Lemma ravel_lt ss ts : Forall2 lt ss ts -> ravel ts ss < prod ts.
Proof.
  induction 1 as [|s t ss ts Hs H IH]; simpl in *; [lia|]. fold (prod ts).
  pose proof (prod_pos _ _ H). nia.
Qed.
Lemma ravel_inj ss ss' ts : Forall2 lt ss ts -> Forall2 lt ss' ts -> ravel ts ss = ravel ts ss' -> ss = ss'.
Proof.
  intros H. revert ss'. induction H as [|s t ss ts Hs H IH]; intros ss' H' E; inversion H' as [|s' t' ss'' ts' Hs' H'']; subst; auto.
  simpl in E. fold (prod ts) in E.
  pose proof (ravel_lt _ _ H). pose proof (ravel_lt _ _ H'').
  assert (s = s') by nia. subst s'. f_equal. apply IH; auto. lia.
Qed.

Definition zslots (ss : list nat) : list (option Z) := map (fun s => Some (Z.of_nat s)) ss.

Lemma slots_cases ts rs : Forall2 slot_ok ts rs -> In None rs \/ exists ss, rs = zslots ss /\ Forall2 lt ss ts.
Proof.
  induction 1 as [|t o ts rs Ho H IH]; simpl.
  - right. exists []. split; auto.
  - destruct o as [z|]; [|left; auto]. destruct IH as [IH|[ss [-> IH]]]; [left; auto|].
    right. simpl in Ho. exists (Z.to_nat z :: ss). split; [simpl; rewrite Z2Nat.id by lia; auto|].
    constructor; auto. lia.
Qed.

Lemma flat_row_loop_none_acc ts rs : flat_row_loop None ts rs = None.
Proof. revert rs; induction ts; destruct rs; simpl; auto. Qed.
Lemma flat_row_loop_none ts : forall rs acc, length ts = length rs -> In None rs -> flat_row_loop acc ts rs = None.
Proof.
  induction ts as [|t ts IH]; intros [|r rs] acc HL Hi; simpl in *; try lia; try tauto.
  destruct Hi as [->|Hi]; [|apply IH; auto; lia].
  replace (flat_elem t acc None) with (@None Z) by (destruct acc; auto). apply flat_row_loop_none_acc.
Qed.
Lemma wrap32_small z : (0 <= z < 2 ^ 31)%Z -> wrap32 z = z.
Proof. intros H. apply wrap32_id. apply in_int32_iff. unfold int_min, int_max. lia. Qed.

Lemma flat_row_loop_some ss ts : Forall2 lt ss ts -> forall a A, a < A ->
  (Z.of_nat (A * prod ts) <= 2 ^ 31)%Z ->
  flat_row_loop (Some (Z.of_nat a)) ts (zslots ss) = Some (Z.of_nat (a * prod ts + ravel ts ss)).
Proof.
  induction 1 as [|s t ss ts Hs H IH]; intros a A Ha HA; simpl.
  - f_equal. lia.
  - simpl in HA. fold (prod ts) in HA.
    pose proof (prod_pos _ _ H).
    assert ((Z.of_nat (A * t) <= 2 ^ 31)%Z) by nia.
    assert (Hb : a * t + s < A * t) by nia.
    assert (E : wrap32 (wrap32 (Z.of_nat a * Z.of_nat t) + Z.of_nat s) = Z.of_nat (a * t + s)).
    { rewrite (wrap32_small (Z.of_nat a * Z.of_nat t)) by nia. rewrite wrap32_small by nia. lia. }
    rewrite E. rewrite (IH (a * t + s) (A * t)) by (auto; nia).
    fold (prod ts). f_equal. nia.
Qed.

Lemma flat_row_some ss ts : Forall2 lt ss ts -> (Z.of_nat (prod ts) <= 2 ^ 31)%Z ->
  flat_row ts (zslots ss) = Some (Z.of_nat (ravel ts ss)).
Proof.
  intros H HA. destruct H as [|s t ss ts Hs H]; simpl; auto.
  simpl in HA. fold (prod ts) in *.
  apply (flat_row_loop_some _ _ H s t Hs HA).
Qed.

Lemma slots_match_zslots ss ss' : slots_match ss (zslots ss') = true <-> ss = ss'.
Proof.
  revert ss'; induction ss as [|s ss IH]; intros [|s' ss']; simpl; try (split; congruence).
  rewrite andb_true_iff, IH, Z.eqb_eq. split; [intros [? ->]; f_equal; lia|].
  intros E; inversion E; auto.
Qed.
Lemma slots_match_none ss rs : In None rs -> slots_match ss rs = false.
Proof.
  revert rs; induction ss as [|s ss IH]; intros [|[z|] rs]; simpl; try tauto; intros [H|H]; try discriminate; auto.
  rewrite IH by auto. apply andb_false_r.
Qed.

Lemma hit_flat ts ss rs : Forall2 lt ss ts -> Forall2 slot_ok ts rs -> (Z.of_nat (prod ts) <= 2 ^ 31)%Z ->
  hit (ravel ts ss) (flat_row ts rs) = slots_match ss rs.
Proof.
  intros Hs Hr HP. destruct (slots_cases _ _ Hr) as [Hn|[ss' [-> Hs']]].
  - rewrite slots_match_none by auto.
    destruct Hr as [|t r ts rs Ht Hr]; [inversion Hn|]. cbn [flat_row].
    destruct Hn as [->|Hn]; [rewrite flat_row_loop_none_acc; auto|].
    rewrite flat_row_loop_none; auto. eapply Forall2_length; eauto.
  - rewrite flat_row_some by auto. cbn [hit].
    apply eq_true_iff_eq. rewrite slots_match_zslots, Z.eqb_eq. split.
    + intros E. eapply ravel_inj; eauto. lia.
    + intros ->; auto.
Qed.

Lemma flat_row_range ts rs z : Forall2 slot_ok ts rs -> (Z.of_nat (prod ts) <= 2 ^ 31)%Z ->
  flat_row ts rs = Some z -> (0 <= z < Z.of_nat (prod ts))%Z.
Proof.
  intros Hr HP. destruct (slots_cases _ _ Hr) as [Hn|[ss' [-> Hs']]].
  - destruct Hr as [|t r ts rs Ht Hr]; [inversion Hn|]. cbn [flat_row].
    destruct Hn as [->|Hn]; [rewrite flat_row_loop_none_acc; discriminate|].
    rewrite flat_row_loop_none; auto; [discriminate|]. eapply Forall2_length; eauto.
  - rewrite flat_row_some by auto. intros E; inversion E; subst.
    pose proof (ravel_lt _ _ Hs'). lia.
Qed.
Lemma flat_row_none ts rs : Forall2 slot_ok ts rs -> (Z.of_nat (prod ts) <= 2 ^ 31)%Z ->
  flat_row ts rs = None <-> In None rs.
Proof.
  intros Hr HP. split.
  - intros E. destruct (slots_cases _ _ Hr) as [Hn|[ss' [-> Hs']]]; auto.
    rewrite flat_row_some in E by auto. discriminate.
  - intros Hn. destruct Hr as [|t r ts rs Ht Hr]; [inversion Hn|]. cbn [flat_row].
    destruct Hn as [->|Hn]; [rewrite flat_row_loop_none_acc; auto|].
    apply flat_row_loop_none; auto. eapply Forall2_length; eauto.
Qed.

(** ** flat_indexes on whole columns *)
Lemma flat_loop_rows ts : forall j acc rows,
  (forall r, In r rows -> length (r_slots r) = j + length ts) ->
  flat_loop (map acc rows) (combine ts (map (fun j => Some (column r_slots None j rows)) (seq j (length ts)))) =
  Ok (map (fun r => flat_row_loop (acc r) ts (skipn j (r_slots r))) rows).
Proof.
  induction ts as [|t ts IH]; intros j acc rows HL; simpl.
  - f_equal.
  - unfold column at 1 2. rewrite !map_length, Nat.eqb_refl, map2_map.
    rewrite (IH (S j) (fun r => flat_elem t (acc r) (nth j (r_slots r) None))).
    + f_equal. apply map_ext_in. intros r Hr. specialize (HL r Hr). simpl in HL.
      destruct (skipn j (r_slots r)) as [|s rest] eqn:E.
      { exfalso. assert (length (skipn j (r_slots r)) = 0) by (rewrite E; auto). rewrite skipn_length in H. lia. }
      assert (nth j (r_slots r) None = s).
      { rewrite <- (firstn_skipn j (r_slots r)) at 1. rewrite E.
        rewrite app_nth2; rewrite firstn_length_le by lia; [|lia]. rewrite Nat.sub_diag. reflexivity. }
      assert (skipn (S j) (r_slots r) = rest).
      { replace (S j) with (1 + j) by lia. clear - E. revert E. generalize (r_slots r). induction j; intros l E; simpl in *.
        - rewrite E. reflexivity. - destruct l; [discriminate|]. simpl. apply IHj. auto. }
      rewrite H, H0. reflexivity.
    + intros r Hr. specialize (HL r Hr). simpl in HL. lia.
Qed.

Lemma flat_indexes_rows tots rows : (forall r, In r rows -> length (r_slots r) = length tots) ->
  flat_indexes (combine tots (map (fun j => Some (column r_slots None j rows)) (seq 0 (length tots)))) =
  Ok (match tots with [] => None | _ => Some (map (fun r => flat_row tots (r_slots r)) rows) end).
Proof.
  intros HL. destruct tots as [|t ts]; auto.
  assert (E : flat_loop (map (fun r => nth 0 (r_slots r) None) rows)
     (combine ts (map (fun j => Some (column r_slots None j rows)) (seq 1 (length ts)))) =
     Ok (map (fun r => flat_row (t :: ts) (r_slots r)) rows)).
  { rewrite (flat_loop_rows ts 1 (fun r => nth 0 (r_slots r) None)).
    - f_equal. apply map_ext_in. intros r Hr. specialize (HL r Hr). simpl in HL.
      destruct (r_slots r); simpl in *; [lia|reflexivity].
    - intros r Hr. rewrite (HL r Hr). reflexivity. }
  cbn [length seq map combine flat_indexes].
  destruct ts as [|t' ts].
  - cbn [length seq map combine] in *. simpl in E. inversion E as [E']. unfold column. rewrite E'. reflexivity.
  - cbn [length seq map combine] in *. unfold column at 1. rewrite E. reflexivity.
Qed.

(** ** The fill theorem *)
Lemma weights_rows (L : layout) ng m rows : weights (length rows) (d_weight (dest_of L ng m rows)) = ws_of m rows.
Proof.
  destruct m; cbn [dest_of d_weight weights ws_of zero_nan]; auto.
  - rewrite !nmul_1_l, !repeat_map. reflexivity.
  - rewrite map_map, map2_map. reflexivity.
Qed.

Lemma keys_match_kmatch ng r ks : length (r_keys r) = ng ->
  keys_match ks (r_keys r) = kmatch ks (map (fun j r => nth j (r_keys r) None) (seq 0 ng)) r.
Proof.
  intros H.
  assert (G : forall n j ks, length (r_keys r) = j + n ->
     keys_match ks (skipn j (r_keys r)) = kmatch ks (map (fun j r => nth j (r_keys r) None) (seq j n)) r).
  { clear. induction n as [|n IH]; intros j ks H; simpl.
    - rewrite skipn_all2 by lia. destruct ks; auto.
    - destruct (skipn j (r_keys r)) as [|s rest] eqn:E.
      { exfalso. assert (HH : length (skipn j (r_keys r)) = 0) by (rewrite E; auto). rewrite skipn_length in HH. lia. }
      assert (E1 : nth j (r_keys r) None = s).
      { rewrite <- (firstn_skipn j (r_keys r)) at 1. rewrite E.
        rewrite app_nth2; rewrite firstn_length_le by lia; [|lia]. rewrite Nat.sub_diag. reflexivity. }
      assert (E2 : skipn (S j) (r_keys r) = rest).
      { clear - E. revert E. generalize (r_keys r). induction j; intros l E; simpl in *.
        - rewrite E. reflexivity. - destruct l; [discriminate|]. simpl. apply IHj. auto. }
      destruct ks as [|k ks]; simpl; [reflexivity|]. rewrite E1. destruct s; simpl; auto.
      rewrite <- E2. rewrite <- IH by lia. reflexivity. }
  apply (G ng 0 ks). lia.
Qed.

Lemma prefill_ok L ng c : hist_ok L ng c -> content_ok L ng (prefill L ng c).
Proof.
  intros [->|H].
  - unfold prefill. destruct ng; simpl; [apply repeat_length|]. repeat split; constructor.
  - unfold prefill. destruct c; auto. destruct ng; inversion H.
Qed.
Lemma prefill_bv L ng c ks pos : bv (prefill L ng c) ks pos = bv c ks pos.
Proof.
  unfold prefill, bv. destruct c; auto. destruct ng, ks; simpl; auto. apply nth_repeat_zero.
Qed.

Lemma key_columns_ok L ng rows : Forall (row_ok L ng) rows ->
  Forall (kf_ok rows) (map (fun j r => nth j (r_keys r) None) (seq 0 ng)).
Proof.
  intros H. apply Forall_forall. intros kf Hkf. apply in_map_iff in Hkf. destruct Hkf as [j [<- Hj]].
  apply in_seq in Hj. intros r k Hr E. rewrite Forall_forall in H. destruct (H r Hr) as [H1 [H2 _]].
  apply H2. rewrite <- E. apply nth_In. lia.
Qed.

Theorem fill_rows_ok L ng m rows c :
  layout_ok L -> mode_ok L m -> Forall (row_ok L ng) rows -> hist_ok L ng c -> no_masked_profile L rows ->
  exists c', fill_rows L ng m rows c = (c', None) /\ content_ok L ng c' /\
    (forall ks ss kd, in_shape L ss -> has_column L kd ->
       cell L c' ks ss (column_of L kd) =
       nadd (cell L c ks ss (column_of L kd))
            (nsum (map (row_adds m kd) (filter (in_cell ks ss) rows)))) /\
    (forall ks, block c' ks <> None <-> block (prefill L ng c) ks <> None \/
       Forall2 (fun k j => exists r, In r rows /\ nth j (r_keys r) None = Some k) ks (seq 0 ng)).
Proof.
  intros HL Hm Hr Hc Hnm. unfold layout_ok in HL. change (l_rows L) with (prod (l_tots L)) in HL.
  assert (Hr' : forall r, In r rows -> row_ok L ng r) by (apply Forall_forall; auto).
  unfold fill_rows, postfill.
  assert (E : flat_indexes (combine (l_tots L) (d_fixed (dest_of L ng m rows))) =
    Ok (match l_tots L with [] => None | _ => Some (map (fun r => flat_row (l_tots L) (r_slots r)) rows) end)).
  { apply flat_indexes_rows. intros r H. destruct (Hr' r H) as [_ [_ [H1 _]]]. symmetry. eapply Forall2_length; eauto. }
  rewrite E. clear E. rewrite weights_rows.
  set (f := fun r => flat_row (l_tots L) (r_slots r)).
  set (kfs := map (fun j r => nth j (r_keys r) None) (seq 0 ng)).
  assert (Ek : d_group (dest_of L ng m rows) = map (fun kf => group_col (map kf rows)) kfs).
  { unfold kfs. rewrite map_map. reflexivity. }
  assert (Ep : d_prof (dest_of L ng m rows) = profs_of 0 (l_nprof L) (filter (fun _ => true) rows)).
  { unfold profs_of. cbn [dest_of d_prof]. apply map_ext. intros p. unfold column. rewrite !map_map.
    rewrite filter_all by auto. reflexivity. }
  assert (Hlk : length kfs = ng) by (unfold kfs; rewrite map_length, seq_length; auto).
  rewrite Ek, Ep.
  assert (Ew : ws_of m rows = ws_of m (filter (fun _ => true) rows)) by (rewrite filter_all by auto; auto).
  rewrite Ew.
  destruct (filldict_ok L m (length rows) f rows Hm) with
    (kfs := kfs) (c := prefill L ng c) (p := fun _ : row => true) (all := @None (list bool))
    (idx := match l_tots L with [] => None | _ => Some (map f rows) end) as [c' [E [Hc' [Hv Hb]]]].
  { intros r z Hri Hfz. unfold f in Hfz. apply (flat_row_range (l_tots L) (r_slots r)); auto. apply Hr'; auto. }
  { destruct Hnm as [H|H]; auto. right. intros r Hri HN. rewrite Forall_forall in H. apply (H r Hri).
    apply (flat_row_none (l_tots L)); auto. apply Hr'; auto. }
  { rewrite Hlk. apply prefill_ok; auto. }
  { eapply key_columns_ok; eauto. }
  { unfold idx_of. rewrite filter_all by auto. destruct (l_tots L) eqn:Et; auto. }
  { intros H _. unfold l_rows. destruct (l_tots L); [|discriminate]. rewrite filter_all by auto. auto. }
  { right; auto. }
  rewrite E. exists c'. rewrite Hlk in Hc'. split; auto. split; auto. split.
  - intros ks ss kd Hss Hk. unfold cell.
    change (match block c' ks with Some d => nth (ravel (l_tots L) ss * l_last L + column_of L kd) d nzero | None => nzero end)
      with (bv c' ks (ravel (l_tots L) ss * l_last L + column_of L kd)).
    rewrite Hv; auto; [|apply (ravel_lt _ _ Hss)]. rewrite prefill_bv. unfold bv at 1. do 3 f_equal.
    apply filter_ext_in. intros r Hri. unfold in_cell. destruct (Hr' r Hri) as [H1 [H2 [H3 H4]]].
    unfold f. rewrite hit_flat by auto. rewrite (keys_match_kmatch ng) by auto. reflexivity.
  - intros ks. rewrite Hb. clear. unfold kfs.
    assert (forall l, Forall2 (fun k kf => exists r : row, In r rows /\ kf r = Some k) ks (map (fun (j : nat) (r : row) => nth j (r_keys r) None) l)
        <-> Forall2 (fun (k : gkey) (j : nat) => exists r : row, In r rows /\ nth j (r_keys r) None = Some k) ks l).
    { induction ks as [|k ks IH]; intros [|j l]; simpl; split; intros H; try constructor; inversion H; subst; auto; apply IH; auto. }
    rewrite H. reflexivity.
Qed.
