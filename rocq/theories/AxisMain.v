(** The lemmas that Props_Axis.v states as properties. *)
From Coq Require Import String.
From Verif Require Import Base Num NumFacts Axis Calc AxisSpec AxisProofs AxisProofs2.

Open Scope string_scope.

Lemma mk_bin_ok e n low high u o nf cl ax : mk_bin e n low high u o nf cl = Ok ax ->
  ax = ABin e n low high u o nf cl /\ nltb high low = false /\ (0 < n -> nleb high low = false) /\
  0 < n + b2n u + b2n o + b2n nf.
Proof.
  unfold mk_bin. destruct (_ || _) eqn:E; [discriminate|].
  destruct (Nat.eqb_spec (n + b2n u + b2n o + b2n nf) 0); [discriminate|].
  intro H. inversion H; subst. apply orb_false_iff in E. destruct E as [E1 E2].
  repeat split; auto; [|lia]. intro Hn. apply Nat.ltb_lt in Hn. rewrite Hn in E1. exact E1.
Qed.
Lemma mk_bin_lt e n l h u o nf cl ax : mk_bin e n (Fin l) (Fin h) u o nf cl = Ok ax -> 0 < n ->
  (this l < this h)%Q.
Proof.
  intros H Hn. apply mk_bin_ok in H. destruct H as (_ & _ & H & _). specialize (H Hn).
  rewrite nleb_nltb in H by reflexivity. apply negb_false_iff in H. simpl in H. apply qltb_iff in H. exact H.
Qed.

Lemma c01_sat e n l h u o nf cl ax v :
  mk_bin e n (Fin l) (Fin h) u o nf cl = Ok ax -> 0 < n -> (Z.of_nat n + 1 <= int_max)%Z ->
  exists slot, bin_index Fin cast_sat u o nf cl n (Fin l) (Fin h) v = Ok slot /\
               slot_matches_key (keys ax) slot v.
Proof.
  intros H Hn Hb. pose proof (mk_bin_lt _ _ _ _ _ _ _ _ _ H Hn) as Hlh.
  apply mk_bin_ok in H. destruct H as (-> & _).
  eexists. split; [apply bin_index_sat_pos; assumption|]. apply bin_slot_matches; assumption.
Qed.

Lemma c01_x86 e n l h u o nf cl ax v :
  mk_bin e n (Fin l) (Fin h) u o nf cl = Ok ax -> 0 < n ->
  match v with
  | PInf => False
  | Fin q => (this q <= this l + inject_Z (int_max - 1) * ((this h - this l) / inject_Z (Z.of_nat n)))%Q
  | NInf | NaN => True
  end ->
  exists slot, bin_index Fin cast_x86 u o nf cl n (Fin l) (Fin h) v = Ok slot /\
               slot_matches_key (keys ax) slot v.
Proof.
  intros H Hn Hb. pose proof (mk_bin_lt _ _ _ _ _ _ _ _ _ H Hn) as Hlh.
  apply mk_bin_ok in H. destruct H as (-> & _).
  eexists. split; [apply bin_index_x86_pos; try assumption|apply bin_slot_matches; assumption].
  destruct v as [q| | |]; auto.
  assert (Ht : (this (tval n l h q) <= inject_Z (int_max - 1))%Q).
  { unfold tval. qc_push. pose proof (qn_pos n Hn) as Hp.
    set (N := inject_Z (Z.of_nat n)) in *. set (K := inject_Z (int_max - 1)) in *.
    assert (Hd : (0 < this h - this l)%Q) by lra.
    assert (E : ((this q - this l) * (N / (this h - this l)) <= K <->
                 (this q - this l) * N <= K * (this h - this l))%Q).
    { split; intro Hx.
      - assert ((this q - this l) * (N / (this h - this l)) * (this h - this l) <= K * (this h - this l))%Q
          by (apply Qmult_le_compat_r; lra).
        assert (((this q - this l) * (N / (this h - this l)) * (this h - this l) == (this q - this l) * N)%Q)
          by (field; lra). lra.
      - assert (((this q - this l) * N == (this q - this l) * (N / (this h - this l)) * (this h - this l))%Q)
          by (field; lra).
        assert ((this q - this l) * (N / (this h - this l)) * (this h - this l) <= K * (this h - this l))%Q by lra.
        apply Qmult_le_r in H0; lra. }
    apply E. assert (this q - this l <= K * ((this h - this l) / N))%Q by lra.
    assert ((this q - this l) * N <= K * ((this h - this l) / N) * N)%Q by (apply Qmult_le_compat_r; lra).
    assert ((K * ((this h - this l) / N) * N == K * (this h - this l))%Q) by (field; lra). lra. }
  unfold zpos. destruct cl.
  - assert (qfloor (tval n l h q) <= int_max - 1)%Z.
    { destruct (qfloor_spec (tval n l h q)) as [F1 _].
      assert (inject_Z (qfloor (tval n l h q)) <= inject_Z (int_max - 1))%Q by lra.
      rewrite <- Zle_Qle in H. exact H. }
    destruct u; cbn [b2z]; lia.
  - apply qceil_le_iff in Ht. destruct u; cbn [b2z]; lia.
Qed.

Lemma c01_x86_refuted :
  exists n l h ax slot,
    mk_bin "x" n (Fin l) (Fin h) true true true true = Ok ax /\ 0 < n /\
    bin_index Fin cast_x86 true true true true n (Fin l) (Fin h) PInf = Ok slot /\
    ~ slot_matches_key (keys ax) slot PInf.
Proof.
  exists 1, (qz 0), (qz 1), (ABin "x" 1 (nz 0) (nz 1) true true true true), (Some 0%Z).
  split; [reflexivity|]. split; [lia|]. split; [vm_compute; reflexivity|].
  intros (j & k & Hj & Hk & Hc). assert (j = 0) by lia. subst. cbn in Hk. inversion Hk; subst.
  destruct Hc as [_ [Hc|[Hc _]]]; [vm_compute in Hc|]; discriminate.
Qed.
Lemma c01_x86_large_refuted :
  exists n l h q ax slot,
    mk_bin "x" n (Fin l) (Fin h) true true true true = Ok ax /\ 0 < n /\
    bin_index Fin cast_x86 true true true true n (Fin l) (Fin h) (Fin q) = Ok slot /\
    ~ slot_matches_key (keys ax) slot (Fin q).
Proof.
  exists 1, (qz 0), (qz 1), (qz 10000000000), (ABin "x" 1 (nz 0) (nz 1) true true true true), (Some 0%Z).
  split; [reflexivity|]. split; [lia|]. split; [vm_compute; reflexivity|].
  intros (j & k & Hj & Hk & Hc). assert (j = 0) by lia. subst. cbn in Hk. inversion Hk; subst.
  destruct Hc as [_ [Hc|[Hc _]]]; [vm_compute in Hc|]; discriminate.
Qed.
Lemma c01_numbins0_refuted :
  exists l h v ax slot,
    mk_bin "x" 0 (Fin l) (Fin h) true true true true = Ok ax /\
    bin_index Fin cast_sat true true true true 0 (Fin l) (Fin h) v = Ok slot /\
    ~ slot_matches_key (keys ax) slot v.
Proof.
  exists (qz 0), (qz 2), (nz 1), (ABin "x" 0 (nz 0) (nz 2) true true true true), (Some 1%Z).
  split; [reflexivity|]. split; [vm_compute; reflexivity|].
  intros (j & k & Hj & Hk & Hc). assert (j = 1) by lia. subst. cbn in Hk. inversion Hk; subst.
  destruct Hc as [[Hc|(_&Hc&_)] _]; [vm_compute in Hc; discriminate|]. vm_compute in Hc. discriminate.
Qed.

Lemma c02 e raw u o nf cl es v :
  (forall x, In x raw -> x <> NaN) ->
  mk_split e raw u o nf cl = Ok (ASplit e es u o nf cl) ->
  slot_matches_key (keys (ASplit e es u o nf cl)) (split_index u o nf cl es v) v.
Proof.
  intros Hn H. destruct (mk_split_edges _ _ _ _ _ _ _ Hn H) as (H1 & H2 & H3).
  apply split_slot_matches; assumption.
Qed.

Lemma mk_intbin_ok e mn mx u o ax : mk_intbin e mn mx u o = Ok ax ->
  ax = AIntbin e mn mx u o /\ (mn <= mx)%Z.
Proof. unfold mk_intbin. destruct (Z.ltb_spec mx mn); [discriminate|]. intro E. inversion E; auto. Qed.

Lemma c03 e mn mx u o ax k :
  mk_intbin e mn mx u o = Ok ax -> (int_min <= k + b2z u - mn <= int_max)%Z ->
  slot_matches_key (keys ax) (intbin_index_int u o mn mx k) (nz k).
Proof.
  intros H Hr. apply mk_intbin_ok in H. destruct H as [-> H].
  apply intbin_slot_matches; [exact H|]. apply in_int32_iff, Hr.
Qed.
Lemma c03_float e mn mx u o ax q cast :
  mk_intbin e mn mx u o = Ok ax -> cast = cast_x86 \/ cast = cast_sat ->
  (int_min <= qfloor q + b2z u - mn <= int_max)%Z -> (inject_Z mn <= this q)%Q ->
  slot_matches_key (keys ax) (intbin_index_float cast u o mn mx (Fin q)) (nz (qfloor q)).
Proof.
  intros H Hc Hr Hq. rewrite intbin_float_floor; auto; [eapply c03; eauto|apply in_int32_iff, Hr].
Qed.
Lemma c03_wrap_refuted :
  exists mn mx k ax, mk_intbin "n" mn mx true true = Ok ax /\
    ~ slot_matches_key (keys ax) (intbin_index_int true true mn mx k) (nz k).
Proof.
  exists 0%Z, 5%Z, 3000000000%Z, (AIntbin "n" 0 5 true true). split; [reflexivity|].
  replace (intbin_index_int true true 0 5 3000000000) with (Some 0%Z) by (vm_compute; reflexivity).
  intros (j & k & Hj & Hk & Hc). assert (j = 0) by lia. subst. cbn in Hk. inversion Hk; subst.
  destruct Hc as [_ [Hc|[Hc _]]]; [vm_compute in Hc|]; discriminate.
Qed.
Lemma c03_float_refuted :
  exists mn mx q ax, mk_intbin "n" mn mx false true = Ok ax /\ (this q < inject_Z mn)%Q /\
    intbin_index_float cast_x86 false true mn mx (Fin q) = Some 0%Z /\ nth_error (keys ax) 0 = Some (KInt mn).
Proof.
  exists 0%Z, 5%Z, (qfrac (-1) 2), (AIntbin "n" 0 5 false true). split; [reflexivity|].
  split; [vm_compute; reflexivity|]. split; vm_compute; reflexivity.
Qed.

Lemma c04 e b : exists i, cut_index b = Some (Z.of_nat i) /\ nth_error (keys (ACut e)) i = Some (KBool b) /\
    forall j b', nth_error (keys (ACut e)) j = Some (KBool b') -> (j = i <-> b' = b).
Proof.
  exists (b2n b). split; [destruct b; reflexivity|]. split; [destruct b; reflexivity|].
  intros [|[|j]] b' Hj; simpl in Hj; try (destruct j; discriminate); inversion Hj; subst; destruct b; simpl;
    split; intro; try congruence; lia.
Qed.

Lemma mk_groupbin_ok e w org nf cl ax : mk_groupbin e (Fin w) org nf cl = Ok ax -> (0 < this w)%Q.
Proof.
  unfold mk_groupbin. destruct (nleb (Fin w) nzero) eqn:E; [discriminate|]. intros _.
  rewrite nleb_nltb in E by reflexivity. apply negb_false_iff in E. simpl in E. apply qltb_iff in E.
  rewrite this_qc0 in E. exact E.
Qed.
Lemma c05 e w org nf cl ax v :
  mk_groupbin e (Fin w) (Fin org) nf cl = Ok ax ->
  exists (z : Z), 
    groupbin_key Fin nf cl (Fin w) (Fin org) (Fin v) = Some (GNum (Fin (org + w * qz z)%Qc)) /\
    in_interval (Fin (org + w * qz z)%Qc) (nadd (Fin (org + w * qz z)%Qc) (Fin w)) cl (negb cl) (Fin v).
Proof.
  intro H. apply mk_groupbin_ok in H. exists (gz w org cl v).
  rewrite <- groupbin_lattice. split.
  - unfold groupbin_key. rewrite groupbin_value_fin by exact H. reflexivity.
  - exact (groupbin_contains w org cl H v).
Qed.
Lemma c05_displayed w cl ks : keys_groupbin w cl (map GNum ks) =
    Ok (map (fun k => KIv k (nadd k w) cl (negb cl)) (sort_num ks)).
Proof.
  unfold keys_groupbin.
  assert (E : mapM (fun k => match k with GNum x => Ok x | GStr _ => Err TypeError end) (map GNum ks) = Ok ks).
  { induction ks as [|k ks IH]; [reflexivity|]. simpl. rewrite IH. reflexivity. }
  rewrite E. reflexivity.
Qed.
Lemma c05_nan_keys w cl ks : In (GStr "NaN") ks -> keys_groupbin w cl ks = Err TypeError.
Proof.
  intro H. unfold keys_groupbin.
  assert (E : mapM (fun k => match k with GNum x => Ok x | GStr _ => Err TypeError end) ks = Err TypeError).
  { induction ks as [|k ks IH]; [contradiction|]. simpl. destruct k; [|reflexivity].
    destruct H as [H|H]; [discriminate|]. rewrite (IH H). reflexivity. }
  rewrite E. reflexivity.
Qed.
Lemma groupbin_inf w org cl : (0 < this w)%Q -> forall v, v = PInf \/ v = NInf ->
  groupbin_value Fin cl (Fin w) (Fin org) v = v.
Proof.
  intros Hw v Hv. unfold groupbin_value, none1. 
  assert (Ew : qeqb w qc0 = false).
  { apply qeqb_false. intro H. subst. rewrite this_qc0 in Hw. lra. }
  cbn [ndiv rn]. rewrite Ew.
  assert (Hi : ninf_sign (qc1 / w) = PInf).
  { destruct (ninf_sign_cases (qc1 / w)) as [[_ H]|[[H _]|[H _]]]; [exact H| |]; exfalso.
    - qc_push. assert (0 < 1 / this w)%Q by (apply Qlt_shift_div_l; lra). lra.
    - apply Qc_ext_iff in H. qc_push. assert (0 < 1 / this w)%Q by (apply Qlt_shift_div_l; lra). lra. }
  assert (Hi' : ninf_sign w = PInf).
  { destruct (ninf_sign_cases w) as [[_ H]|[[H _]|[H _]]]; [exact H|lra|subst; rewrite this_qc0 in Hw; lra]. }
  destruct (neqb (Fin org) nzero); destruct Hv as [-> | ->]; cbn [nsub nadd nneg rn nmul]; rewrite Hi;
    cbn [rn nneg]; destruct cl; cbn [nfloor nceil nsub nadd nneg rn nmul nz]; rewrite Hi'; reflexivity.
Qed.
Lemma c05_nan e w org nf cl ax : mk_groupbin e (Fin w) (Fin org) nf cl = Ok ax ->
  groupbin_key Fin nf cl (Fin w) (Fin org) NaN = if nf then Some (GStr "NaN") else None.
Proof.
  intros _. unfold groupbin_key.
  assert (E : groupbin_value Fin cl (Fin w) (Fin org) NaN = NaN).
  { unfold groupbin_value, none1. cbn [ndiv rn]. destruct (qeqb w qc0); destruct (neqb (Fin org) nzero), cl; reflexivity. }
  rewrite E. reflexivity.
Qed.
Lemma c05_kept e w org nf cl ax v : mk_groupbin e (Fin w) (Fin org) nf cl = Ok ax -> v <> NaN ->
  exists k, groupbin_key Fin nf cl (Fin w) (Fin org) v = Some (GNum k).
Proof.
  intros H Hv. apply mk_groupbin_ok in H. unfold groupbin_key. destruct v; [| | |congruence].
  - rewrite groupbin_value_fin by exact H. eexists; reflexivity.
  - rewrite groupbin_inf by auto. eexists; reflexivity.
  - rewrite groupbin_inf by auto. eexists; reflexivity.
Qed.
Lemma c05_inf_refuted :
  exists w org ax k, mk_groupbin "x" (Fin w) (Fin org) true true = Ok ax /\
    groupbin_key Fin true true (Fin w) (Fin org) PInf = Some (GNum k) /\
    ~ contains (groupbin_interval (Fin w) true k) PInf.
Proof.
  exists (qz 1), (qz 0). eexists. exists PInf. split; [reflexivity|]. split; [vm_compute; reflexivity|].
  intros [_ [H|[H _]]]; discriminate.
Qed.

Lemma slot_some_covers ks i v : slot_matches_key ks (Some i) v -> exists k, In k ks /\ contains k v.
Proof. intros (j & k & _ & Hk & Hc). exists k. split; [eapply nth_error_In; eauto|exact Hc]. Qed.

Lemma c07_bin e n l h u o nf cl ax : mk_bin e n (Fin l) (Fin h) u o nf cl = Ok ax -> 0 < n ->
    disjoint_keys (keys ax) /\ increasing_keys (keys ax) /\ length (keys ax) = totbins ax /\
    (u = true -> o = true -> nf = true -> covers (keys ax) (fun _ => True)) /\
    (u = true -> o = true -> covers (keys ax) (fun v => v <> NaN)).
Proof.
  intros H Hn. pose proof (mk_bin_lt _ _ _ _ _ _ _ _ _ H Hn) as Hlh.
  apply mk_bin_ok in H. destruct H as (-> & _).
  split; [apply bin_keys_disjoint; assumption|]. split; [apply bin_keys_increasing; assumption|].
  split; [apply keys_length_totbins; [reflexivity|discriminate]|].
  split; intros; subst; intros v Hv; pose proof (bin_slot_matches n l h Hn Hlh true true) as HM.
  - specialize (HM true cl v). destruct (bin_pos n l h cl v); apply slot_some_covers in HM; exact HM.
  - specialize (HM nf cl v). destruct (bin_pos n l h cl v) eqn:E; try (apply slot_some_covers in HM; exact HM).
    exfalso. symmetry in E. apply (bin_pos_holds n l h Hn Hlh) in E. simpl in E. congruence.
Qed.
Lemma c07_split e raw u o nf cl ax : (forall x, In x raw -> x <> NaN) -> mk_split e raw u o nf cl = Ok ax ->
    disjoint_keys (keys ax) /\ increasing_keys (keys ax) /\ length (keys ax) = totbins ax /\
    (u = true -> o = true -> nf = true -> covers (keys ax) (fun _ => True)) /\
    (u = true -> o = true -> covers (keys ax) (fun v => v <> NaN)).
Proof.
  intros Hn H. assert (Hax := H). apply mk_split_ok in Hax. destruct Hax as (-> & _).
  destruct (mk_split_edges _ _ _ _ _ _ _ Hn H) as (H1 & H2 & H3).
  split; [apply split_keys_disjoint; assumption|]. split; [apply split_keys_increasing; assumption|].
  split; [apply keys_length_totbins; [reflexivity|discriminate]|].
  set (es := sort_num raw) in *.
  split; intros; subst u o; intros v Hv; pose proof (split_slot_matches es H1 H2 H3 true true nf cl v) as HM;
    rewrite split_index_pos in HM by assumption.
  - subst nf. destruct (split_pos es cl v); apply slot_some_covers in HM; exact HM.
  - destruct (split_pos es cl v) eqn:E; try (apply slot_some_covers in HM; exact HM).
    exfalso. symmetry in E. apply (split_pos_holds es H1 H2 H3) in E. simpl in E. congruence.
Qed.
Lemma c07_intbin e mn mx u o ax : mk_intbin e mn mx u o = Ok ax ->
    disjoint_keys (keys ax) /\ increasing_keys (keys ax) /\ length (keys ax) = totbins ax /\
    (u = true -> o = true -> covers (keys ax) (fun v => exists k, v = nz k)).
Proof.
  intro H. apply mk_intbin_ok in H. destruct H as [-> H].
  split; [apply intbin_keys_disjoint, H|]. split; [apply intbin_keys_increasing, H|].
  split; [apply keys_length_totbins; [reflexivity|discriminate]|].
  intros -> -> v [k ->]. pose proof (intbin_slot_pos_matches mn mx H true true k) as HM.
  destruct (intbin_pos mn mx k) eqn:E; try (apply slot_some_covers in HM; exact HM).
  unfold intbin_pos in E. destruct (k <? mn)%Z, (mx <? k)%Z; discriminate.
Qed.

Lemma c08_range rnd cast e n low high u o nf cl ax v i :
    mk_bin e n low high u o nf cl = Ok ax ->
    bin_index rnd cast u o nf cl n low high v = Ok (Some i) -> (0 <= i < Z.of_nat (totbins ax))%Z.
Proof.
  intros H Hi. apply mk_bin_ok in H. destruct H as (-> & _). apply bin_index_range in Hi. exact Hi.
Qed.
Lemma c08_mono rnd e n l h u o nf cl ax v w i j :
    (forall x y, (this x <= this y)%Q -> nleb (rnd x) (rnd y) = true) -> rnd qc0 = nzero ->
    mk_bin e n (Fin l) (Fin h) u o nf cl = Ok ax -> nleb v w = true ->
    bin_index rnd cast_sat u o nf cl n (Fin l) (Fin h) v = Ok (Some i) ->
    bin_index rnd cast_sat u o nf cl n (Fin l) (Fin h) w = Ok (Some j) ->
    (nf = true -> i <> Z.of_nat n + b2z u + b2z o)%Z -> (nf = true -> j <> Z.of_nat n + b2z u + b2z o)%Z ->
    (i <= j)%Z.
Proof.
  intros Hm H0 H. apply mk_bin_ok in H. destruct H as (_ & H & _). apply bin_index_mono; auto.
  simpl in H. apply qltb_false in H. exact H.
Qed.
Lemma c08_example :
  let rnd := fun q => Fin (qz (qfloor (q * qz 8)) / qz 8)%Qc in
  (forall x y, (this x <= this y)%Q -> nleb (rnd x) (rnd y) = true) /\ rnd qc0 = nzero /\
  bin_index rnd cast_sat true true true true 10 (nz 0) (nz 3) (Fin (qfrac 29 10)) = Ok (Some 10%Z) /\
  bin_index rnd cast_sat true true true true 10 (nz 0) (nz 3) (Fin (qfrac 11 10)) = Ok (Some 4%Z).
Proof.
  intro rnd. split.
  - intros x y H. unfold rnd. apply nleb_fin. rewrite !this_div, !this_qz.
    apply Qmult_le_compat_r; [|vm_compute; discriminate]. rewrite <- Zle_Qle. apply qfloor_mono.
    rewrite !this_mul, !this_qz. apply Qmult_le_compat_r; [exact H|vm_compute; discriminate].
  - split; [vm_compute; f_equal; apply Qc_is_canon; reflexivity|]. split; vm_compute; reflexivity.
Qed.
