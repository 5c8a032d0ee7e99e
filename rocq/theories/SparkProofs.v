(** Proofs about Spark fills: index of each kind of axis, and values of expressions. *)
From Coq Require Import String Lia Lqa Sorted.
From Verif Require Import Base Num NumFacts Axis AxisSpec AxisProofs AxisProofs2 AxisMain Calc Content Fill FillSpec Tree Elem HistFill HistSpec HistFillProofs Spark SparkSpec.
Local Open Scope list_scope.

(** * Casts *)
(** What both casts do: truncate in range, and the least number for minus infinity. *)
Definition cast_good (cast : Num -> Z) : Prop :=
  (forall z, in_int32 z = true -> cast (nz z) = z) /\ cast NInf = int_min.
Lemma qtrunc_qz z : qtrunc (qz z) = z.
Proof.
  unfold qtrunc, qz, Q2Qc, inject_Z. cbn [this].
  rewrite Qred_identity by (cbn; apply Z.gcd_1_r). simpl. apply Z.quot_1_r.
Qed.
Lemma cast_x86_good : cast_good cast_x86.
Proof. split; [|reflexivity]. intros z H. unfold nz. cbn [cast_x86]. rewrite qtrunc_qz, H. reflexivity. Qed.
Lemma cast_sat_good : cast_good cast_sat.
Proof. split; [|reflexivity]. intros z H. unfold nz. cbn [cast_sat]. rewrite qtrunc_qz, H. reflexivity. Qed.

Lemma wrap64_id z : (long_min <= z <= long_max)%Z -> wrap64 z = z.
Proof. unfold wrap64, long_min, long_max. intros H. rewrite Z.mod_small by lia. lia. Qed.
Lemma to_long_id z : (long_min <= z <= long_max)%Z -> to_long z = z.
Proof. unfold to_long. lia. Qed.

(** * From positions to slots *)
Definition pos_in (n : nat) (p : pos) : Prop := match p with PBin j => j < n | _ => True end.
Lemma slot_of_prank u o nf n p :
  pos_in n p -> (p = PUnder -> u = true) -> (p = POver \/ p = PNan -> nf = true -> o = true) ->
  let tot := n + b2n u + b2n o + b2n nf in
  let i := (Z.of_nat (prank n p) - (if u then 0 else 1))%Z in
  (if (i <? Z.of_nat tot)%Z
   then match norm_index tot i with Some s => Ok (Some s) | None => Err IndexError end
   else Ok None) = Ok (option_map Z.to_nat (AxisProofs.slot_of u o nf n p)).
Proof.
  intros Hp Hu Ho tot i. unfold tot, i, norm_index. clear tot i.
  destruct p as [|j| |]; cbn [prank AxisProofs.slot_of pos_in] in *.
  - rewrite Hu by reflexivity. cbn [b2n option_map]. zcmp; try lia; cbn [andb]; try reflexivity; zcmp; try lia; reflexivity.
  - destruct u; cbn [b2n b2z option_map]; zcmp; try lia; cbn [andb]; try (do 2 f_equal; lia).
  - destruct u, o, nf; cbn [b2n b2z option_map]; try (discriminate (Ho (or_introl eq_refl) eq_refl)); zcmp; try lia; cbn [andb]; try reflexivity; try (do 2 f_equal; lia).
  - destruct u, o, nf; cbn [b2n b2z option_map]; try (discriminate (Ho (or_intror eq_refl) eq_refl)); zcmp; try lia; cbn [andb]; try reflexivity; try (do 2 f_equal; lia).
Qed.
Lemma slot_of_ok u o nf n p : pos_in n p -> slot_ok (n + b2n u + b2n o + b2n nf) (AxisProofs.slot_of u o nf n p).
Proof. destruct p, u, o, nf; cbn [pos_in AxisProofs.slot_of slot_ok b2n b2z]; intros; try exact I; lia. Qed.

(** * bin *)
Section Bin.
  Variables (n : nat) (l h : Qc).
  Hypothesis Hn : 0 < n.
  Hypothesis Hlh : (this l < this h)%Q.
  Lemma bin_pos_in cl v : pos_in n (bin_pos n l h cl v).
  Proof. destruct v as [q| | |]; cbn [bin_pos]; try exact I. zcmp; cbn [pos_in]; try exact I. lia. Qed.
  Lemma near_tval q : near n (Fin l) (Fin h) (Fin q) -> (inject_Z (- 2 ^ 30) <= this (tval n l h q) <= inject_Z (2 ^ 30))%Q.
  Proof.
    unfold near. intros (H1 & H2). unfold tval. assert (Hd : (0 < this h - this l)%Q) by lra.
    assert (E : (this ((q - l) * (qz (Z.of_nat n) / (h - l)))%Qc == ((this q - this l) * inject_Z (Z.of_nat n)) / (this h - this l))%Q).
    { rewrite this_mul, this_div, !this_sub, this_qz. field. lra. }
    rewrite E. rewrite inject_Z_opp. split; [apply Qle_shift_div_l; auto; lra|apply Qle_shift_div_r; auto; lra].
  Qed.
  Lemma near_zpos cl q : near n (Fin l) (Fin h) (Fin q) -> (- 2 ^ 30 - 1 <= zpos n l h cl q <= 2 ^ 30)%Z.
  Proof.
    intros H. apply near_tval in H. destruct H as (H1 & H2). unfold zpos. destruct cl.
    - pose proof (qfloor_spec (tval n l h q)) as (A & B). apply qfloor_le_iff in H1. assert (qfloor (tval n l h q) <= 2 ^ 30)%Z by (rewrite Zle_Qle; lra). lia.
    - pose proof (qceil_spec (tval n l h q)) as (A & B). apply qceil_le_iff in H2. assert (- 2 ^ 30 <= qceil (tval n l h q))%Z by (rewrite Zle_Qle; lra). lia.
  Qed.
  Lemma bin_index_near cast u o nf cl x : cast_good cast -> near n (Fin l) (Fin h) x ->
    bin_index Fin cast u o nf cl n (Fin l) (Fin h) x = Ok (AxisProofs.slot_of u o nf n (bin_pos n l h cl x)).
  Proof.
    intros (C1 & C2) Hx. unfold bin_index. destruct x as [q| | |]; [|destruct Hx| |].
    - rewrite bin_scaled_fin by auto. cbn [bind]. f_equal. change (isnan (nz (zpos n l h cl q + b2z u))) with false.
      cbv iota. apply near_zpos with (cl := cl) in Hx. rewrite C1.
      + apply bin_clamp_slot; auto.
      + apply in_int32_iff. unfold int_min, int_max. destruct u; cbn [b2z]; lia.
    - rewrite bin_scaled_ninf by auto. cbn [bind isnan]. f_equal. rewrite C2. cbn [bin_pos AxisProofs.slot_of]. clamp_tac u o.
    - rewrite bin_scaled_nan by auto. reflexivity.
  Qed.
  Lemma spark_bin_pos cl x : near n (Fin l) (Fin h) x ->
    spark_bin Fin cl n (Fin l) (Fin h) (Some x) = Ok (Z.of_nat (prank n (bin_pos n l h cl x))).
  Proof.
    intros Hx. unfold spark_bin. rewrite bin_scale_exact by auto. cbn [bind]. destruct x as [q| | |]; [|destruct Hx| |].
    - apply near_zpos with (cl := cl) in Hx. unfold nsub. cbn [nneg nadd rn nmul].
      assert (E : ((q + - l) * (qz (Z.of_nat n) / (h - l)))%Qc = tval n l h q) by reflexivity. rewrite E.
      f_equal. cbn [bin_pos]. unfold zpos in *. destruct cl; cbn [spark_floor spark_ceil].
      + rewrite to_long_id by (unfold long_min, long_max; lia). rewrite wrap64_id by (unfold long_min, long_max; lia). zcmp; cbn [prank]; lia.
      + rewrite to_long_id by (unfold long_min, long_max; lia). zcmp; cbn [prank]; lia.
    - unfold nsub. cbn [nneg nadd rn nmul].
      pose proof (scale_pos n l h Hn Hlh) as Hs.
      assert (E : ninf_sign (qz (Z.of_nat n) / (h - l))%Qc = PInf).
      { destruct (ninf_sign_cases (qz (Z.of_nat n) / (h - l))%Qc) as [[_ H]|[[H _]|[H _]]];
          [exact H|lra|]. rewrite H in Hs. rewrite this_qc0 in Hs. lra. }
      rewrite E. cbn [nneg spark_floor spark_ceil rn]. f_equal. unfold long_min. destruct cl; rewrite ?wrap64_id by (unfold long_min, long_max; lia); cbn [bin_pos prank]; lia.
    - f_equal. cbn [bin_pos prank]. lia.
  Qed.
  Lemma bin_below cl x : near n (Fin l) (Fin h) x -> forall e u o nf, bin_pos n l h cl x = PUnder -> below (ABin e n (Fin l) (Fin h) u o nf cl) x = true.
  Proof.
    intros Hx e u o nf H. apply eq_sym, bin_pos_holds in H; auto. cbn [pos_holds contains bin_under] in H. unfold bin_under in H. cbn [contains] in H. destruct H as (_ & H). cbn [below].
    destruct cl; cbn [negb] in H.
    - destruct H as [H|(H & _)]; [exact H|discriminate].
    - destruct H as [H|(_ & -> & H)]; [apply nltb_nleb; exact H|apply nleb_refl; reflexivity].
  Qed.
  Lemma bin_above cl x : forall e u o nf, bin_pos n l h cl x = POver -> above (ABin e n (Fin l) (Fin h) u o nf cl) x = true.
  Proof.
    intros e u o nf H. apply eq_sym, bin_pos_holds in H; auto. cbn [pos_holds contains] in H. unfold bin_over in H. cbn [contains] in H. destruct H as (H & _). cbn [above].
    destruct cl.
    - destruct H as [H|(_ & -> & H)]; [apply nltb_nleb; exact H|apply nleb_refl; reflexivity].
    - destruct H as [H|(H & _)]; [exact H|discriminate].
  Qed.
End Bin.

(** * split *)
Section Split.
  Variable edges : list Num.
  Hypothesis Hs : strictly_sorted edges.
  Hypothesis Hne : edges <> [].
  Hypothesis Hnan : nonan edges.
  Lemma spark_build_cnt cl x i : forall l, x <> NaN -> nonan l -> strictly_sorted l -> spark_build cl x i l = Z.of_nat (i + cnt cl x l).
  Proof.
    intros l Hx. revert i. induction l as [|e l IH]; intros i Hn Hl; cbn [spark_build].
    - unfold cnt. simpl. f_equal. lia.
    - inversion Hl as [|? ? Hl' Hf]; subst.
      assert (Hen : e <> NaN) by (apply Hn; left; reflexivity).
      assert (Eb : (if cl then nltb x e else nleb x e) = negb (AxisProofs.below cl x e)).
      { assert (isnan x = false) by (destruct x; auto; congruence). assert (isnan e = false) by (destruct e; auto; congruence).
        unfold AxisProofs.below. destruct cl; [rewrite (nleb_nltb e x) by auto; destruct (nltb x e); reflexivity|apply nleb_nltb; auto]. }
      rewrite Eb. destruct (AxisProofs.below cl x e) eqn:E; cbn [negb].
      + rewrite IH by (auto; intros y Hy; apply Hn; right; auto). unfold cnt. cbn [filter]. rewrite E. cbn [length]. f_equal. lia.
      + f_equal. unfold cnt. cbn [filter]. rewrite E. rewrite Forall_forall in Hf.
        assert (F : filter (AxisProofs.below cl x) l = []).
        { clear - E Hf. induction l as [|y l IH]; auto. cbn [filter]. destruct (AxisProofs.below cl x y) eqn:Ey.
          - rewrite (below_down cl x e y) in E; auto; [discriminate|]. apply Hf. left. reflexivity.
          - apply IH. intros z Hz. apply Hf. right. auto. }
        rewrite F. simpl. lia.
  Qed.
  Lemma split_pos_in cl x : pos_in (length edges - 1) (split_pos edges cl x).
  Proof.
    pose proof (cnt_le cl x edges). unfold split_pos. destruct (isnan x); [exact I|]. cbv zeta.
    destruct (Nat.eqb_spec (cnt cl x edges) 0); [exact I|]. destruct (Nat.eqb_spec (cnt cl x edges) (length edges)); [exact I|]. cbn [pos_in]. lia.
  Qed.
  Lemma spark_split_pos cl x : spark_split cl edges (Some x) = Z.of_nat (prank (length edges - 1) (split_pos edges cl x)).
  Proof.
    assert (0 < length edges) by (destruct edges; [congruence|simpl; lia]). pose proof (cnt_le cl x edges).
    unfold spark_split, split_pos.
    destruct (isnan x) eqn:E.
    - destruct x; try discriminate. cbn [prank]. lia.
    - assert (Hx : x <> NaN) by (intros ->; discriminate). replace (match x with NaN => (Z.of_nat (length edges) + 1)%Z | _ => spark_build cl x 0 edges end) with (spark_build cl x 0 edges) by (destruct x; auto; congruence).
      rewrite spark_build_cnt by auto. cbv zeta. cbn [Nat.add].
      destruct (Nat.eqb_spec (cnt cl x edges) 0) as [E0|E0]; [rewrite E0; reflexivity|].
      destruct (Nat.eqb_spec (cnt cl x edges) (length edges)) as [E1|E1]; cbn [prank]; lia.
  Qed.
  Lemma split_below cl x : forall e u o nf, split_pos edges cl x = PUnder -> below (ASplit e edges u o nf cl) x = true.
  Proof.
    intros e u o nf H. apply eq_sym, split_pos_holds in H; auto. cbn [pos_holds] in H. unfold split_under in H. cbn [contains] in H. destruct H as (_ & H). cbn [below].
    destruct cl; cbn [negb] in H.
    - destruct H as [H|(H & _)]; [exact H|discriminate].
    - destruct H as [H|(_ & -> & H)]; [apply nltb_nleb; exact H|apply nleb_refl]. destruct (hd NaN edges); auto; congruence.
  Qed.
  Lemma split_above cl x : forall e u o nf, split_pos edges cl x = POver -> above (ASplit e edges u o nf cl) x = true.
  Proof.
    intros e u o nf H. apply eq_sym, split_pos_holds in H; auto. cbn [pos_holds] in H. unfold split_over in H. cbn [contains] in H. destruct H as (H & _). cbn [above].
    destruct cl.
    - destruct H as [H|(_ & -> & H)]; [apply nltb_nleb; exact H|apply nleb_refl]. destruct (last edges NaN); auto; congruence.
    - destruct H as [H|(H & _)]; [exact H|discriminate].
  Qed.
End Split.

(** * intbin *)
Lemma round_up_qz z : round_up (qz z) = z.
Proof.
  unfold round_up. destruct (qltb (qz z) qc0).
  - rewrite (qfloor_unique _ (- z)); [lia| |]; rewrite this_add, this_opp, this_qz, this_qfrac, ?inject_Z_plus, ?inject_Z_opp; change (inject_Z 1) with 1%Q; lra.
  - apply qfloor_unique; rewrite this_add, this_qz, this_qfrac, ?inject_Z_plus; change (inject_Z 1) with 1%Q; lra.
Qed.
Lemma spark_intbin_int mn mx k : spark_intbin Fin mn mx (Some (nz k)) = Z.max 0 (Z.min (mx - mn + 1) (k - mn + 1)).
Proof.
  unfold spark_intbin, nz, nsub. cbn [option_map nneg nadd rn].
  replace (qz k + - qz mn + qz 1)%Qc with (qz (k - mn + 1)); [rewrite round_up_qz; reflexivity|]. unfold Z.sub. rewrite !qz_add, qz_opp. reflexivity.
Qed.

(** * All fixed axes *)
Lemma isnan_false x : x <> NaN -> isnan x = false.
Proof. destruct x; auto; congruence. Qed.
Theorem spark_index_slot cast a v s : cast_good cast -> is_fixed a = true -> made a -> fits a v ->
  HistFill.slot_of cast Fin a v = Ok s ->
  exists z, spark_index Fin a (Some v) = Ok (INum z) /\ spark_slot a z = Ok (option_map Z.to_nat s) /\ slot_ok (totbins a) s.
Proof.
  intros C Hf Hm Hv Hs. destruct a; try discriminate Hf; cbn [made fits HistFill.slot_of] in *.
  - (* bin *)
    destruct v as [x| |]; try (destruct Hv; fail). destruct Hv as ((U & O) & Hx). destruct Hm as (l & h & -> & -> & Hn & Hmk).
    assert (Hlh := mk_bin_lt _ _ _ _ _ _ _ _ _ Hmk Hn). cbn [val_num bind] in Hs. rewrite bin_index_near in Hs by auto. inversion Hs as [Es]; clear Hs.
    eexists. split; [|split].
    + cbn [spark_index snum bind]. rewrite spark_bin_pos by auto. reflexivity.
    + cbn [spark_slot has_underflow totbins]. apply slot_of_prank.
      * apply bin_pos_in; auto.
      * intros E. apply U. eapply bin_below; eauto.
      * intros E N. apply O; auto. destruct E as [E|E]; [left; eapply bin_above; eauto|right]. destruct x as [q| | |]; cbn [bin_pos] in E; try discriminate; auto. revert E. zcmp; discriminate.
    + cbn [totbins]. apply slot_of_ok, bin_pos_in; auto.
  - (* intbin *)
    destruct v as [x| |]; try (destruct Hv; fail). destruct Hv as ((U & O) & A & k & -> & Hk). apply mk_intbin_ok in Hm. destruct Hm as (_ & Hmm).
    cbn [val_num bind] in Hs. unfold intbin_index_float in Hs. cbn [below above] in *. rewrite nltb_nz in *. cbn [has_under] in U.
    unfold nz in Hs. cbn [nadd] in Hs. rewrite <- qz_add in Hs. change (Fin (qz ?z)) with (nz z) in Hs. destruct C as (C & _). rewrite C in Hs by (apply in_int32_iff; unfold int_min, int_max; destruct underflow; cbn [b2z]; lia).
    rewrite intbin_clamp_slot in Hs by auto. inversion Hs as [Es]; clear Hs.
    eexists. split; [|split].
    + cbn [spark_index snum bind]. rewrite spark_intbin_int. reflexivity.
    + apply Z.ltb_ge in A. replace (Z.max 0 (Z.min (mx - mn + 1) (k - mn + 1))) with (Z.of_nat (prank (Z.to_nat (mx - mn + 1)) (intbin_pos mn mx k))).
      2:{ unfold intbin_pos. zcmp; cbn [prank]; lia. }
      pose proof (slot_of_prank underflow overflow false (Z.to_nat (mx - mn + 1)) (intbin_pos mn mx k)) as G. cbn [b2n] in G. rewrite Nat.add_0_r in G. apply G.
      * unfold intbin_pos. zcmp; cbn [pos_in]; auto. lia.
      * intros E. apply U. apply Z.ltb_lt. revert E. unfold intbin_pos. zcmp; try discriminate. auto.
      * discriminate.
    + pose proof (slot_of_ok underflow overflow false (Z.to_nat (mx - mn + 1)) (intbin_pos mn mx k)) as G. cbn [b2n] in G. rewrite Nat.add_0_r in G. apply G. unfold intbin_pos. zcmp; cbn [pos_in]; auto. lia.
  - (* split *)
    destruct v as [x| |]; try (destruct Hv; fail). destruct Hv as (U & O). destruct Hm as (raw & Hr & Hmk). destruct (mk_split_edges _ _ _ _ _ _ _ Hr Hmk) as (S1 & S2 & S3).
    cbn [val_num bind] in Hs. rewrite split_index_pos in Hs by auto. inversion Hs as [Es]; clear Hs.
    eexists. split; [|split].
    + cbn [spark_index snum bind]. rewrite spark_split_pos by auto. reflexivity.
    + cbn [spark_slot has_underflow totbins]. apply slot_of_prank.
      * apply split_pos_in; auto.
      * intros E. apply U. eapply split_below; eauto.
      * intros E N. apply O; auto. destruct E as [E|E]; [left; eapply split_above; eauto|right]. revert E. unfold split_pos. destruct x; auto; cbn [isnan]; cbv zeta; destruct (Nat.eqb _ 0); try discriminate; destruct (Nat.eqb _ _); discriminate.
    + cbn [totbins]. apply slot_of_ok, split_pos_in; auto.
  - (* cut *)
    destruct v as [| |b]; try (destruct Hv; fail). inversion Hs as [Es]; clear Hs. destruct b; eexists; (split; [reflexivity|split; [reflexivity|cbn; lia]]).
  - discriminate Hs.
Qed.

(** * Group axes *)
Theorem spark_index_key a v k : is_group a = true -> made a -> fits a v -> key_of Fin a v = Ok k ->
  exists k', k = Some k' /\ spark_index Fin a (Some v) = Ok (IKey (Some k')).
Proof.
  intros Hg Hm Hv Hk. destruct a; try discriminate Hg; cbn [made fits key_of] in *.
  - inversion Hk. eexists. split; reflexivity.
  - destruct v as [x| |]; try (destruct Hv; fail). destruct Hm as (w & org & -> & -> & Hmk). apply mk_groupbin_ok in Hmk.
    destruct x as [q| | |]; try (destruct Hv; fail). cbn [near_origin] in Hv. cbn [val_num bind] in Hk. unfold groupbin_key in Hk. rewrite groupbin_value_fin in Hk by auto. cbn [isnan] in Hk. inversion Hk. eexists. split; [reflexivity|].
    cbn [spark_index snum bind option_map]. do 4 f_equal. unfold spark_groupbin, none1, nsub. cbn [nneg nadd rn ndiv].
    assert (Ew : qeqb w qc0 = false). { apply qeqb_false. intro E. subst w. rewrite this_qc0 in Hmk. lra. }
    rewrite Ew. cbn [rn nmul].
    assert (Hx : ((q + - org) * (qc1 / w))%Qc = ((q - org) / w)%Qc) by (apply Qc_ext; qc_push; field; lra). rewrite Hx.
    assert (B : (inject_Z (- 2 ^ 62) <= this ((q - org) / w)%Qc <= inject_Z (2 ^ 62))%Q).
    { rewrite this_div, this_sub, inject_Z_opp. split; [apply Qle_shift_div_l; auto; lra|apply Qle_shift_div_r; auto; lra]. }
    destruct B as (B1 & B2). pose proof (qfloor_spec ((q - org) / w)) as (F1 & F2). pose proof (qceil_spec ((q - org) / w)) as (G1 & G2).
    assert (E : (if closedlow then spark_floor (Fin ((q - org) / w)%Qc) else wrap64 (spark_ceil (Fin ((q - org) / w)%Qc) - 1)) = gz w org closedlow q).
    { unfold gz. destruct closedlow; cbn [spark_floor spark_ceil].
      - apply to_long_id. apply qfloor_le_iff in B1. assert (qfloor ((q - org) / w) <= 2 ^ 62)%Z by (rewrite Zle_Qle; lra). unfold long_min, long_max. lia.
      - apply qceil_le_iff in B2. assert (- 2 ^ 62 <= qceil ((q - org) / w))%Z by (rewrite Zle_Qle; lra). rewrite to_long_id by (unfold long_min, long_max; lia). apply wrap64_id. unfold long_min, long_max. lia. }
    rewrite E. unfold nz. cbn [rn nmul nadd]. reflexivity.
Qed.

(** * Expressions *)
Section Exprs.
  Variable sfun : string -> list sval -> res sval.
  Variable user : string -> list arg -> res val.
  Variable field : string -> res val.
  Lemma value_call f args : value user field (TCall f args) = do vs <- mapM (reval user field) args; efun user f vs.
  Proof. unfold value. rewrite reval_call. destruct (mapM (reval user field) args) as [vs|e]; simpl; auto. destruct (efun user f vs); reflexivity. Qed.
  Lemma scol_call f args : scol sfun field (TCall f args) = do vs <- mapM (scol sfun field) args; scall sfun f vs.
  Proof. cbn [scol]. f_equal. induction args as [|a args IH]; simpl; auto. rewrite IH. reflexivity. Qed.
  Lemma value_of t x v : reval user field t = Ok x -> arg_val x = Ok v -> value user field t = Ok v.
  Proof. intros E H. unfold value. rewrite E. exact H. Qed.
  Lemma value_two f a b v : value user field (TCall f [a; b]) = Ok v -> exists x y, reval user field a = Ok x /\ reval user field b = Ok y /\ efun user f [x; y] = Ok v.
  Proof.
    rewrite value_call. cbn [mapM]. intros H. apply bind_ok in H. destruct H as (vs & E & H).
    apply bind_ok in E. destruct E as (x & Ex & E). apply bind_ok in E. destruct E as (ys & Ey & E). apply bind_ok in Ey. destruct Ey as (y & Ey & E'). inversion E'; inversion E; subst. eauto.
  Qed.
  Lemma spark_two f a b va vb : scol sfun field a = Ok (Some va) -> scol sfun field b = Ok (Some vb) -> scol sfun field (TCall f [a; b]) = scall sfun f [Some va; Some vb].
  Proof. intros Ea Eb. rewrite scol_call. cbn [mapM]. rewrite Ea, Eb. reflexivity. Qed.

  Theorem same_value t : same_in_spark user field t -> forall v, value user field t = Ok v -> scol sfun field t = Ok (Some v).
  Proof.
    induction 1 as [s Hs|s Hs|s|s b|f a b Hf Ha IHa Hb IHb|a b Hz Ha IHa Hb IHb|f a b Hf Na Nb Ha IHa Hb IHb|f a b Hf Ta Tb Ha IHa Hb IHb|a Ta Ha IHa|c a b Tc Hc IHc Ha IHa Hb IHb]; intros v Hv.
    - unfold value in Hv. cbn in Hv |- *. destruct (scal_val s); inversion Hv. reflexivity.
    - unfold value in Hv. cbn in Hv |- *. destruct (scal_val s); inversion Hv. reflexivity.
    - unfold value in Hv. cbn in Hv |- *. destruct (field s); inversion Hv. reflexivity.
    - unfold value in Hv. cbn in Hv |- *. destruct (field s); inversion Hv. reflexivity.
    - apply value_two in Hv. destruct Hv as (x & y & Ex & Ey & E).
      assert (D : exists g, efun user f [x; y] = num2 g x y /\ forall p q, scall sfun f [p; q] = s_num2 (fun x y => Some (g x y)) p q) by (cbn in Hf; destruct Hf as [<-|[<-|[<-|[]]]]; eexists; (split; reflexivity)).
      destruct D as (g & D1 & D2). rewrite D1 in E. unfold num2, arg_num in E. apply bind_ok in E. destruct E as (p & Ep & E). apply bind_ok in E. destruct E as (q & Eq & E). inversion E; subst.
      apply bind_ok in Ep, Eq. destruct Ep as (vx & Evx & Ep), Eq as (vy & Evy & Eq). destruct vx; try discriminate Ep. destruct vy; try discriminate Eq. inversion Ep; inversion Eq; subst.
      rewrite (spark_two f a b (VNum p) (VNum q)), D2; [reflexivity|apply IHa|apply IHb]; eapply value_of; eauto.
    - apply value_two in Hv. destruct Hv as (x & y & Ex & Ey & E). change (efun user "numpy.true_divide" [x; y]) with (num2 ndiv x y) in E.
      unfold num2, arg_num in E. apply bind_ok in E. destruct E as (p & Ep & E). apply bind_ok in E. destruct E as (q & Eq & E). inversion E; subst.
      apply bind_ok in Ep, Eq. destruct Ep as (vx & Evx & Ep), Eq as (vy & Evy & Eq). destruct vx; try discriminate Ep. destruct vy; try discriminate Eq. inversion Ep; inversion Eq; subst.
      rewrite (spark_two _ a b (VNum p) (VNum q)); [|apply IHa|apply IHb]; try (eapply value_of; eauto). change (scall sfun "numpy.true_divide" [Some (VNum p); Some (VNum q)]) with (s_num2 s_div (Some (VNum p)) (Some (VNum q))). cbn [s_num2]. unfold s_div.
      destruct (neqb q nzero) eqn:Z; [|reflexivity]. exfalso. apply Hz. unfold number. rewrite (value_of b y (VNum q)) by auto. cbn. f_equal. apply neqb_eq, Z.
    - apply value_two in Hv. destruct Hv as (x & y & Ex & Ey & E).
      assert (D : exists g n, efun user f [x; y] = cmp2 g x y /\ (forall p q, scall sfun f [p; q] = s_cmp n g p q) /\ (forall p q, p <> NaN -> q <> NaN -> g (VNum p) (VNum q) = Ok (n p q))).
      { cbn in Hf. destruct Hf as [<-|[<-|[<-|[<-|[]]]]]; do 2 eexists; (split; [reflexivity|split; [reflexivity|]]); intros p q Hp Hq; apply isnan_false in Hp, Hq; cbn [val_eqb val_ltb val_leb rmap]; unfold s_eqb, s_ltb; rewrite Hp, ?Hq, ?andb_false_r, ?orb_false_r; try reflexivity. }
      destruct D as (g & n & D1 & D2 & D3). rewrite D1 in E. unfold cmp2 in E. apply bind_ok in E. destruct E as (p & Ep & E). apply bind_ok in E. destruct E as (q & Eq & E).
      assert (Ga := value_of _ _ _ Ex Ep). assert (Gb := value_of _ _ _ Ey Eq).
      rewrite (spark_two f a b p q), D2 by auto. destruct (g p q) as [r|] eqn:Eg; inversion E; subst. unfold s_cmp.
      destruct p as [p| |], q as [q| |]; try (rewrite Eg; reflexivity). rewrite D3 in Eg; [inversion Eg; reflexivity|intros ->; apply Na|intros ->; apply Nb]; unfold number; rewrite ?Ga, ?Gb; reflexivity.
    - destruct Ta as (p & Ga), Tb as (q & Gb). apply value_two in Hv. destruct Hv as (x & y & Ex & Ey & E).
      rewrite (spark_two f a b _ _ (IHa _ Ga) (IHb _ Gb)). unfold value in Ga, Gb. rewrite Ex in Ga. rewrite Ey in Gb. cbn [bind] in Ga, Gb.
      cbn in Hf. destruct Hf as [<-|[<-|[]]]; [change (efun user "numpy.logical_or" [x; y]) with (bool2 orb x y) in E|change (efun user "numpy.logical_and" [x; y]) with (bool2 andb x y) in E]; unfold bool2, arg_truth in E; rewrite Ga, Gb in E; cbn in E; inversion E; reflexivity.
    - destruct Ta as (p & Ga). rewrite value_call in Hv. cbn [mapM] in Hv. apply bind_ok in Hv. destruct Hv as (vs & E & Hv). apply bind_ok in E. destruct E as (x & Ex & E). inversion E; subst.
      rewrite scol_call. cbn [mapM]. rewrite (IHa _ Ga). unfold value in Ga. rewrite Ex in Ga. cbn [bind] in Ga.
      change (efun user "numpy.logical_not" [x]) with (do t <- arg_truth x; Ok (VBool (negb t))) in Hv. unfold arg_truth in Hv. rewrite Ga in Hv. cbn in Hv. inversion Hv. reflexivity.
    - destruct Tc as (p & Gc). rewrite value_call in Hv. cbn [mapM] in Hv. apply bind_ok in Hv. destruct Hv as (vs & E & Hv). apply bind_ok in E. destruct E as (x & Ex & E). apply bind_ok in E. destruct E as (l1 & E1 & E). apply bind_ok in E1. destruct E1 as (y & Ey & E1). apply bind_ok in E1. destruct E1 as (l2 & E2 & E1). apply bind_ok in E2. destruct E2 as (z & Ez & E2). inversion E2; inversion E1; inversion E; subst. clear E2 E1 E.
      change (efun user "where" [x; y; z]) with (do t <- arg_truth x; do u <- arg_val y; do w <- arg_val z; Ok (if t then u else w)) in Hv.
      apply bind_ok in Hv. destruct Hv as (t & Et & Hv). apply bind_ok in Hv. destruct Hv as (u & Eu & Hv). apply bind_ok in Hv. destruct Hv as (w & Ew & Hv). inversion Hv; subst.
      assert (Ga := value_of _ _ _ Ey Eu). assert (Gb := value_of _ _ _ Ez Ew).
      rewrite scol_call. cbn [mapM]. rewrite (IHc _ Gc), (IHa _ Ga), (IHb _ Gb). unfold value in Gc. rewrite Ex in Gc. cbn [bind] in Gc. unfold arg_truth in Et. rewrite Gc in Et. cbn in Et. inversion Et; subst. cbn [bind]. destruct t; reflexivity.
  Qed.
End Exprs.
