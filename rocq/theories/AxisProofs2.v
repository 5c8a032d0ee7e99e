(** Proofs about intbin, cut, groupbin, and binning under rounding (C03-C05, C07, C08). *)
From Coq Require Import String Sorted.
From Verif Require Import Base Num NumFacts Axis Calc AxisSpec AxisProofs.

(** ** intbin *)
Lemma wrap32_id z : in_int32 z = true -> wrap32 z = z.
Proof.
  unfold in_int32, wrap32, int_min, int_max. rewrite andb_true_iff, !Z.leb_le. intros [H1 H2].
  rewrite Z.mod_small by lia. lia.
Qed.

Lemma in_int32_iff z : in_int32 z = true <-> (int_min <= z <= int_max)%Z.
Proof. unfold in_int32. rewrite andb_true_iff, !Z.leb_le. reflexivity. Qed.

Lemma nltb_nz a b : nltb (nz a) (nz b) = (a <? b)%Z.
Proof.
  simpl. destruct (Z.ltb_spec a b); qc_bool; qc_push; [rewrite <- Zlt_Qlt; lia|rewrite <- Zle_Qle; lia].
Qed.
Lemma nz_inj a b : nz a = nz b -> a = b.
Proof. unfold nz. intro H. apply qz_inj. congruence. Qed.

Lemma qtrunc_nonneg q : (0 <= this q)%Q -> qtrunc q = qfloor q.
Proof.
  unfold qtrunc, qfloor, Qfloor. destruct q as [[a b] Hq]. simpl. unfold Qle. simpl. intro H.
  rewrite Z.quot_div_nonneg by lia. reflexivity.
Qed.
Lemma qtrunc_neg q : (this q <= 0)%Q -> (qtrunc q <= 0)%Z.
Proof.
  unfold qtrunc. destruct q as [[a b] Hq]. simpl. unfold Qle. simpl. intro H.
  assert (0 <= Z.quot (- a) (Z.pos b))%Z by (apply Z.quot_pos; lia).
  rewrite Z.quot_opp_l in H0 by lia. lia.
Qed.
Lemma qfloor_addz q z : qfloor (q + qz z) = (qfloor q + z)%Z.
Proof.
  destruct (qfloor_spec q) as [H1 H2]. apply qfloor_unique.
  - rewrite this_add, this_qz, inject_Z_plus. lra.
  - rewrite this_add, this_qz. replace (qfloor q + z + 1)%Z with (qfloor q + 1 + z)%Z by lia.
    rewrite inject_Z_plus. lra.
Qed.

Section Intbin.
  Variables (mn mx : Z).
  Hypothesis Hmm : (mn <= mx)%Z.
  Let n := Z.to_nat (mx - mn + 1).

  Definition intbin_fins := map (fun i => KInt (mn + Z.of_nat i)) (seq 0 n).
  Lemma intbin_fins_length : length intbin_fins = n.
  Proof. unfold intbin_fins. rewrite map_length, seq_length. reflexivity. Qed.
  Lemma keys_intbin_fkeys u o :
    keys_intbin mn mx u o = fkeys u o false (KIv NInf (nz mn) true false) intbin_fins (KIv (nz mx) PInf false true).
  Proof. unfold keys_intbin, fkeys. fold n. fold intbin_fins. rewrite app_nil_r. reflexivity. Qed.
  Lemma intbin_fins_nth j k : nth_error intbin_fins j = Some k <-> j < n /\ k = KInt (mn + Z.of_nat j).
  Proof.
    unfold intbin_fins. rewrite nth_error_map. destruct (Nat.lt_ge_cases j n) as [H|H].
    - rewrite (nth_error_nth' _ 0) by (rewrite seq_length; exact H). rewrite seq_nth by exact H.
      simpl. split; [intro E; inversion E; auto|intros [_ ->]; reflexivity].
    - assert (E : nth_error (seq 0 n) j = None) by (apply nth_error_None; rewrite seq_length; exact H).
      rewrite E. simpl. split; [discriminate|lia].
  Qed.

  Definition intbin_pos (k : Z) : pos :=
    if (k <? mn)%Z then PUnder else if (mx <? k)%Z then POver else PBin (Z.to_nat (k - mn)).

  Lemma intbin_pos_holds k p :
    pos_holds (KIv NInf (nz mn) true false) intbin_fins (KIv (nz mx) PInf false true) p (nz k) <-> p = intbin_pos k.
  Proof.
    assert (HU : contains (KIv NInf (nz mn) true false) (nz k) <-> (k < mn)%Z).
    { cbn [contains]. unfold in_interval. rewrite nltb_nz. split.
      - intros [_ [H|[H _]]]; [apply Z.ltb_lt, H|discriminate].
      - intro H. split; [left; reflexivity|left; apply Z.ltb_lt, H]. }
    assert (HO : contains (KIv (nz mx) PInf false true) (nz k) <-> (mx < k)%Z).
    { cbn [contains]. unfold in_interval. rewrite nltb_nz. split.
      - intros [[H|[H _]] _]; [apply Z.ltb_lt, H|discriminate].
      - intro H. split; [left; apply Z.ltb_lt, H|left; reflexivity]. }
    assert (HB : forall j, pos_holds (KIv NInf (nz mn) true false) intbin_fins (KIv (nz mx) PInf false true) (PBin j) (nz k)
                           <-> j < n /\ k = (mn + Z.of_nat j)%Z).
    { intro j. cbn [pos_holds]. split.
      - intros (key & Hk & Hc). apply intbin_fins_nth in Hk. destruct Hk as [Hj ->]. split; [exact Hj|].
        cbn [contains] in Hc. apply nz_inj in Hc. exact Hc.
      - intros [Hj ->]. eexists. split; [apply intbin_fins_nth; split; [exact Hj|reflexivity]|reflexivity]. }
    unfold intbin_pos. destruct (Z.ltb_spec k mn); [|destruct (Z.ltb_spec mx k)].
    - split; [|intros ->; apply HU; assumption]. destruct p as [|j| |]; intro H'; try reflexivity; exfalso.
      + apply HB in H'. lia.
      + apply HO in H'. lia.
      + discriminate H'.
    - split; [|intros ->; apply HO; assumption]. destruct p as [|j| |]; intro H'; try reflexivity; exfalso.
      + apply HU in H'. lia.
      + apply HB in H'. unfold n in *. lia.
      + discriminate H'.
    - split.
      + destruct p as [|j| |]; intro H'.
        * apply HU in H'. lia.
        * apply HB in H'. f_equal. lia.
        * apply HO in H'. lia.
        * discriminate H'.
      + intros ->. apply HB. unfold n in *. lia.
  Qed.

  Lemma intbin_clamp_slot u o k :
    intbin_clamp u o mn mx (k + (b2z u - mn)) = slot_of u o false n (intbin_pos k).
  Proof.
    unfold intbin_clamp, intbin_pos. unfold n in *.
    destruct (Z.ltb_spec k mn); [|destruct (Z.ltb_spec mx k)]; cbn [slot_of];
      destruct u, o; cbn [b2z]; zcmp; try lia; try reflexivity; try (f_equal; lia).
  Qed.

  Lemma intbin_slot_pos_matches u o k :
    slot_matches_key (keys_intbin mn mx u o) (slot_of u o false n (intbin_pos k)) (nz k).
  Proof.
    rewrite keys_intbin_fkeys.
    pose proof (slot_of_matches u o false (KIv NInf (nz mn) true false) intbin_fins (KIv (nz mx) PInf false true)
                  (intbin_pos k) (nz k)) as H.
    rewrite intbin_fins_length in H. apply H; [apply intbin_pos_holds; reflexivity|].
    intros p' Hp'. apply intbin_pos_holds. exact Hp'.
  Qed.

  Lemma intbin_slot_matches u o k : in_int32 (k + b2z u - mn) = true ->
    slot_matches_key (keys_intbin mn mx u o) (intbin_index_int u o mn mx k) (nz k).
  Proof.
    intro Hr. unfold intbin_index_int. rewrite wrap32_id by (replace (k + (b2z u - mn))%Z with (k + b2z u - mn)%Z by lia; exact Hr).
    rewrite intbin_clamp_slot. apply intbin_slot_pos_matches.
  Qed.

  (** A float column: a value not below [mn] is counted as its floor. *)
  Lemma intbin_float_floor cast u o q :
    (cast = cast_x86 \/ cast = cast_sat) ->
    in_int32 (qfloor q + b2z u - mn) = true -> (inject_Z mn <= this q)%Q ->
    intbin_index_float cast u o mn mx (Fin q) = intbin_index_int u o mn mx (qfloor q).
  Proof.
    intros Hcast Hr Hq. unfold intbin_index_float, intbin_index_int. f_equal. unfold nz. cbn [nadd].
    rewrite wrap32_id by (replace (qfloor q + (b2z u - mn))%Z with (qfloor q + b2z u - mn)%Z by lia; exact Hr).
    assert (Ht : qtrunc (q + qz (b2z u - mn)) = (qfloor q + (b2z u - mn))%Z).
    { rewrite qtrunc_nonneg; [apply qfloor_addz|]. rewrite this_add, this_qz.
      unfold Z.sub. rewrite inject_Z_plus, inject_Z_opp.
      assert (0 <= inject_Z (b2z u))%Q by (change 0%Q with (inject_Z 0); rewrite <- Zle_Qle; destruct u; simpl; lia).
      lra. }
    assert (Hin : in_int32 (qfloor q + (b2z u - mn)) = true)
      by (replace (qfloor q + (b2z u - mn))%Z with (qfloor q + b2z u - mn)%Z by lia; exact Hr).
    destruct Hcast as [-> | ->]; unfold cast_x86, cast_sat; rewrite Ht, Hin; reflexivity.
  Qed.

  Lemma intbin_keys_disjoint u o : disjoint_keys (keys_intbin mn mx u o).
  Proof.
    intros i j ki kj v Hi Hj Hci Hcj.
    rewrite keys_intbin_fkeys in Hi, Hj.
    destruct (fkeys_pos _ _ _ _ _ _ _ _ _ Hi Hci) as (p & Hp & Hpi).
    destruct (fkeys_pos _ _ _ _ _ _ _ _ _ Hj Hcj) as (p' & Hp' & Hpj).
    rewrite intbin_fins_length in *.
    assert (Hone : forall p q, pos_holds (KIv NInf (nz mn) true false) intbin_fins (KIv (nz mx) PInf false true) p v ->
              pos_holds (KIv NInf (nz mn) true false) intbin_fins (KIv (nz mx) PInf false true) q v -> p = q).
    { clear - Hmm. intros p q Hp Hq.
      assert (Hint : forall j, pos_holds (KIv NInf (nz mn) true false) intbin_fins (KIv (nz mx) PInf false true) (PBin j) v ->
                exists k, v = nz k).
      { intros j (k & Hk & Hc). apply intbin_fins_nth in Hk. destruct Hk as [_ ->]. eexists. exact Hc. }
      destruct p as [|a| |]; destruct q as [|b| |]; try reflexivity;
        try (destruct (Hint _ Hp) as [k ->]; apply intbin_pos_holds in Hp, Hq; congruence);
        try (destruct (Hint _ Hq) as [k ->]; apply intbin_pos_holds in Hp, Hq; congruence);
        exfalso; cbn [pos_holds contains] in Hp, Hq;
        try (rewrite Hq in Hp; eapply in_interval_nan; eassumption);
        try (rewrite Hp in Hq; eapply in_interval_nan; eassumption).
      - destruct Hp as [_ [Hp|[Hp _]]]; [|discriminate]. destruct Hq as [[Hq|[Hq _]] _]; [|discriminate].
        pose proof (nltb_trans _ _ _ Hq Hp) as H. rewrite nltb_nz in H. apply Z.ltb_lt in H. lia.
      - destruct Hq as [_ [Hq|[Hq _]]]; [|discriminate]. destruct Hp as [[Hp|[Hp _]] _]; [|discriminate].
        pose proof (nltb_trans _ _ _ Hp Hq) as H. rewrite nltb_nz in H. apply Z.ltb_lt in H. lia. }
    specialize (Hone p p' Hp Hp'). subst p'. destruct p; destruct Hpi, Hpj; congruence.
  Qed.

  Lemma intbin_keys_increasing u o : increasing_keys (keys_intbin mn mx u o).
  Proof.
    intros i j ki kj v w Hij Hi Hj Hci Hcj.
    rewrite keys_intbin_fkeys in Hi, Hj.
    destruct (fkeys_pos _ _ _ _ _ _ _ _ _ Hi Hci) as (p & Hp & Hpi).
    destruct (fkeys_pos _ _ _ _ _ _ _ _ _ Hj Hcj) as (p' & Hp' & Hpj).
    rewrite intbin_fins_length in *.
    assert (HB : forall a x, pos_holds (KIv NInf (nz mn) true false) intbin_fins (KIv (nz mx) PInf false true) (PBin a) x
              -> a < n /\ x = nz (mn + Z.of_nat a)).
    { intros a x (k & Hk & Hc). apply intbin_fins_nth in Hk. destruct Hk as [Ha ->]. split; [exact Ha|exact Hc]. }
    destruct p as [|a| |]; destruct p' as [|b| |]; destruct Hpi as [Hp1 Hp2], Hpj as [Hq1 Hq2];
      try discriminate; subst; try (unfold b2n in *; repeat match goal with b : bool |- _ => destruct b end; lia).
    - destruct (HB _ _ Hp') as [Hb ->]. destruct Hp as [Hl [Hh|[Hh _]]]; [|discriminate]. split.
      + intro; subst; discriminate.
      + left. apply (nltb_nleb_trans _ _ _ Hh). unfold nleb. rewrite nltb_nz.
        destruct (Z.ltb_spec mn (mn + Z.of_nat b)); [reflexivity|]. replace (mn + Z.of_nat b)%Z with mn by lia.
        apply neqb_refl. reflexivity.
    - destruct Hp as [Hl [Hh|[Hh _]]]; [|discriminate]. destruct Hp' as [[Hl'|[Hl' _]] _]; [|discriminate].
      split; [intro; subst; discriminate|]. left.
      apply (nltb_trans _ _ _ Hh). apply (nleb_nltb_trans _ (nz mx)); [|exact Hl'].
      unfold nleb. rewrite nltb_nz. destruct (Z.ltb_spec mn mx); [reflexivity|]. replace mx with mn by lia.
      apply neqb_refl. reflexivity.
    - destruct (HB _ _ Hp') as [Hb ->], (HB _ _ Hp) as [Ha ->]. split; [discriminate|]. left.
      rewrite nltb_nz. apply Z.ltb_lt. lia.
    - destruct (HB _ _ Hp) as [Ha ->]. destruct Hp' as [[Hl'|[Hl' _]] _]; [|discriminate].
      split; [discriminate|]. left. apply (nleb_nltb_trans _ (nz mx)); [|exact Hl'].
      unfold nleb. rewrite nltb_nz. destruct (Z.ltb_spec (mn + Z.of_nat a) mx); [reflexivity|].
      replace (mn + Z.of_nat a)%Z with mx by (unfold n in *; lia). apply neqb_refl. reflexivity.
  Qed.
End Intbin.

(** ** Number of keys = number of slots *)
Lemma keys_length_totbins a : is_fixed a = true -> a <> ANull -> length (keys a) = totbins a.
Proof.
  destruct a; simpl; try discriminate; intros _ Hn.
  - unfold keys_bin. rewrite !app_length, map_length, seq_length. destruct underflow, overflow, nanflow; simpl; lia.
  - unfold keys_intbin. rewrite !app_length, map_length, seq_length. destruct underflow, overflow; simpl; lia.
  - unfold keys_split. rewrite !app_length, map_length, pairs_of_length.
    destruct underflow, overflow, nanflow; simpl; lia.
  - reflexivity.
  - congruence.
Qed.

(** ** groupbin *)
Lemma inject_Z_pred z : (inject_Z (z - 1) == inject_Z z - 1)%Q.
Proof. unfold Z.sub. rewrite inject_Z_plus. reflexivity. Qed.
Definition gz (w org : Qc) (cl : bool) (v : Qc) : Z :=
  if cl then qfloor ((v - org) / w) else (qceil ((v - org) / w) - 1)%Z.
Section Groupbin.
  Variables (w org : Qc) (cl : bool).
  Hypothesis Hw : (0 < this w)%Q.


  Lemma groupbin_value_fin v :
    groupbin_value Fin cl (Fin w) (Fin org) (Fin v) = Fin (qz (gz w org cl v) * w + org).
  Proof.
    unfold groupbin_value, none1.
    assert (Ew : qeqb w qc0 = false).
    { apply qeqb_false. intro H. subst. rewrite this_qc0 in Hw. lra. }
    cbn [ndiv rn]. rewrite Ew.
    assert (Hx : forall d, (d * (qc1 / w))%Qc = (d / w)%Qc).
    { intro d. apply Qc_ext. qc_push. field. lra. }
    destruct (neqb (Fin org) nzero) eqn:E.
    - apply neqb_eq in E. injection E as E. subst org. cbn [nmul rn]. rewrite Hx. unfold gz.
      replace (v - qc0)%Qc with v by (apply Qc_ext; qc_push; ring).
      destruct cl; cbn [nfloor nceil nz nsub nadd nneg nmul rn]; f_equal; apply Qc_ext; qc_push.
      + ring.
      + rewrite inject_Z_pred. ring.
    - cbn [nsub nadd nneg rn nmul]. rewrite Hx. unfold gz, Qcminus.
      destruct cl; cbn [nfloor nceil nz nsub nadd nneg nmul rn]; f_equal; apply Qc_ext; qc_push; try reflexivity.
      rewrite inject_Z_pred. ring.
  Qed.

  Lemma groupbin_contains v : contains (groupbin_interval (Fin w) cl (Fin (qz (gz w org cl v) * w + org))) (Fin v).
  Proof.
    unfold groupbin_interval. cbn [contains]. apply in_interval_unfold; [discriminate|].
    set (d := ((v - org) / w)%Qc).
    assert (Hd : (this v == this d * this w + this org)%Q).
    { subst d. qc_push. field. lra. }
    destruct cl; unfold gz; fold d.
    - destruct (qfloor_spec d) as [H1 H2]. split.
      + rewrite nleb_nltb by reflexivity. cbn [nltb]. apply negb_true_iff. apply qltb_false.
        qc_push. rewrite Hd. nra.
      + cbn [nltb nadd]. apply qltb_iff. qc_push. rewrite Hd. rewrite inject_Z_plus in H2.
        change (inject_Z 1) with 1%Q in H2. nra.
    - destruct (qceil_spec d) as [H1 H2]. split.
      + cbn [nltb]. apply qltb_iff. qc_push. rewrite Hd. nra.
      + rewrite nleb_nltb by reflexivity. cbn [nltb nadd]. apply negb_true_iff. apply qltb_false.
        qc_push. rewrite Hd. rewrite inject_Z_pred. nra.
  Qed.

  Lemma groupbin_lattice v : (qz (gz w org cl v) * w + org)%Qc = (org + w * qz (gz w org cl v))%Qc.
  Proof. apply Qc_ext. qc_push. ring. Qed.
End Groupbin.

(** ** Range and monotonicity under rounding *)
Lemma bin_clamp_range u o n z i : bin_clamp u o n z = Some i ->
  (0 <= i < Z.of_nat n + b2z u + b2z o)%Z.
Proof.
  unfold bin_clamp. destruct u, o; cbn [b2z]; zcmp; intro HH; try discriminate; inversion HH; lia.
Qed.
Lemma bin_index_range rnd cast u o nf cl n low high v i :
  bin_index rnd cast u o nf cl n low high v = Ok (Some i) ->
  (0 <= i < Z.of_nat (n + b2n u + b2n o + b2n nf))%Z.
Proof.
  unfold bin_index. destruct (bin_scaled _ _ _ _ _ _ _) as [x|]; [|discriminate]. cbn [bind].
  intro H. injection H as H. destruct (isnan x).
  - destruct nf; [|discriminate]. inversion H. destruct u, o; unfold b2n, b2z; lia.
  - apply bin_clamp_range in H. destruct u, o, nf; unfold b2n, b2z in *; lia.
Qed.

Lemma bin_clamp_mono u o n a b i j : (a <= b)%Z ->
  bin_clamp u o n a = Some i -> bin_clamp u o n b = Some j -> (i <= j)%Z.
Proof.
  unfold bin_clamp. intro Hab. destruct u, o; cbn [b2z]; zcmp; intros HH1 HH2; try discriminate;
    inversion HH1; inversion HH2; lia.
Qed.
(** Also the pattern of dropped values is monotone: between two kept values nothing is dropped. *)
Lemma bin_clamp_convex u o n a b c i j : (a <= b <= c)%Z ->
  bin_clamp u o n a = Some i -> bin_clamp u o n c = Some j -> exists k, bin_clamp u o n b = Some k.
Proof.
  unfold bin_clamp. intro Hab. destruct u, o; cbn [b2z]; zcmp; intros HH1 HH2; try discriminate; try lia; eauto.
Qed.

Definition monotone_rnd (rnd : Qc -> Num) : Prop :=
  forall x y, (this x <= this y)%Q -> nleb (rnd x) (rnd y) = true.

Lemma nleb_fin x y : nleb (Fin x) (Fin y) = true <-> (this x <= this y)%Q.
Proof.
  rewrite nleb_nltb by reflexivity. cbn [nltb]. rewrite negb_true_iff, qltb_false. reflexivity.
Qed.
Lemma nleb_ninf x : x <> NaN -> nleb NInf x = true.
Proof. destruct x; simpl; try reflexivity. congruence. Qed.
Lemma nleb_pinf x : x <> NaN -> nleb x PInf = true.
Proof. destruct x; simpl; try reflexivity. congruence. Qed.

Section Mono.
  Variable rnd : Qc -> Num.
  Hypothesis Hm : monotone_rnd rnd.
  Hypothesis H0 : rnd qc0 = nzero.

  Lemma rnd_notnan q : rnd q <> NaN.
  Proof. intro E. pose proof (Hm q q (Qle_refl _)) as H. rewrite E in H. discriminate. Qed.
  Lemma rn_nan x : rn rnd x = NaN -> x = NaN.
  Proof. destruct x; simpl; try congruence. intro H. exfalso. eapply rnd_notnan; eauto. Qed.
  (** Hypothesis on overflow is not needed: an infinity stays, a finite value may become one. *)
  Lemma rn_mono x y : nleb x y = true -> nleb (rn rnd x) (rn rnd y) = true.
  Proof.
    intro H. destruct (nleb_notnan _ _ H) as [Hx Hy].
    destruct x, y; simpl in *; try discriminate; try reflexivity.
    - apply Hm. apply nleb_fin. exact H.
    - apply nleb_pinf. apply rnd_notnan.
    - apply nleb_ninf. apply rnd_notnan.
  Qed.
  Lemma nadd_mono x y c : nleb x y = true -> nadd x c <> NaN -> nadd y c <> NaN ->
    nleb (nadd x c) (nadd y c) = true.
  Proof.
    intros H Hx Hy. destruct c, x, y; simpl in *; try discriminate; try reflexivity; try congruence.
    apply nleb_fin. change (nleb (Fin q0) (Fin q1) = true) in H. apply nleb_fin in H. rewrite !this_add. lra.
  Qed.
  Lemma nmul_mono x y s : nleb nzero s = true -> nleb x y = true -> nmul x s <> NaN -> nmul y s <> NaN ->
    nleb (nmul x s) (nmul y s) = true.
  Proof.
    intros Hs H Hx Hy. destruct s as [s| | |]; simpl in Hs; try discriminate.
    - assert (Hs' : (0 <= this s)%Q) by (change (nleb (Fin qc0) (Fin s) = true) in Hs; apply nleb_fin in Hs; rewrite this_qc0 in Hs; exact Hs).
      destruct (ninf_sign_cases s) as [[E1 E2]|[[E1 E2]|[E1 E2]]]; [|lra|].
      + destruct x, y; simpl in *; rewrite ?E2 in *; simpl in *; try discriminate; try reflexivity; try congruence.
        apply nleb_fin. change (nleb (Fin q) (Fin q0) = true) in H. apply nleb_fin in H.
        rewrite !this_mul. apply Qmult_le_compat_r; lra.
      + destruct x, y; simpl in *; rewrite ?E2 in *; simpl in *; try discriminate; try congruence.
        apply nleb_fin. subst. rewrite !this_mul, this_qc0. lra.
    - destruct x as [x| | |], y as [y| | |]; simpl in *; try discriminate; try reflexivity; try congruence;
        repeat match goal with
        | |- context [ninf_sign ?z] => destruct (ninf_sign_cases z) as [[? E]|[[? E]|[? E]]]; rewrite E in *; clear E
        end; simpl in *; try reflexivity; try congruence.
      change (nleb (Fin x) (Fin y) = true) in H. apply nleb_fin in H. lra.
  Qed.
  Lemma nfloor_mono x y : nleb x y = true -> nleb (nfloor x) (nfloor y) = true.
  Proof.
    intro H. destruct x, y; simpl in *; try discriminate; try reflexivity.
    apply nleb_fin. change (nleb (Fin q) (Fin q0) = true) in H. apply nleb_fin in H.
    rewrite !this_qz. rewrite <- Zle_Qle. apply qfloor_mono, H.
  Qed.
  Lemma nceil_mono x y : nleb x y = true -> nleb (nceil x) (nceil y) = true.
  Proof.
    intro H. destruct x, y; simpl in *; try discriminate; try reflexivity.
    apply nleb_fin. change (nleb (Fin q) (Fin q0) = true) in H. apply nleb_fin in H.
    rewrite !this_qz. rewrite <- Zle_Qle. apply qceil_mono, H.
  Qed.

  Lemma nsub_fin_nan x l : x <> NaN -> nsub x (Fin l) <> NaN.
  Proof. destruct x; simpl; congruence. Qed.

  Lemma bin_scale_nonneg n l h s : (this l <= this h)%Q -> bin_scale rnd n (Fin l) (Fin h) = Ok s ->
    nleb nzero s = true.
  Proof.
    intros Hlh. unfold bin_scale. destruct (neqb _ nzero) eqn:E; [discriminate|]. intro H. injection H as <-.
    cbn [nsub nadd nneg rn] in *.
    assert (Hw : nleb nzero (rnd (h + - l)%Qc) = true).
    { rewrite <- H0. apply Hm. qc_push. lra. }
    assert (Hq : nleb nzero (ndiv (nnat n) (rnd (h + - l)%Qc)) = true).
    { unfold nnat, nz. destruct (rnd (h + - l)%Qc) as [w| | |] eqn:Er; simpl in Hw; try discriminate.
      - cbn [ndiv]. cbn [neqb nzero] in E. rewrite E. apply nleb_fin. rewrite this_qc0, this_div, this_qz.
        assert (Hw' : (0 <= this w)%Q)
          by (change (nleb (Fin qc0) (Fin w) = true) in Hw; apply nleb_fin in Hw; rewrite this_qc0 in Hw; exact Hw).
        assert (Hw'' : ~ (this w == 0)%Q).
        { intro Hz. apply qeqb_false in E. apply E. apply Qc_ext. rewrite this_qc0. exact Hz. }
        apply Qle_shift_div_l; [lra|]. rewrite Qmult_0_l. change 0%Q with (inject_Z 0). rewrite <- Zle_Qle. lia.
      - reflexivity. }
    assert (E0 : rn rnd nzero = nzero) by exact H0. rewrite <- E0. apply rn_mono. exact Hq.
  Qed.

  Lemma bin_scaled_mono u cl n l h v w x y : (this l <= this h)%Q -> nleb v w = true ->
    bin_scaled rnd u cl n (Fin l) (Fin h) v = Ok x -> bin_scaled rnd u cl n (Fin l) (Fin h) w = Ok y ->
    x <> NaN -> y <> NaN -> nleb x y = true.
  Proof.
    intros Hlh Hvw. unfold bin_scaled. destruct (bin_scale rnd n (Fin l) (Fin h)) as [s|] eqn:Es; [|discriminate].
    cbn [bind]. intros Hx Hy. injection Hx as <-. injection Hy as <-. intros Nx Ny.
    pose proof (bin_scale_nonneg _ _ _ _ Hlh Es) as Hs.
    destruct (nleb_notnan _ _ Hvw) as [Nv Nw].
    assert (Nv' : v <> NaN) by (destruct v; simpl in Nv; congruence).
    assert (Nw' : w <> NaN) by (destruct w; simpl in Nw; congruence).
    assert (H1 : nleb (rn rnd (nsub v (Fin l))) (rn rnd (nsub w (Fin l))) = true).
    { apply rn_mono. apply nadd_mono; [exact Hvw| |]; apply (nsub_fin_nan _ l); assumption. }
    set (a := rn rnd (nsub v (Fin l))) in *. set (b := rn rnd (nsub w (Fin l))) in *.
    assert (Na : nmul a s <> NaN).
    { intro E. apply Nx. rewrite E. cbn [rn nfloor nceil nadd]. destruct cl, u; reflexivity. }
    assert (Nb : nmul b s <> NaN).
    { intro E. apply Ny. rewrite E. cbn [rn nfloor nceil nadd]. destruct cl, u; reflexivity. }
    assert (H2 : nleb (rn rnd (nmul a s)) (rn rnd (nmul b s)) = true) by (apply rn_mono, nmul_mono; assumption).
    set (p := rn rnd (nmul a s)) in *. set (q := rn rnd (nmul b s)) in *.
    destruct cl.
    - apply nfloor_mono in H2. destruct u; [|exact H2]. apply rn_mono, nadd_mono; [exact H2| |].
      + intro E. apply Nx. rewrite E. reflexivity.
      + intro E. apply Ny. rewrite E. reflexivity.
    - apply nceil_mono in H2. apply rn_mono, nadd_mono; [exact H2| |].
      + intro E. apply Nx. rewrite E. reflexivity.
      + intro E. apply Ny. rewrite E. reflexivity.
  Qed.
End Mono.

Lemma qtrunc_mono x y : (this x <= this y)%Q -> (qtrunc x <= qtrunc y)%Z.
Proof.
  intro H. destruct (Qlt_le_dec (this x) 0) as [Hx|Hx].
  - destruct (Qlt_le_dec (this y) 0) as [Hy|Hy].
    + (* both negative: trunc q = - floor (- q) *)
      assert (E : forall q, (this q < 0)%Q -> qtrunc q = (- qfloor (- q))%Z).
      { intros q Hq. assert (Hq' : (0 <= this (- q)%Qc)%Q) by (rewrite this_opp; lra).
        rewrite <- (qtrunc_nonneg _ Hq').
        unfold qtrunc. clear Hq'. destruct q as [[a b] Hc].
        assert (Hr : this (- {| this := a # b; canon := Hc |})%Qc = (- a # b)%Q).
        { unfold Qcopp, Q2Qc. cbn [this]. unfold Qopp. cbn [Qnum Qden].
          apply Qred_identity. cbn [Qnum Qden]. rewrite Z.gcd_opp_l. exact (Qred_identity2 _ Hc). }
        rewrite Hr. cbn [this Qnum Qden]. rewrite Z.quot_opp_l by lia. lia. }
      rewrite (E x Hx), (E y Hy). assert (qfloor (- y) <= qfloor (- x))%Z; [|lia].
      apply qfloor_mono. rewrite !this_opp. lra.
    + assert (qtrunc x <= 0)%Z by (apply qtrunc_neg; lra).
      assert (0 <= qtrunc y)%Z; [|lia]. rewrite qtrunc_nonneg by exact Hy. apply qfloor_le_iff. exact Hy.
  - rewrite !qtrunc_nonneg by lra. apply qfloor_mono, H.
Qed.

Lemma cast_sat_mono x y : x <> NaN -> y <> NaN -> nleb x y = true -> (cast_sat x <= cast_sat y)%Z.
Proof.
  intros Nx Ny H.
  assert (R : forall q, (int_min <= cast_sat (Fin q) <= int_max)%Z).
  { intro q. simpl. destruct (in_int32 (qtrunc q)) eqn:E; [apply in_int32_iff in E; exact E|].
    destruct (qltb q qc0); unfold int_min, int_max; lia. }
  destruct x as [x| | |], y as [y| | |]; try congruence; try discriminate; try apply R; try (simpl; unfold int_min, int_max; lia).
  apply nleb_fin in H. pose proof (qtrunc_mono _ _ H) as Ht. simpl.
  assert (Sx : qltb x qc0 = false -> (0 <= qtrunc x)%Z).
  { intro E. apply qltb_false in E. rewrite this_qc0 in E. rewrite qtrunc_nonneg by exact E. apply qfloor_le_iff. exact E. }
  assert (Sy : qltb y qc0 = true -> (qtrunc y <= 0)%Z).
  { intro E. apply qltb_iff in E. rewrite this_qc0 in E. apply qtrunc_neg. lra. }
  assert (Sx' : qltb x qc0 = true -> (qtrunc x <= 0)%Z).
  { intro E. apply qltb_iff in E. rewrite this_qc0 in E. apply qtrunc_neg. lra. }
  assert (Sy' : qltb y qc0 = false -> (0 <= qtrunc y)%Z).
  { intro E. apply qltb_false in E. rewrite this_qc0 in E. rewrite qtrunc_nonneg by exact E. apply qfloor_le_iff. exact E. }
  unfold in_int32.
  destruct (qltb x qc0), (qltb y qc0); repeat match goal with H : ?a = ?a -> _ |- _ => specialize (H eq_refl)
    | H : true = false -> _ |- _ => clear H | H : false = true -> _ |- _ => clear H end;
  repeat match goal with |- context [(?a <=? ?b)%Z] => destruct (Z.leb_spec a b) end; simpl; unfold int_min, int_max in *; lia.
Qed.

Lemma bin_index_mono rnd u o nf cl n l h v w i j :
  monotone_rnd rnd -> rnd qc0 = nzero -> (this l <= this h)%Q -> nleb v w = true ->
  bin_index rnd cast_sat u o nf cl n (Fin l) (Fin h) v = Ok (Some i) ->
  bin_index rnd cast_sat u o nf cl n (Fin l) (Fin h) w = Ok (Some j) ->
  (nf = true -> i <> Z.of_nat n + b2z u + b2z o)%Z -> (nf = true -> j <> Z.of_nat n + b2z u + b2z o)%Z ->
  (i <= j)%Z.
Proof.
  intros Hm H0 Hlh Hvw. unfold bin_index.
  destruct (bin_scaled rnd u cl n (Fin l) (Fin h) v) as [x|] eqn:Ex; [|discriminate].
  destruct (bin_scaled rnd u cl n (Fin l) (Fin h) w) as [y|] eqn:Ey; [|discriminate].
  cbn [bind]. intros Hi Hj Ni Nj. injection Hi as Hi. injection Hj as Hj.
  destruct (isnan x) eqn:Nx.
  { exfalso. destruct nf; [|discriminate]. inversion Hi. apply (Ni eq_refl). lia. }
  destruct (isnan y) eqn:Ny.
  { exfalso. destruct nf; [|discriminate]. inversion Hj. apply (Nj eq_refl). lia. }
  eapply bin_clamp_mono; [|exact Hi|exact Hj].
  apply cast_sat_mono; try (intro; subst; discriminate).
  eapply bin_scaled_mono; eauto; intro; subst; discriminate.
Qed.
