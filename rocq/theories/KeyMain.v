(** The rows of a cell are those whose values its displayed keys hold. *)
From Coq Require Import String Permutation.
From Verif Require Import Num NumFacts Base Tree Instr InstrSpec InstrProofs Axis Calc AxisSpec AxisProofs AxisProofs2 AxisMain Content Fill FillSpec FillProofs FillProofs2 FillMain Elem HistFill HistSpec HistFillProofs HistFillMain HistFillMain2 HistFillMain3 HistFillMain4 KeySpec.
Local Open Scope list_scope.

Lemma matches_iff ks slot v j k : disjoint_keys ks -> slot_matches_key ks slot v ->
  nth_error ks j = Some k -> (slot = Some (Z.of_nat j) <-> contains k v).
Proof.
  intros D M E. split.
  - intros ->. destruct M as (j' & k' & Ej & Ek & C). apply Nat2Z.inj in Ej. subst. congruence.
  - intros C. destruct slot as [i|]; simpl in M.
    + destruct M as (j' & k' & -> & Ek & C'). rewrite (D j' j k' k v); auto.
    + exfalso. apply (M k); auto. eapply nth_error_In; eauto.
Qed.

Lemma qtrunc_z k : qtrunc (qz k) = k.
Proof.
  unfold qtrunc. replace (this (qz k)) with (k # 1)%Q. 2:{ symmetry. apply Qred_identity. simpl. rewrite Z.gcd_1_r. reflexivity. }
  cbn [Qnum Qden]. apply Z.quot_1_r.
Qed.
Lemma intbin_float_int u o mn mx k : in_int32 (k + b2z u - mn) = true ->
  intbin_index_float cast_sat u o mn mx (nz k) = intbin_index_int u o mn mx k.
Proof.
  intros H. unfold intbin_index_float, intbin_index_int. f_equal.
  replace (nadd (nz k) (nz (b2z u - mn))) with (nz (k + b2z u - mn)).
  2:{ unfold nz. simpl. f_equal. apply Qc_is_canon. qc_push.
      rewrite <- inject_Z_plus. replace (k + (b2z u - mn))%Z with (k + b2z u - mn)%Z by lia. reflexivity. }
  unfold nz. simpl. rewrite qtrunc_z, H. replace (k + (b2z u - mn))%Z with (k + b2z u - mn)%Z by lia.
  symmetry. apply wrap32_id; auto.
Qed.

(** ** One fixed axis *)
Lemma fixed_slot ax v : axis_fine ax -> is_fixed ax = true -> value_fine ax v ->
  exists o, slot_of cast_sat Fin ax v = Ok o /\
    (forall s k, nth_error (keys ax) s = Some k -> (o = Some (Z.of_nat s) <-> holds k v)) /\
    (o = None -> forall k, In k (keys ax) -> ~ holds k v) /\
    length (keys ax) = totbins ax /\ axis_valid ax.
Proof.
  intros F G W. destruct F as [e|e w org nf cl ax M|e n l hh u o nf cl ax M Hn Hb|e mn mx u o ax M|e raw u o nf cl ax Hr M|e].
  - discriminate.
  - unfold mk_groupbin in M. destruct (nleb (Fin w) nzero); [discriminate|]. injection M as <-. discriminate.
  - destruct (c07_bin _ _ _ _ _ _ _ _ _ M Hn) as (D & _ & Len & _).
    assert (Eax : ax = ABin e n (Fin l) (Fin hh) u o nf cl).
    { unfold mk_bin in M. destruct (_ || _); [discriminate|]. destruct (Nat.eqb _ 0); congruence. }
    assert (M' := M). rewrite Eax in W |- *. rewrite Eax in D, Len, M'. destruct W as (x & ->).
    destruct (c01_sat _ _ _ _ _ _ _ _ _ x M' Hn Hb) as (slot & Es & Ms). exists slot. split; [exact Es|].
    split; [intros s k Ek; cbn [holds]; eapply matches_iff; eauto|]. split; [|split; auto; exact I].
    intros -> k Hk. apply Ms; auto.
  - destruct (c07_intbin _ _ _ _ _ _ M) as (D & _ & Len & _).
    assert (M' := M). apply mk_intbin_ok in M'. destruct M' as (Eax & Hle). rewrite Eax in *.
    destruct W as (k0 & -> & Hk0). exists (intbin_index_int u o mn mx k0).
    split. { cbn [slot_of val_num bind]. rewrite intbin_float_int; auto. apply in_int32_iff; auto. }
    assert (Ms := c03 _ _ _ _ _ _ k0 M Hk0).
    split; [intros s k Ek; cbn [holds]; eapply matches_iff; eauto|]. split; [|split; auto].
    intros E k Hk. rewrite E in Ms. apply Ms; auto.
  - destruct (c07_split _ _ _ _ _ _ _ Hr M) as (D & _ & Len & _).
    assert (M' := M). apply mk_split_ok in M'. destruct M' as (Eax & _). rewrite Eax in *.
    destruct W as (x & ->). exists (split_index u o nf cl (sort_num raw) x). split; [reflexivity|].
    assert (Ms := c02 _ _ _ _ _ _ _ x Hr M).
    split; [intros s k Ek; cbn [holds]; eapply matches_iff; eauto|]. split; [|split; auto].
    + intros E k Hk. rewrite E in Ms. apply Ms; auto.
    + simpl. intros E. unfold mk_split in M. destruct raw as [|a raw]; [discriminate|].
      assert (Hl : length (sort_num (a :: raw)) = length (a :: raw)).
      { clear. assert (Hi : forall x l, length (insert_num x l) = S (length l)).
        { induction l as [|y l IH]; simpl; auto. destruct (nltb x y); simpl; auto. }
        induction (a :: raw) as [|y l IH]; simpl; auto. rewrite Hi. f_equal. exact IH. }
      rewrite E in Hl. discriminate.
  - destruct W as (b & ->). exists (cut_index b). split; [reflexivity|].
    split; [|split; [|split; [reflexivity|exact I]]].
    + intros s k Ek. cbn [holds]. destruct s as [|[|s]]; simpl in Ek; [| |destruct s; discriminate];
        injection Ek as <-; destruct b; vm_compute; split; congruence.
    + discriminate.
Qed.

(** ** One group axis *)
Lemma groupbin_unique w org cl x z z' : (0 < this w)%Q ->
  in_interval (Fin (org + w * qz z)%Qc) (nadd (Fin (org + w * qz z)%Qc) (Fin w)) cl (negb cl) (Fin x) ->
  in_interval (Fin (org + w * qz z')%Qc) (nadd (Fin (org + w * qz z')%Qc) (Fin w)) cl (negb cl) (Fin x) -> z = z'.
Proof.
  intros Hw.
  assert (T : forall a b, (a < b)%Z ->
    in_interval (Fin (org + w * qz a)%Qc) (nadd (Fin (org + w * qz a)%Qc) (Fin w)) cl (negb cl) (Fin x) ->
    in_interval (Fin (org + w * qz b)%Qc) (nadd (Fin (org + w * qz b)%Qc) (Fin w)) cl (negb cl) (Fin x) -> False).
  { intros a b Hab (_ & Hx) (Hy & _).
    assert (P : (this (org + w * qz a + w) <= this (org + w * qz b))%Q).
    { qc_push. assert (inject_Z a + 1 <= inject_Z b)%Q by (change 1%Q with (inject_Z 1); rewrite <- inject_Z_plus, <- Zle_Qle; lia).
      nra. }
    cbn [nadd nltb] in *. rewrite !qltb_iff in *.
    destruct Hx as [Hx|(C1 & Hx & _)], Hy as [Hy|(C2 & Hy & _)].
    - apply (Qlt_irrefl (this x)). eapply Qlt_le_trans; [exact Hx|]. eapply Qle_trans; [exact P|]. apply Qlt_le_weak; auto.
    - assert (E : x = (org + w * qz b)%Qc) by congruence. rewrite <- E in P. apply (Qlt_irrefl (this x)). eapply Qlt_le_trans; eauto.
    - assert (E : x = (org + w * qz a + w)%Qc) by congruence. rewrite <- E in P. apply (Qlt_irrefl (this x)). eapply Qle_lt_trans; eauto.
    - destruct cl; discriminate. }
  intros H H'. destruct (Z.lt_trichotomy z z') as [L|[E|L]]; auto; exfalso; eauto.
Qed.

Lemma group_key ax v : axis_fine ax -> is_group ax = true -> value_fine ax v ->
  exists o, key_of Fin ax v = Ok o /\ (forall k, o = Some k -> key_ok k) /\
    (forall k, o = Some k <-> in_group ax v k).
Proof.
  intros F G W. destruct F as [e|e w org nf cl ax M|e n l hh u o nf cl ax M Hn Hb|e mn mx u o ax M|e raw u o nf cl ax Hr M|e].
  - exists (Some (val_key v)). split; [reflexivity|]. simpl in W. split.
    + intros k E. injection E as <-. destruct v as [x|s|b]; simpl; unfold key_ok; try discriminate.
      intros E. apply W. congruence.
    + intros k. cbn [in_group]. destruct v as [x|s|b]; simpl; split; try congruence; destruct b; simpl; congruence.
  - assert (Hw := mk_groupbin_ok _ _ _ _ _ _ M).
    assert (Eax : ax = AGroupbin e (Fin w) (Fin org) nf cl).
    { unfold mk_groupbin in M. destruct (nleb (Fin w) nzero); congruence. }
    rewrite Eax in *. destruct W as (x & -> & Hx). exists (groupbin_key Fin nf cl (Fin w) (Fin org) x).
    split; [reflexivity|]. destruct Hx as [Hx| ->].
    + destruct x as [q| | |]; try discriminate. destruct (c05 _ _ _ _ _ _ q M) as (z & E & I).
      rewrite E. split; [intros k Ek; injection Ek as <-; discriminate|].
      intros k. cbn [in_group]. split.
      * intros Ek. left. exists q, z. split; auto. split; auto. congruence.
      * intros [(x & z' & Ex & -> & I')|(Ev & _)]; [|discriminate]. assert (x = q) by congruence. subst x.
        rewrite (groupbin_unique w org cl q z z'); auto.
    + rewrite (c05_nan _ _ _ _ _ _ M). split; [destruct nf; intros k Ek; inversion Ek; discriminate|].
      intros k. cbn [in_group]. split.
      * destruct nf; intros Ek; [|discriminate]. right. split; auto. split; auto. congruence.
      * intros [(x & z' & Ex & _)|(_ & -> & ->)]; [discriminate|reflexivity].
  - unfold mk_bin in M. destruct (_ || _); [discriminate|]. destruct (Nat.eqb _ 0); [discriminate|]. injection M as <-. discriminate.
  - apply mk_intbin_ok in M. destruct M as (-> & _). discriminate.
  - apply mk_split_ok in M. destruct M as (-> & _). discriminate.
  - discriminate.
Qed.

(** ** The row *)
Section Row.
  Variable user : string -> list arg -> res val.
  Variable h : hist.
  Hypothesis Hg : forall p, In p (h_group h) -> is_group (fst p) = true.
  Hypothesis Hf : forall p, In p (h_fixed h) -> is_fixed (fst p) = true.
  Hypothesis Hax : forall p, In p (h_group h ++ h_fixed h) -> axis_fine (fst p).

  Lemma keys_row field (l : list (axis * tree)) :
    (forall p, In p l -> is_group (fst p) = true /\ axis_fine (fst p) /\ exists v, value user field (snd p) = Ok v /\ value_fine (fst p) v) ->
    exists ks, mapM (fun p => do v <- value user field (snd p); key_of Fin (fst p) v) l = Ok ks /\
      (forall k, In (Some k) ks -> key_ok k) /\
      forall gs, keys_match gs ks = true <-> Forall2 (fun p k => exists v, value user field (snd p) = Ok v /\ in_group (fst p) v k) l gs.
  Proof.
    induction l as [|p l IH]; intros H.
    - exists []. split; auto. split; [intros k []|]. intros [|g gs]; simpl; split; intros E; try constructor; try discriminate; inversion E.
    - destruct IH as (ks & E & K & I); [intros; apply H; right; auto|].
      destruct (H p) as (G & F & v & Ev & W); [left; auto|].
      destruct (group_key _ _ F G W) as (o & Eo & Ok_ & Io).
      exists (o :: ks). simpl. rewrite Ev. simpl. rewrite Eo. simpl. rewrite E. split; auto.
      split; [intros k [Hk|Hk]; auto|].
      intros [|g gs]; [simpl; split; intros X; [discriminate|inversion X]|].
      destruct o as [k|]; simpl.
      + rewrite andb_true_iff, gkey_eqb_iff, I. split.
        * intros ((-> & _) & R). constructor; auto. exists v. split; auto. apply Io; auto.
        * intros R. inversion R as [|? ? ? ? (v' & Ev' & Ig) R']; subst. assert (v' = v) by congruence. subst.
          apply Io in Ig. assert (k = g) by congruence. subst. auto.
      + split; [discriminate|]. intros R. inversion R as [|? ? ? ? (v' & Ev' & Ig) R']; subst.
        assert (v' = v) by congruence. subst. apply Io in Ig. discriminate.
  Qed.

  Lemma slots_row field (l : list (axis * tree)) :
    (forall p, In p l -> is_fixed (fst p) = true /\ axis_fine (fst p) /\ exists v, value user field (snd p) = Ok v /\ value_fine (fst p) v) ->
    exists rs, mapM (fun p => do v <- value user field (snd p); slot_of cast_sat Fin (fst p) v) l = Ok rs /\
      (forall ss, Forall2 lt ss (map (fun p => totbins (fst p)) l) ->
        (slots_match ss rs = true <->
         Forall2 (fun p s => exists v k, value user field (snd p) = Ok v /\ nth_error (keys (fst p)) s = Some k /\ holds k v) l ss)) /\
      ((forall p, In p l -> exists v k, value user field (snd p) = Ok v /\ In k (keys (fst p)) /\ holds k v) -> ~ In None rs).
  Proof.
    induction l as [|p l IH]; intros H.
    - exists []. split; auto. split; [|intros _ []].
      intros ss S. inversion S. simpl. split; auto.
    - destruct IH as (rs & E & I & K); [intros; apply H; right; auto|].
      destruct (H p) as (G & F & v & Ev & W); [left; auto|].
      destruct (fixed_slot _ _ F G W) as (o & Eo & Io & No & Len & _).
      exists (o :: rs). simpl. rewrite Ev. simpl. rewrite Eo. simpl. rewrite E. split; auto. split.
      + intros ss S. inversion S as [|s t ss' ts Hs S']; subst.
        assert (Hk : exists k, nth_error (keys (fst p)) s = Some k).
        { destruct (nth_error (keys (fst p)) s) eqn:En; eauto. apply nth_error_None in En. lia. }
        destruct Hk as (k & Ek). specialize (Io s k Ek). specialize (I ss' S'). simpl.
        assert (R : Forall2 (fun p s => exists v k, value user field (snd p) = Ok v /\ nth_error (keys (fst p)) s = Some k /\ holds k v) (p :: l) (s :: ss')
                <-> holds k v /\ Forall2 (fun p s => exists v k, value user field (snd p) = Ok v /\ nth_error (keys (fst p)) s = Some k /\ holds k v) l ss').
        { split.
          - intros R. inversion R as [|? ? ? ? (v' & k' & E1 & E2 & Hh) R']; subst. split; auto.
            replace k with k' by congruence. replace v with v' by congruence. auto.
          - intros (Hh & R). constructor; auto. exists v, k. auto. }
        rewrite R, <- I, <- Io. destruct o as [z|].
        * rewrite andb_true_iff, Z.eqb_eq. split; intros (A & B); split; auto; congruence.
        * split; [discriminate|]. intros (A & _). discriminate.
      + intros Hk [Hn|Hn].
        * subst o. destruct (Hk p) as (v' & k & E1 & E2 & Hh); [left; auto|]. replace v' with v in Hh by congruence.
          exact (No eq_refl k E2 Hh).
        * apply K; auto.
  Qed.

  Lemma profs_row field (l : list tree) : (forall t, In t l -> exists x, number user field t = Ok x) ->
    exists xs, mapM (fun t => do x <- number user field t; Ok (x, nmul x x)) l = Ok xs /\
      forall p t, nth_error l p = Some t -> exists x, number user field t = Ok x /\ nth_error xs p = Some (x, nmul x x).
  Proof.
    induction l as [|t l IH]; intros H.
    - exists []. split; auto. intros [|p] t E; discriminate.
    - destruct IH as (xs & E & I); [intros; apply H; right; auto|]. destruct (H t) as (x & Ex); [left; auto|].
      exists ((x, nmul x x) :: xs). simpl. rewrite Ex. simpl. rewrite E. split; auto.
      intros [|p] u Eu; simpl in *; [injection Eu as <-; eauto|eauto].
  Qed.

  Lemma row_fine_row field : row_fine user h field ->
    exists r, row_of cast_sat Fin user h field = Ok r /\
      (forall k, In (Some k) (r_keys r) -> key_ok k) /\
      (forall ks ss, in_shape (hist_layout h) ss -> (in_cell ks ss r = true <-> belongs user h field ks ss)) /\
      (forall kd, has_column (hist_layout h) kd -> adds user h field kd = Ok (row_adds (hist_mode h) kd r)) /\
      (row_kept user h field -> unmasked r).
  Proof.
    intros (R1 & R2 & (w & R3)).
    destruct (keys_row field (h_group h)) as (ks & Ek & Kk & Ik).
    { intros p Hp. split; auto. split; [apply Hax, in_app_iff; auto|apply R1, in_app_iff; auto]. }
    destruct (slots_row field (h_fixed h)) as (rs & Es & Is & Ks).
    { intros p Hp. split; auto. split; [apply Hax, in_app_iff; auto|apply R1, in_app_iff; auto]. }
    destruct (profs_row field (h_prof h) R2) as (xs & Ex & Ix).
    assert (Hw : exists w0, match h_weight h with None => Ok none1 | Some (WxConst v) => Ok v | Some (WxTree t) => number user field t end = Ok w0 /\
      w = row_weight (hist_mode h) {| r_keys := ks; r_slots := rs; r_prof := xs; r_w := w0; r_w2 := nmul w0 w0 |} /\
      nmul w w = row_weight2 (hist_mode h) {| r_keys := ks; r_slots := rs; r_prof := xs; r_w := w0; r_w2 := nmul w0 w0 |} ).
    { unfold weight_of in R3. unfold hist_mode. destruct (h_weight h) as [[v|t]|].
      - exists v. injection R3 as <-. auto.
      - apply bind_ok in R3. destruct R3 as (w0 & E0 & E1). exists w0. split; auto. injection E1 as <-. simpl.
        destruct (isnan w0); auto.
      - exists none1. injection R3 as <-. simpl. split; auto. }
    destruct Hw as (w0 & Ew & Hw1 & Hw2).
    exists {| r_keys := ks; r_slots := rs; r_prof := xs; r_w := w0; r_w2 := nmul w0 w0 |}.
    split; [unfold row_of; rewrite Ek; cbn [bind]; rewrite Es; cbn [bind]; rewrite Ex; cbn [bind]; rewrite Ew; reflexivity|].
    split; [exact Kk|]. split; [|split].
    - intros gs ss S. unfold in_cell, belongs. cbn [r_keys r_slots]. rewrite andb_true_iff, Ik, Is; [tauto|exact S].
    - intros kd Hk. unfold adds. rewrite R3. cbn [bind].
      destruct kd as [p|p| |]; cbn [row_adds]; [| |f_equal; exact Hw1|f_equal; exact Hw2].
      + destruct (nth_error (h_prof h) p) as [t|] eqn:Et; [|apply nth_error_None in Et; simpl in Hk; lia].
        destruct (Ix p t Et) as (x & E1 & E2). rewrite E1. cbn [bind].
        rewrite <- Hw1. cbn [r_prof]. rewrite (nth_error_nth _ _ _ E2). reflexivity.
      + destruct (nth_error (h_prof h) p) as [t|] eqn:Et; [|apply nth_error_None in Et; simpl in Hk; lia].
        destruct (Ix p t Et) as (x & E1 & E2). rewrite E1. cbn [bind].
        rewrite <- Hw1. cbn [r_prof]. rewrite (nth_error_nth _ _ _ E2). reflexivity.
    - intros Hk. exact (Ks Hk).
  Qed.
End Row.

(** ** All the rows *)
Section Fill.
  Variable user : string -> list arg -> res val.
  Variable order : tree -> list tree -> list tree.
  Variable h : hist.
  Hypothesis Hwf : hist_wf h.
  Hypothesis Hax : forall p, In p (h_group h ++ h_fixed h) -> axis_fine (fst p).

  Lemma rows_fine A len : (forall i, i < len -> row_fine user h (field_at A i)) ->
    exists rows, rows_of cast_sat Fin user h A len = Ok rows.
  Proof.
    intros H. unfold rows_of.
    assert (G : forall l, (forall i, In i l -> i < len) -> exists rows, mapM (fun i => row_of cast_sat Fin user h (field_at A i)) l = Ok rows).
    { induction l as [|i l IH]; intros Hl; [eexists; reflexivity|].
      destruct IH as (rows & E); [intros; apply Hl; right; auto|].
      destruct (row_fine_row user h (proj1 Hwf) (fun p Hp => proj1 (proj1 (proj2 Hwf) p Hp)) Hax (field_at A i)) as (r & Er & _).
      { apply H, Hl. left; auto. }
      exists (r :: rows). cbn [mapM]. rewrite Er. cbn [bind]. rewrite E. reflexivity. }
    apply G. intros i Hi. apply in_seq in Hi. lia.
  Qed.

  Lemma cells_by_keys srcs A len c :
    is_order order -> Permutation srcs (sources (hist_goals h)) -> no_bcast h ->
    args_ok h A len -> (forall i, i < len -> row_fine user h (field_at A i)) ->
    (h_prof h = [] \/ forall i, i < len -> row_kept user h (field_at A i)) ->
    layout_ok (hist_layout h) -> hist_ok (hist_layout h) (length (h_group h)) c ->
    exists c', hist_fill cast_sat Fin user order srcs h A c = (c', None) /\
      forall ks ss kd, in_shape (hist_layout h) ss -> has_column (hist_layout h) kd ->
        exists sel xs, NoDup sel /\ (forall i, In i sel <-> i < len /\ belongs user h (field_at A i) ks ss) /\
          mapM (fun i => adds user h (field_at A i) kd) sel = Ok xs /\
          cell (hist_layout h) c' ks ss (column_of (hist_layout h) kd) =
          nadd (cell (hist_layout h) c ks ss (column_of (hist_layout h) kd)) (nsum xs).
  Proof.
    intros Ho Hp Hnb HA Hfine Hkept HL HC. destruct (rows_fine A len Hfine) as (rows & E).
    assert (Hrow := fun i Hi => row_fine_row user h (proj1 Hwf) (fun p Hp => proj1 (proj1 (proj2 Hwf) p Hp)) Hax (field_at A i) (Hfine i Hi)).
    assert (HR : hist_ready cast_sat Fin user h A len rows c).
    { unfold rows_of in E. assert (E' := E). apply mapM_ok in E'.
      assert (Hin : forall r, In r rows -> exists i, i < len /\ row_of cast_sat Fin user h (field_at A i) = Ok r).
      { intros r Hr. assert (exists i, In i (seq 0 len) /\ row_of cast_sat Fin user h (field_at A i) = Ok r) as (i & Hi & Er).
        { clear - E' Hr. induction E'; [destruct Hr|]. destruct Hr as [<-|Hr]; [exists x; simpl; auto|].
          destruct IHE' as (i & H1 & H2); auto. exists i. simpl; auto. }
        exists i. apply in_seq in Hi. split; auto. lia. }
      split; [exact E|]. split; [|split; [|split; [|split; [|split]]]]; auto.
      - intros p Hp'. specialize (Hax p (proj2 (in_app_iff _ _ _) (or_intror Hp'))). revert Hax. generalize (fst p). intros ax F.
        destruct F as [e|e w org nf cl ax M|e n l hh u o nf cl ax M Hn Hb|e mn mx u o ax M|e raw u o nf cl ax Hr M|e]; try exact I.
        + unfold mk_groupbin in M. destruct (nleb _ _); [discriminate|]. injection M as <-. exact I.
        + unfold mk_bin in M. destruct (_ || _); [discriminate|]. destruct (Nat.eqb _ 0); [discriminate|]. injection M as <-. exact I.
        + apply mk_intbin_ok in M. destruct M as (-> & M). exact M.
        + assert (M' := M). apply mk_split_ok in M'. destruct M' as (-> & _). simpl. intros E0.
          unfold mk_split in M. destruct raw as [|a raw]; [discriminate|].
          assert (Hl : length (sort_num (a :: raw)) = length (a :: raw)).
          { clear. assert (Hi : forall x l, length (insert_num x l) = S (length l)).
            { induction l as [|y l IH]; simpl; auto. destruct (nltb x y); simpl; auto. }
            induction (a :: raw) as [|y l IH]; simpl; auto. rewrite Hi. f_equal. exact IH. }
          rewrite E0 in Hl. discriminate.
      - intros i Hi p e x Hp' Ee Ev. destruct (Hfine i Hi) as (R1 & _).
        destruct (R1 p (proj2 (in_app_iff _ _ _) (or_intror Hp'))) as (v & Ev' & W). rewrite Ee in W. destruct W as (b & ->). congruence.
      - intros r k Hr Hk. destruct (Hin r Hr) as (i & Hi & Er). destruct (Hrow i Hi) as (r' & Er' & K & _).
        assert (r' = r) by congruence. subst. auto.
      - destruct Hkept as [Hn|Hk]; [left; unfold hist_layout; simpl; rewrite Hn; reflexivity|]. right.
        apply Forall_forall. intros r Hr. destruct (Hin r Hr) as (i & Hi & Er). destruct (Hrow i Hi) as (r' & Er' & _ & _ & _ & U).
        assert (r' = r) by congruence. subst. auto. }
    assert (Hpre := ready_pre cast_sat Fin user _ _ _ _ _ Hwf HR).
    destruct (c10_fill _ _ _ _ _ Hpre) as (c' & Ec & _ & V). exists c'.
    split; [rewrite (fill_is_rows cast_sat Fin user order h srcs Ho Hp Hwf Hnb A len rows); auto|].
    intros ks ss kd Hs Hk. rewrite (V ks ss kd Hs Hk).
    assert (G : forall l rs, (forall i, In i l -> i < len) -> NoDup l ->
      mapM (fun i => row_of cast_sat Fin user h (field_at A i)) l = Ok rs ->
      exists sel, NoDup sel /\ (forall i, In i sel <-> In i l /\ belongs user h (field_at A i) ks ss) /\
        mapM (fun i => adds user h (field_at A i) kd) sel = Ok (map (row_adds (hist_mode h) kd) (filter (in_cell ks ss) rs))).
    { induction l as [|i l IH]; intros rs Hl ND El.
      - injection El as <-. exists []. split; [constructor|]. split; [simpl; tauto|reflexivity].
      - cbn [mapM] in El. apply bind_ok in El. destruct El as (r & Er & El). apply bind_ok in El. destruct El as (rs' & El & Eq).
        injection Eq as <-. inversion ND as [|? ? Ni ND']; subst.
        destruct (IH rs') as (sel & S1 & S2 & S3); auto; [intros; apply Hl; right; auto|].
        destruct (Hrow i) as (r' & Er' & _ & B & Ad & _); [apply Hl; left; auto|].
        assert (r' = r) by congruence. subst r'. specialize (B ks ss Hs). specialize (Ad kd Hk).
        cbn [filter]. destruct (in_cell ks ss r) eqn:Ei.
        + exists (i :: sel). split; [constructor; auto; intros Hi; apply S2 in Hi; tauto|]. split.
          * intros j. simpl. rewrite S2. split.
            -- intros [<-|(Hj & Hb)]; auto. split; auto. apply B; auto.
            -- intros ([<-|Hj] & Hb); auto.
          * cbn [mapM]. rewrite Ad. cbn [bind]. rewrite S3. reflexivity.
        + exists sel. split; auto. split; auto. intros j. rewrite S2. simpl. split; [tauto|].
          intros ([<-|Hj] & Hb); auto. apply B in Hb. congruence. }
    destruct (G (seq 0 len) rows) as (sel & S1 & S2 & S3).
    - intros i Hi. apply in_seq in Hi. lia.
    - apply seq_NoDup.
    - exact E.
    - exists sel, (map (row_adds (hist_mode h) kd) (filter (in_cell ks ss) rows)). split; auto. split; [|auto].
      intros i. rewrite S2, in_seq. split; intros (H1 & H2); split; auto; lia.
  Qed.
End Fill.
