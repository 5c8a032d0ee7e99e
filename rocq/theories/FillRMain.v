(** Consequences: chunks, integers, the error of a sum. *)
From Coq Require Import String Permutation Qabs.
From Verif Require Import Base Num NumFacts Axis Calc Content Fill FillSpec AxisProofs2 FillProofs FillProofs2 FillProofs3 FillMain FillR FillRSpec FillRProofs RoundProofs.

Lemma fillR_ok add mul L ng m rows c : fill_pre L ng m rows c -> ~ counts_at_once L ng m ->
  exists c', fill_rowsR add mul L ng m rows c = (c', None) /\ content_ok L ng c' /\
    (forall ks ss kd, in_shape L ss -> has_column L kd ->
       cell L c' ks ss (column_of L kd) =
       running add (cell L c ks ss (column_of L kd)) (map (row_addsR mul m kd) (filter (in_cell ks ss) rows))) /\
    (forall ks, block c' ks <> None <-> block (prefill L ng c) ks <> None \/
       Forall2 (fun k j => exists r, In r rows /\ nth j (r_keys r) None = Some k) ks (seq 0 ng)).
Proof. intros [H1 [H2 [H3 [H4 H5]]]] H. apply fill_rowsR_ok; auto. Qed.

Lemma running_app add x l k : running add x (l ++ k) = running add (running add x l) k.
Proof. apply fold_left_app. Qed.

(** ** Chunks *)
Lemma chunks2R add mul L ng m a b c : fill_pre L ng m (a ++ b) c -> ~ counts_at_once L ng m ->
  exists c1 c2 c3, fill_rowsR add mul L ng m a c = (c1, None) /\ fill_rowsR add mul L ng m b c1 = (c2, None) /\
    fill_rowsR add mul L ng m (a ++ b) c = (c3, None) /\ same_cells L c2 c3 /\ content_ok L ng c1 /\ content_ok L ng c2.
Proof.
  intros H N. destruct (proj1 (pre_app _ _ _ _ _ _) H) as [Ha Hb].
  destruct (fillR_ok add mul _ _ _ _ _ Ha N) as [c1 [E1 [H1 [V1 B1]]]].
  destruct (fillR_ok add mul _ _ _ _ _ (pre_content _ _ _ _ _ _ Hb H1) N) as [c2 [E2 [H2 [V2 B2]]]].
  destruct (fillR_ok add mul _ _ _ _ _ H N) as [c3 [E3 [H3 [V3 B3]]]].
  exists c1, c2, c3. repeat split; auto.
  apply (same_cells_intro L ng); auto. intros ks ss kd Hs Hk.
  rewrite V2, V1, V3 by auto. rewrite filter_app, map_app, running_app. reflexivity.
Qed.
Lemma chunksR add mul L ng m chunks : forall c, fill_pre L ng m (concat chunks) c -> ~ counts_at_once L ng m -> chunks <> [] ->
  exists c1 c2, fill_allR add mul L ng m chunks c = (c1, None) /\ fill_rowsR add mul L ng m (concat chunks) c = (c2, None) /\
    content_ok L ng c1 /\ same_cells L c1 c2.
Proof.
  induction chunks as [|a rest IH]; intros c H Nc Hn; [congruence|]. simpl in *.
  destruct (chunks2R add mul _ _ _ _ _ _ H Nc) as [c1 [c2 [c3 [E1 [E2 [E3 [S [Ok1 Ok2]]]]]]]].
  rewrite E1. destruct (proj1 (pre_app _ _ _ _ _ _) H) as [Ha Hb].
  destruct rest as [|b rest].
  - simpl in *. rewrite app_nil_r in *. exists c1, c1. repeat split; auto.
  - destruct (IH c1) as [d1 [d2 [F1 [F2 [O1 S1]]]]]; [apply (pre_content _ _ _ _ _ _ Hb Ok1)|auto|congruence|].
    exists d1, c3. repeat split; auto.
    assert (d2 = c2) by congruence. subst d2. eapply same_cells_trans; eauto.
Qed.

(** ** A histogram that counts a fill at once *)
Lemma at_onceR add mul L ng m rows c : fill_pre L ng m rows c -> counts_at_once L ng m ->
  exists c', fill_rowsR add mul L ng m rows c = (c', None) /\ content_ok L ng c' /\
    cell L c' [] [] (column_of L SumW) = add (cell L c [] [] (column_of L SumW)) (mul (nnat (length rows)) none1).
Proof.
  intros (_ & Hm & _ & Hc & _) (Et & -> & Ep & ->). unfold mode_ok in Hm.
  assert (X : exists x, prefill L 0 c = CArr [x] /\ cell L c [] [] 0 = x).
  { assert (S1 : l_size L = 1) by (unfold l_size, l_rows, l_last; rewrite Et, Ep, Hm; reflexivity).
    destruct Hc as [->|Hc].
    - exists nzero. cbn. rewrite S1. split; reflexivity.
    - destruct c as [|d|]; try contradiction. cbn in Hc. rewrite S1 in Hc. destruct d as [|x [|y d]]; try discriminate.
      exists x. cbn. unfold cell. cbn. rewrite Et. split; reflexivity. }
  destruct X as (x & PX & CX). unfold fill_rowsR. rewrite PX. unfold postfillR, dest_of. rewrite Et, Ep. cbn [combine length seq map flat_indexes d_fixed d_group d_prof d_weight weightsR filldictR].
  unfold fillblockR. cbn [fill_profilesR]. unfold add_columnR, l_last, l_sumw. rewrite Ep, Hm. cbn.
  eexists. split; [reflexivity|]. split.
  - cbn. unfold l_size, l_rows, l_last. rewrite Et, Ep, Hm. reflexivity.
  - unfold cell at 1. cbn [block column_of]. rewrite Et, Ep. cbn. unfold column_of in CX. cbn in CX. rewrite CX. reflexivity.
Qed.

(** ** Integers *)
Lemma rnum_z z : (Z.abs z <= 2 ^ 53)%Z -> rnum (nz z) = nz z.
Proof. intros H. unfold rnum, nz. rewrite round53_z by auto. reflexivity. Qed.
Lemma fadd_z a b : (Z.abs (a + b) <= 2 ^ 53)%Z -> fadd (nz a) (nz b) = nz (a + b).
Proof. intros H. unfold fadd. unfold nz at 1 2. rewrite nadd_fin, <- qz_add. apply rnum_z. auto. Qed.
Lemma zabssum_nonneg l : (0 <= zabssum l)%Z.
Proof. unfold zabssum. induction l; cbn [fold_right]; lia. Qed.
Lemma running_z zs : forall a, (Z.abs a + zabssum zs <= 2 ^ 53)%Z -> running fadd (nz a) (map nz zs) = nz (a + zsum zs).
Proof.
  induction zs as [|z zs IH]; intros a H; cbn [map running fold_left zsum fold_right].
  - f_equal. lia.
  - cbn [zabssum fold_right] in H. fold (zabssum zs) in H. pose proof (zabssum_nonneg zs). rewrite fadd_z by lia. fold (running fadd (nz (a + z)) (map nz zs)).
    rewrite IH by lia. unfold zsum. f_equal. lia.
Qed.
Lemma nsum_z zs : nsum (map nz zs) = nz (zsum zs).
Proof. induction zs as [|z zs IH]; [reflexivity|]. cbn [map zsum fold_right]. rewrite nsum_cons, IH. unfold nz. rewrite nadd_fin, <- qz_add. reflexivity. Qed.

Lemma weightR_float m r : mode_float m -> row_weightR fmul m r = row_weight m r.
Proof. destruct m; cbn; auto. intros H. unfold fmul. rewrite nmul_1_l. auto. Qed.
Lemma weight2R_z m r z : mode_float m -> row_weight2 m r = nz z -> (Z.abs z <= 2 ^ 53)%Z -> row_weight2R fmul m r = nz z.
Proof.
  destruct m; cbn; auto. intros H E B. unfold fmul. rewrite nmul_1_l. rewrite E, !rnum_z by auto. auto.
Qed.
Lemma row_addsR_z m kd r z : mode_float m -> row_adds m kd r = nz z -> (Z.abs z <= 2 ^ 53)%Z -> row_addsR fmul m kd r = nz z.
Proof.
  intros F E B. destruct kd; cbn [row_adds row_addsR] in *; try (apply weight2R_z; auto); try (rewrite weightR_float by auto; auto);
    unfold fmul; rewrite E; apply rnum_z; auto.
Qed.
Lemma rows_z m kd l : forall zs, mode_float m -> map (row_adds m kd) l = map nz zs -> (zabssum zs <= 2 ^ 53)%Z -> map (row_addsR fmul m kd) l = map nz zs.
Proof.
  induction l as [|r l IH]; intros [|z zs] F E B; cbn [map] in *; try discriminate; auto. injection E as E1 E2.
  cbn [zabssum fold_right] in B. fold (zabssum zs) in B. pose proof (zabssum_nonneg zs). f_equal; [apply row_addsR_z; auto; lia|apply IH; auto; lia].
Qed.

(** ** Errors *)
Local Open Scope Q_scope.
Lemma growth_ge n : 1 <= growth n.
Proof. induction n as [|n IH]; cbn [growth]; [lra|]. assert (0 < 1 # 2 ^ 53) by reflexivity. nra. Qed.
Lemma qabssum_nonneg l : 0 <= qabssum l.
Proof. induction l as [|q l IH]; cbn; [lra|]. pose proof (Qabs_nonneg (this q)). unfold qabssum in IH. lra. Qed.
Lemma round_sum x q : exists r, fadd (Fin x) (Fin q) = Fin r /\ Qabs (this r - (this x + this q)) <= (1 # 2 ^ 53) * (Qabs (this x) + Qabs (this q)).
Proof.
  exists (round53 (x + q)). split; [reflexivity|]. pose proof (round53_error (x + q)) as H. rewrite (Qabs_wd _ (this (round53 (x + q)) - (this x + this q))) in H by (rewrite this_add; reflexivity).
  eapply Qle_trans; [exact H|]. change (this (p2 (-53))) with (1 # 2 ^ 53).
  assert (T : Qabs (this (x + q)%Qc) <= Qabs (this x) + Qabs (this q)) by (rewrite (Qabs_wd _ _ (this_add x q)); apply Qabs_triangle).
  assert (0 < 1 # 2 ^ 53) by reflexivity. nra.
Qed.
Lemma running_error qs : forall x, exists r, running fadd (Fin x) (map Fin qs) = Fin r /\
  Qabs (this r - (this x + qsum qs)) <= (growth (length qs) - 1) * (Qabs (this x) + qabssum qs).
Proof.
  induction qs as [|q qs IH]; intros x; cbn [map running fold_left length].
  - exists x. split; auto. cbn [qsum qabssum fold_right growth]. rewrite (Qabs_wd _ 0) by ring. change (Qabs 0) with 0. lra.
  - destruct (round_sum x q) as (r1 & E1 & B1). rewrite E1. destruct (IH r1) as (r & E & B). exists r. split; [exact E|].
    cbn [qsum qabssum fold_right growth]. fold (qsum qs) (qabssum qs).
    set (u := 1 # 2 ^ 53) in *. set (g := growth (length qs)) in *. pose proof (growth_ge (length qs)) as G. fold g in G.
    assert (U : 0 < u) by reflexivity. pose proof (qabssum_nonneg qs) as SN. set (S := qabssum qs) in *.
    pose proof (Qabs_nonneg (this x)) as PX. pose proof (Qabs_nonneg (this q)) as PQ. set (ax := Qabs (this x)) in *. set (aq := Qabs (this q)) in *.
    assert (T : Qabs (this r - (this x + (this q + qsum qs))) <= Qabs (this r - (this r1 + qsum qs)) + Qabs (this r1 - (this x + this q))).
    { eapply Qle_trans; [|apply Qabs_triangle]. rewrite (Qabs_wd _ ((this r - (this r1 + qsum qs)) + (this r1 - (this x + this q)))) by ring. apply Qle_refl. }
    assert (R : Qabs (this r1) <= (1 + u) * (ax + aq)).
    { assert (T1 : Qabs (this r1) <= Qabs (this r1 - (this x + this q)) + Qabs (this x + this q)).
      { eapply Qle_trans; [|apply Qabs_triangle]. rewrite (Qabs_wd (this r1) ((this r1 - (this x + this q)) + (this x + this q))) by ring. apply Qle_refl. }
      pose proof (Qabs_triangle (this x) (this q)) as T2. fold ax aq in T2. lra. }
    eapply Qle_trans; [exact T|]. 
    assert (B' : (g - 1) * (Qabs (this r1) + S) <= (g - 1) * ((1 + u) * (ax + aq) + S)).
    { rewrite !(Qmult_comm (g - 1)). apply Qmult_le_compat_r; lra. }
    assert (Q : (g - 1) * S + 0 <= ((1 + u) * g - 1) * S). { assert (0 <= u * g * S); [|nra]. apply Qmult_le_0_compat; auto. nra. }
    nra.
Qed.
