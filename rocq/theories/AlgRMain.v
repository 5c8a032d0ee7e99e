(** Histogram arithmetic with numbers of 53 bits: exactness, errors, powers of two. *)
From Coq Require Import String Permutation Qabs Lqa.
From Verif Require Import Base Num NumFacts Axis Calc Content Fill FillSpec FillProofs FillProofs2 FillProofs3 FillMain FillR FillRSpec FillRProofs RoundProofs FillRMain
  HistAlg AlgSpec HistAlgProofs HistAlgMain Nd NdProofs Proj ProjSpec ProjProofs AlgR AlgRSpec AlgRProofs.
Local Open Scope list_scope.
Local Open Scope Q_scope.

(** ** Numbers *)
Lemma round53_idem q : round53 (round53 q) = round53 q.
Proof. apply round53_id, round53_float. Qed.
Lemma rnum_idem x : rnum (rnum x) = rnum x.
Proof. destruct x; cbn [rnum]; auto. rewrite round53_idem. reflexivity. Qed.
Lemma machine_fadd x y : machine (fadd x y). Proof. apply rnum_idem. Qed.
Lemma machine_fmul x y : machine (fmul x y). Proof. apply rnum_idem. Qed.
Lemma machine_0 : machine nzero.
Proof. unfold machine, nzero, rnum. rewrite round53_0. reflexivity. Qed.
Lemma machine_z z : (Z.abs z <= 2 ^ 53)%Z -> machine (nz z). Proof. apply rnum_z. Qed.
Lemma fadd_comm x y : fadd x y = fadd y x.
Proof. unfold fadd. rewrite nadd_comm. reflexivity. Qed.
Lemma fadd_0_r x : machine x -> fadd x nzero = x.
Proof. intros M. unfold fadd. rewrite nadd_0_r. exact M. Qed.
Lemma fadd_0_l x : machine x -> fadd nzero x = x.
Proof. intros M. unfold fadd. rewrite nadd_0_l. exact M. Qed.

(** ** Powers of two *)
Lemma p2_mul a b : (p2 a * p2 b)%Qc = p2 (a + b).
Proof. apply Qc_ext. rewrite this_mul, p2_add. reflexivity. Qed.
Lemma exponent_unique q e : this (p2 e) <= Qabs (this q) -> Qabs (this q) < this (p2 (e + 1)) -> exponent q = e.
Proof.
  intros L U. assert (NZ : q <> qc0). { intros ->. pose proof (p2_pos e). rewrite this_qc0 in L. cbn in L. lra. }
  destruct (exponent_spec q NZ) as [L' U']. assert (e < exponent q + 1)%Z by (apply p2_lt_inv; lra). assert (exponent q < e + 1)%Z by (apply p2_lt_inv; lra). lia.
Qed.
Lemma exponent_p2 q k : q <> qc0 -> exponent (q * p2 k) = (exponent q + k)%Z.
Proof.
  intros NZ. destruct (exponent_spec q NZ) as [L U]. pose proof (p2_pos k) as P.
  assert (X : Qabs (this (q * p2 k)%Qc) == Qabs (this q) * this (p2 k)) by (rewrite this_mul; apply Qabs_scale; auto).
  apply exponent_unique; rewrite X; [|replace (exponent q + k + 1)%Z with (exponent q + 1 + k)%Z by lia]; rewrite p2_add; nra.
Qed.
Lemma round53_p2 q k : round53 (q * p2 k) = (round53 q * p2 k)%Qc.
Proof.
  destruct (Qc_eq_dec q qc0) as [->|NZ].
  { replace (qc0 * p2 k)%Qc with qc0 by (apply Qc_ext; rewrite this_mul, this_qc0; ring). rewrite round53_0. apply Qc_ext. rewrite this_mul, this_qc0. ring. }
  unfold round53. rewrite exponent_p2 by auto. replace (exponent q + k - 52)%Z with (exponent q - 52 + k)%Z by lia. rewrite <- p2_mul.
  replace (q * p2 k / (p2 (exponent q - 52) * p2 k))%Qc with (q / p2 (exponent q - 52))%Qc.
  - apply Qc_ext. rewrite !this_mul. ring.
  - apply Qc_ext. rewrite !this_div, !this_mul. pose proof (p2_pos k). pose proof (p2_pos (exponent q - 52)). field. split; intros E; rewrite E in *; lra.
Qed.
Lemma rnum_p2 x k : rnum (nmul x (Fin (p2 k))) = nmul (rnum x) (Fin (p2 k)).
Proof.
  destruct x as [q| | |]; cbn [rnum nmul]; auto.
  - rewrite round53_p2. reflexivity.
  - destruct (ninf_sign_cases (p2 k)) as [(_ & ->)|[(_ & ->)|(_ & ->)]]; reflexivity.
  - destruct (ninf_sign_cases (p2 k)) as [(_ & ->)|[(_ & ->)|(_ & ->)]]; reflexivity.
Qed.
Lemma fmul_p2 x k : machine x -> fmul x (Fin (p2 k)) = nmul x (Fin (p2 k)).
Proof. intros M. unfold fmul. rewrite rnum_p2, M. reflexivity. Qed.
Lemma fadd_p2 x y k : machine x -> machine y -> fmul (fadd x y) (Fin (p2 k)) = fadd (fmul x (Fin (p2 k))) (fmul y (Fin (p2 k))).
Proof.
  intros X Y. rewrite !fmul_p2 by (auto; apply machine_fadd). unfold fadd.
  rewrite <- rnum_p2. f_equal. rewrite !(nmul_comm _ (Fin (p2 k))). apply nmul_add_distr_fin.
Qed.
Lemma fmul_two x : fadd x x = fmul x (nz 2).
Proof.
  unfold fadd, fmul. f_equal. destruct x as [q| | |]; try reflexivity. unfold nz. cbn [nadd nmul]. f_equal. apply Qc_ext. rewrite this_add, this_mul, this_qz. change (inject_Z 2) with 2%Q. ring.
Qed.

(** ** Sums in any order *)
Lemma zsum_app l m : zsum (l ++ m) = (zsum l + zsum m)%Z.
Proof. unfold zsum. induction l; cbn [app fold_right]; lia. Qed.
Lemma zabssum_app l m : zabssum (l ++ m) = (zabssum l + zabssum m)%Z.
Proof. unfold zabssum. induction l; cbn [app fold_right]; lia. Qed.
Lemma zsum_perm l m : Permutation l m -> zsum l = zsum m /\ zabssum l = zabssum m.
Proof. induction 1; cbn; unfold zsum, zabssum in *; cbn [fold_right]; lia. Qed.
Lemma zsum_abs l : (Z.abs (zsum l) <= zabssum l)%Z.
Proof. unfold zsum, zabssum. induction l; cbn [fold_right]; lia. Qed.
Lemma perm_map_inv {A B} (f : A -> B) (l : list B) (zs : list A) : Permutation l (map f zs) -> exists ys, l = map f ys /\ Permutation ys zs.
Proof. intros P. apply Permutation_map_inv in P. destruct P as (ys & -> & P). exists ys. split; auto. apply Permutation_sym. auto. Qed.

Lemma some_sum_z l r : some_sum fadd l r -> forall zs, l = map nz zs -> (zabssum zs <= 2 ^ 53)%Z -> r = nz (zsum zs).
Proof.
  induction 1 as [|x|l m r s _ IH1 _ IH2|l m r P _ IH]; intros zs E B.
  - destruct zs; [reflexivity|discriminate].
  - destruct zs as [|z [|]]; try discriminate. injection E as ->. cbn. f_equal. lia.
  - symmetry in E. apply map_eq_app in E. destruct E as (z1 & z2 & -> & E1 & E2). rewrite zabssum_app in B. pose proof (zabssum_nonneg z1). pose proof (zabssum_nonneg z2).
    rewrite (IH1 z1), (IH2 z2) by (auto; lia). rewrite zsum_app. apply fadd_z. pose proof (zsum_abs z1). pose proof (zsum_abs z2). lia.
  - subst m. apply perm_map_inv in P. destruct P as (ys & E & P). destruct (zsum_perm _ _ P) as (P1 & P2). rewrite (IH ys) by (auto; lia). congruence.
Qed.
Lemma qsum_app l m : qsum (l ++ m) == qsum l + qsum m.
Proof. unfold qsum. induction l as [|x l IH]; cbn [app fold_right]; [ring|]. rewrite IH. ring. Qed.
Lemma qabssum_app l m : qabssum (l ++ m) == qabssum l + qabssum m.
Proof. unfold qabssum. induction l as [|x l IH]; cbn [app fold_right]; [ring|]. rewrite IH. ring. Qed.
Lemma qsum_perm l m : Permutation l m -> qsum l == qsum m /\ qabssum l == qabssum m.
Proof.
  unfold qsum, qabssum. induction 1 as [|x l m P (IH1 & IH2)|x y l|l m k P1 (IH1 & IH2) P2 (IH3 & IH4)]; cbn [fold_right]; split; try reflexivity;
    try (rewrite IH1; reflexivity); try (rewrite IH2; reflexivity); try ring; [rewrite IH1, IH3; reflexivity|rewrite IH2, IH4; reflexivity].
Qed.
Lemma qsum_abs l : Qabs (qsum l) <= qabssum l.
Proof.
  unfold qsum, qabssum. induction l as [|x l IH]; cbn [fold_right]; [apply Qle_refl|]. eapply Qle_trans; [apply Qabs_triangle|]. lra.
Qed.
Lemma growth_mono n m : (n <= m)%nat -> growth n <= growth m.
Proof. induction 1 as [|m H IH]; [apply Qle_refl|]. cbn [growth]. pose proof (growth_ge m). assert (0 < 1 # 2 ^ 53) by reflexivity. nra. Qed.

Lemma some_sum_error l r : some_sum fadd l r -> forall qs, l = map Fin qs -> Forall machine l ->
  machine r /\ exists q, r = Fin q /\ Qabs (this q - qsum qs) <= (growth (pred (length qs)) - 1) * qabssum qs /\ (qs = [] -> q = qc0).
Proof.
  induction 1 as [|x|l m r s _ IH1 _ IH2|l m r P _ IH]; intros qs E M.
  - destruct qs; [|discriminate]. split; [apply machine_0|]. exists qc0. split; auto. split; auto. vm_compute. discriminate.
  - destruct qs as [|q [|]]; try discriminate. injection E as ->. inversion M; subst. split; auto. exists q. split; auto. split; [|discriminate].
    cbn [length pred growth]. assert (X : Qabs (this q - qsum [q]) == 0) by (unfold qsum; cbn [fold_right]; setoid_replace (this q - (this q + 0)) with 0 by ring; reflexivity). rewrite X. lra.
  - symmetry in E. apply map_eq_app in E. destruct E as (q1 & q2 & -> & E1 & E2). apply Forall_app in M. destruct M as (M1 & M2).
    destruct (IH1 q1 (eq_sym E1) M1) as (MR & a & -> & A & A0). destruct (IH2 q2 (eq_sym E2) M2) as (MS & b & -> & B & B0). split; [apply machine_fadd|].
    exists (round53 (a + b)). split; [reflexivity|]. split; [|intros X; apply app_eq_nil in X; destruct X as (X1 & X2); rewrite A0, B0 by auto; apply Qc_ext; vm_compute; reflexivity].
    destruct q1 as [|x1 q1].
    { rewrite A0 by auto. cbn [app]. replace (qc0 + b)%Qc with b by (apply Qc_ext; rewrite this_add, this_qc0; ring). unfold machine in MS. cbn [rnum] in MS. injection MS as MS. rewrite MS. exact B. }
    destruct q2 as [|x2 q2].
    { rewrite B0 by auto. rewrite app_nil_r. replace (a + qc0)%Qc with a by (apply Qc_ext; rewrite this_add, this_qc0; ring). unfold machine in MR. cbn [rnum] in MR. injection MR as MR. rewrite MR. exact A. }
    rewrite qsum_app, qabssum_app. rewrite app_length. pose proof (qsum_abs (x1 :: q1)) as S1. pose proof (qsum_abs (x2 :: q2)) as S2.
    set (R := qsum (x1 :: q1)) in *. set (S := qsum (x2 :: q2)) in *. set (AR := qabssum (x1 :: q1)) in *. set (AS := qabssum (x2 :: q2)) in *.
    set (G := growth (pred (length (x1 :: q1) + length (x2 :: q2)))).
    assert (NR : 0 <= AR) by apply qabssum_nonneg. assert (NS : 0 <= AS) by apply qabssum_nonneg.
    set (H := growth (length q1 + length q2)). assert (H1 : growth (length q1) <= H) by (apply growth_mono; lia). assert (H2 : growth (length q2) <= H) by (apply growth_mono; lia).
    assert (EG : G == (1 + (1 # 2 ^ 53)) * H). { unfold G, H. cbn [length]. replace (pred (Datatypes.S (length q1) + Datatypes.S (length q2))) with (Datatypes.S (length q1 + length q2)) by lia. cbn [growth]. reflexivity. }
    cbn [length pred] in A, B. fold R AR in A. fold S AS in B.
    pose proof (round53_error (a + b)) as X. change (this (p2 (-53))) with (1 # 2 ^ 53) in X. rewrite (this_add a b) in X.
    set (u := 1 # 2 ^ 53) in *. assert (U : 0 < u) by reflexivity.
    apply Qabs_Qle_condition in A. apply Qabs_Qle_condition in B. apply Qabs_Qle_condition in S1. apply Qabs_Qle_condition in S2.
    assert (A' : - ((H - 1) * AR) <= this a - R <= (H - 1) * AR) by (split; nra).
    assert (B' : - ((H - 1) * AS) <= this b - S <= (H - 1) * AS) by (split; nra).
    assert (SUM : Qabs (this a + this b) <= H * (AR + AS)) by (apply Qabs_Qle_condition; split; nra).
    assert (X' : Qabs (this (round53 (a + b)) - (this a + this b)) <= u * (H * (AR + AS))) by (eapply Qle_trans; [exact X|]; nra).
    apply Qabs_Qle_condition in X'. apply Qabs_Qle_condition. rewrite EG. split; nra.
  - subst m. apply perm_map_inv in P. destruct P as (ys & E & P). destruct (qsum_perm _ _ P) as (P1 & P2).
    assert (M' : Forall machine l). { rewrite E. rewrite Forall_forall in *. intros x Hx. apply M. eapply Permutation_in; [|exact Hx]. apply Permutation_map. exact P. }
    destruct (IH ys E M') as (MR & q & -> & B & B0). split; auto. exists q. split; auto. rewrite <- (Permutation_length P). rewrite <- P2. split.
    + rewrite <- P1. exact B.
    + intros ->. apply B0. apply Permutation_sym in P. apply Permutation_nil in P. exact P.
Qed.
Lemma some_sum_swap add l m r : some_sum add (l ++ m) r -> some_sum add (m ++ l) r.
Proof. apply sum_order. apply Permutation_app_comm. Qed.
Lemma running_sum add l : forall x k, some_sum add k x -> some_sum add (k ++ l) (running add x l).
Proof.
  induction l as [|y l IH]; intros x k H; cbn [running fold_left]; [rewrite app_nil_r; auto|]. change (y :: l) with ([y] ++ l). rewrite app_assoc. apply IH. constructor; auto. constructor.
Qed.

(** ** Cells *)
Lemma machine_nth d i : Forall machine d -> machine (nth i d nzero).
Proof. intros F. destruct (nth_in_or_default i d nzero) as [I| ->]; [|apply machine_0]. rewrite Forall_forall in F. auto. Qed.
Lemma machine_cell h ks ss kd : machine_hist h -> machine (hcell h ks ss kd).
Proof. intros M. unfold hcell, cell. destruct (block (o_content h) ks) as [d|] eqn:E; [|apply machine_0]. apply machine_nth. eapply M; eauto. Qed.
Lemma nth_map2R d : forall e i, length d = length e -> nth i (map2 fadd d e) nzero = fadd (nth i d nzero) (nth i e nzero).
Proof.
  induction d as [|x d IH]; intros [|y e] [|i]; cbn [map2 nth length]; intros H; try lia; try (symmetry; apply fadd_0_r, machine_0); auto.
Qed.
Lemma at_joinR x y i : (forall d e, x = Some d -> y = Some e -> length d = length e) ->
  machine (at_ x i) -> machine (at_ y i) -> at_ (joinR fadd x y) i = fadd (at_ x i) (at_ y i).
Proof.
  destruct x as [d|], y as [e|]; cbn [joinR at_]; intros H X Y.
  - apply nth_map2R. auto.
  - symmetry. apply fadd_0_r. auto.
  - symmetry. apply fadd_0_l. auto.
  - symmetry. apply fadd_0_l. auto.
Qed.
Lemma machine_map2 d : forall e, Forall machine (map2 fadd d e).
Proof. induction d as [|x d IH]; intros [|y e]; cbn [map2]; constructor; auto. apply machine_fadd. Qed.
Lemma machine_sum h g c : machine_hist h -> machine_hist g ->
  (forall ks, block c ks = joinR fadd (block (o_content h) ks) (block (o_content g) ks)) -> machine_hist (with_content h c).
Proof.
  intros Mh Mg B ks d E. cbn [with_content o_content] in E. rewrite B in E.
  destruct (block (o_content h) ks) as [x|] eqn:Eh, (block (o_content g) ks) as [y|] eqn:Eg; cbn [joinR] in E; try discriminate; injection E as <-; eauto. apply machine_map2.
Qed.
Lemma sum_main h g : hobj_ok h -> machine_hist h -> hobj_ok g -> machine_hist g -> addable h g ->
  exists s, hist_addR fadd h g = Ok s /\ hobj_ok s /\ machine_hist s /\ o_axes s = o_axes h /\ weighted s = weighted h /\
    (forall ks ss kd, hcell s ks ss kd = fadd (hcell h ks ss kd) (hcell g ks ss kd)) /\
    (forall ks, has_block s ks <-> has_block h ks \/ has_block g ks).
Proof.
  intros Hh Mh Hg Mg (E & W). destruct (hist_addR_main fadd h g Hh Hg E W) as (c & A & O & _ & B).
  exists (with_content h c). split; [auto|]. split; [auto|]. split; [apply (machine_sum h g); auto|]. split; [reflexivity|]. split; [reflexivity|]. split.
  - intros ks ss kd. destruct (same_layout' h g Hh Hg E W) as (EL & _). pose proof (machine_cell h ks ss kd Mh) as X. pose proof (machine_cell g ks ss kd Mg) as Y.
    unfold hcell in *. rewrite layout_with. cbn [with_content o_content]. rewrite EL in *.
    rewrite !cell_at in *. rewrite B. apply at_joinR; auto. apply hobj_blocks_fit; auto.
  - intros ks. unfold has_block. cbn [with_content o_content]. rewrite B.
    destruct (block (o_content h) ks), (block (o_content g) ks); cbn [joinR]; intuition congruence.
Qed.
Lemma addable_trans h g k : addable h g -> addable g k -> addable h k.
Proof. intros (E1 & W1) (E2 & W2). split; [eapply axes_eqb_trans; eauto|congruence]. Qed.
Lemma addable_sym h g : addable h g -> addable g h.
Proof. intros (E & W). split; [apply axes_eqb_swap; auto|auto]. Qed.
Lemma addable_same h s : o_axes s = o_axes h -> weighted s = weighted h -> addable h h -> addable h s.
Proof. intros A W (E & _). split; [rewrite A; exact E|auto]. Qed.

Lemma merged_main h0 t : Forall (alike h0) (parts t) ->
  exists s, merged t = Ok s /\ alike h0 s /\
    (forall ks ss kd, some_sum fadd (map (fun h => hcell h ks ss kd) (parts t)) (hcell s ks ss kd)) /\
    (forall ks, has_block s ks <-> exists h, In h (parts t) /\ has_block h ks).
Proof.
  induction t as [h|a IHa b IHb]; cbn [parts merged]; intros F.
  - inversion F; subst. exists h. split; auto. split; auto. split; [constructor|]. intros ks. split; [intros B; exists h; split; auto; left; auto|intros (x & [<-|[]] & B); auto].
  - apply Forall_app in F. destruct F as (Fa & Fb). destruct (IHa Fa) as (x & Ex & (Ox & Mx & Ax) & Sx & Bx). destruct (IHb Fb) as (y & Ey & (Oy & My & Ay) & Sy & By).
    assert (Axy : addable x y) by (eapply addable_trans; [apply addable_sym; exact Ax|exact Ay]).
    destruct (sum_main x y Ox Mx Oy My Axy) as (s & Es & Os & Ms & As & Ws & Vs & Bs). exists s. rewrite Ex, Ey. cbn [bind]. split; auto. split; [|split].
    + split; auto. split; auto. eapply addable_trans; [exact Ax|]. apply addable_same; auto. eapply addable_trans; [exact Axy|apply addable_sym; exact Axy].
    + intros ks ss kd. rewrite map_app, Vs. constructor; auto.
    + intros ks. rewrite Bs, Bx, By. split.
      * intros [(h & I & B)|(h & I & B)]; exists h; (split; [apply in_app_iff; auto|exact B]).
      * intros (h & I & B). apply in_app_iff in I. destruct I as [I|I]; [left|right]; exists h; auto.
Qed.


(** ** Projections *)
Lemma sub_abs (keep : list nat -> bool) (f : list nat -> Z) l : (zabssum (map f (filter keep l)) <= zabssum (map f l))%Z.
Proof. induction l as [|i l IH]; [apply Z.le_refl|]. cbn [filter map]. unfold zabssum in *. destruct (keep i); cbn [map fold_right]; lia. Qed.
Lemma sub_qabs (keep : list nat -> bool) (f : list nat -> Qc) l : qabssum (map f (filter keep l)) <= qabssum (map f l).
Proof.
  induction l as [|i l IH]; [apply Qle_refl|]. cbn [filter map]. unfold qabssum in *. pose proof (Qabs_nonneg (this (f i))). destruct (keep i); cbn [map fold_right]; lra.
Qed.
Lemma filter_le {A} (p : A -> bool) l : (length (filter p l) <= length l)%nat.
Proof. induction l as [|x l IH]; cbn [filter length]; [lia|]. destruct (p x); cbn [length]; lia. Qed.
Lemma nth_map_nz zs i : nth i (map nz zs) nzero = nz (nth i zs 0%Z).
Proof. change nzero with (nz 0). apply map_nth. Qed.
Lemma nth_map_fin' qs i : nth i (map Fin qs) nzero = Fin (nth i qs qc0).
Proof. change nzero with (Fin qc0). apply map_nth. Qed.

Section Total.
Variable total : list Num -> Num.
Hypothesis T : forall l, some_sum fadd l (total l).

Lemma asumR_z k sh d zs : d = map nz zs -> length d = prod sh -> (zabssum zs <= 2 ^ 53)%Z -> asumR total k sh d = asum k sh d.
Proof.
  intros E Ld B. unfold asumR, asum, anew. apply map_ext. intros o.
  set (l := filter _ (indices sh)). assert (X : map (aget sh d) l = map nz (map (fun i => nth (ravel sh i) zs 0%Z) l)).
  { rewrite map_map. apply map_ext. intros i. unfold aget. rewrite E. apply nth_map_nz. }
  rewrite X, nsum_z. apply (some_sum_z _ _ (T _)); auto. unfold l. eapply Z.le_trans; [apply sub_abs|].
  assert (Y : map (fun i => nth (ravel sh i) zs 0%Z) (indices sh) = zs).
  { assert (Z : map nz (map (fun i => nth (ravel sh i) zs 0%Z) (indices sh)) = map nz zs).
    { rewrite <- E, map_map. transitivity (anew sh (aget sh d)); [|apply anew_aget; auto]. unfold anew. apply map_ext. intros i. unfold aget. rewrite E. symmetry. apply nth_map_nz. }
    clear -Z. revert Z. generalize (map (fun i => nth (ravel sh i) zs 0%Z) (indices sh)). revert zs. intros zs ys. revert zs. induction ys as [|y ys IH]; intros [|z zs] H; try discriminate; auto.
    cbn [map] in H. assert (y = z) by (apply AxisProofs2.nz_inj; congruence). f_equal; auto. apply IH. congruence. }
  rewrite Y. exact B.
Qed.
Lemma nsum_fin qs : exists q, nsum (map Fin qs) = Fin q /\ this q == qsum qs.
Proof.
  induction qs as [|x qs (q & E & V)]; [exists qc0; split; [reflexivity|reflexivity]|]. cbn [map]. rewrite nsum_cons, E. exists (x + q)%Qc. split; [reflexivity|].
  rewrite this_add, V. reflexivity.
Qed.
Lemma asumR_error k sh d qs B : d = map Fin qs -> Forall machine d -> length d = prod sh -> (growth (pred (length qs)) - 1) * qabssum qs <= B ->
  Forall2 (within B) (asum k sh d) (asumR total k sh d).
Proof.
  intros E M Ld HB. unfold asumR, asum, anew. induction (indices (select k sh)) as [|o os IH]; cbn [map]; constructor; auto.
  set (l := filter _ (indices sh)). assert (X : map (aget sh d) l = map Fin (map (fun i => nth (ravel sh i) qs qc0) l)).
  { rewrite map_map. apply map_ext. intros i. unfold aget. rewrite E. apply nth_map_fin'. }
  rewrite X. destruct (nsum_fin (map (fun i => nth (ravel sh i) qs qc0) l)) as (x & EX & VX).
  assert (ML : Forall machine (map Fin (map (fun i => nth (ravel sh i) qs qc0) l))).
  { rewrite <- X. apply Forall_map, Forall_forall. intros i _. apply machine_nth. exact M. }
  destruct (some_sum_error _ _ (T _) _ eq_refl ML) as (_ & y & EY & BY & _). exists x, y. split; auto. split; auto.
  rewrite VX. eapply Qle_trans; [exact BY|]. eapply Qle_trans; [|exact HB].
  assert (Y : map (fun i => nth (ravel sh i) qs qc0) (indices sh) = qs).
  { assert (Z : map Fin (map (fun i => nth (ravel sh i) qs qc0) (indices sh)) = map Fin qs).
    { rewrite <- E, map_map. transitivity (anew sh (aget sh d)); [|apply anew_aget; auto]. unfold anew. apply map_ext. intros i. unfold aget. rewrite E. symmetry. apply nth_map_fin'. }
    clear -Z. revert Z. generalize (map (fun i => nth (ravel sh i) qs qc0) (indices sh)). intros ys. revert qs. induction ys as [|y ys IH]; intros [|z zs] H; try discriminate; auto.
    cbn [map] in H. injection H as -> H. f_equal. apply IH. exact H. }
  assert (G : growth (pred (length (map (fun i => nth (ravel sh i) qs qc0) l))) <= growth (pred (length qs))).
  { apply growth_mono. apply Nat.pred_le_mono. replace (length qs) with (length (indices sh)) by (rewrite <- (map_length (fun i => nth (ravel sh i) qs qc0) (indices sh)); rewrite Y; reflexivity). rewrite map_length. unfold l. apply filter_le. }
  assert (S : qabssum (map (fun i => nth (ravel sh i) qs qc0) l) <= qabssum qs).
  { eapply Qle_trans; [unfold l; apply sub_qabs|]. rewrite Y. apply Qle_refl. }
  pose proof (growth_ge (pred (length (map (fun i => nth (ravel sh i) qs qc0) l)))). pose proof (qabssum_nonneg (map (fun i => nth (ravel sh i) qs qc0) l)). nra.
Qed.

Lemma projcontentR_z L fixed : forall n c, content_ok L n c ->
  (forall ks d, block c ks = Some d -> exists zs, d = map nz zs /\ (zabssum zs <= 2 ^ 53)%Z) ->
  projcontentR total n fixed (embed L c) = projcontent (repeat true n) fixed (embed L c).
Proof.
  induction n as [|n IH]; intros c OK Z; destruct c as [|d|l]; try contradiction; cbn [content_ok] in OK.
  - cbn [projcontentR projcontent repeat embed]. unfold projarrayR, projarray. cbn [as_array bind fst snd]. destruct (Nat.ltb _ _); auto. destruct (Z [] d eq_refl) as (zs & E & B).
    cbv zeta. rewrite (asumR_z _ _ d zs) by (auto; rewrite prod_shape; auto). reflexivity.
  - cbn [projcontentR projcontent repeat embed]. destruct OK as (F & ND & K).
    assert (X : proj_items (projcontentR total n fixed) (embed_items (embed L) l) = proj_items (projcontent (repeat true n) fixed) (embed_items (embed L) l)).
    { assert (Z' : forall k x, In (k, x) l -> forall ks d, block x ks = Some d -> exists zs, d = map nz zs /\ (zabssum zs <= 2 ^ 53)%Z).
      { intros k x I ks d E. apply (Z (k :: ks)). cbn [block]. rewrite (FillMain.assoc_of_in k x l); auto. rewrite Forall_forall in K. apply K. apply (in_map fst) in I. exact I. }
      clear Z ND K. induction l as [|(k, x) l IHl]; auto. inversion F as [|? ? F1 F2]; subst. cbn [embed_items proj_items].
      fold (proj_items (projcontentR total n fixed) (embed_items (embed L) l)). fold (proj_items (projcontent (repeat true n) fixed) (embed_items (embed L) l)). fold (embed_items (embed L) l).
      cbn [snd] in F1. rewrite (IH x F1) by (apply (Z' k); left; auto). rewrite IHl; auto. intros k' x' I. apply (Z' k'). right. auto. }
    rewrite X. reflexivity.
Qed.
Lemma projcontentR_error L fixed B : forall n c, content_ok L n c ->
  (forall ks d, block c ks = Some d -> Forall machine d /\ exists qs, d = map Fin qs /\ (growth (pred (length qs)) - 1) * qabssum qs <= B) ->
  match projcontent (repeat true n) fixed (embed L c), projcontentR total n fixed (embed L c) with
  | Ok x, Ok y => related (within B) x y
  | Err e, Err e' => e = e'
  | _, _ => False
  end.
Proof.
  induction n as [|n IH]; intros c OK Z; destruct c as [|d|l]; try contradiction; cbn [content_ok] in OK.
  - cbn [projcontentR projcontent repeat embed]. unfold projarrayR, projarray. cbn [as_array bind fst snd]. destruct (Nat.ltb _ _); auto. destruct (Z [] d eq_refl) as (M & qs & E & HB).
    cbv zeta. constructor. apply (asumR_error _ _ d qs); auto. rewrite prod_shape. auto.
  - cbn [projcontentR projcontent repeat embed]. destruct OK as (F & ND & K).
    assert (Z' : forall k x, In (k, x) l -> forall ks d, block x ks = Some d -> Forall machine d /\ exists qs, d = map Fin qs /\ (growth (pred (length qs)) - 1) * qabssum qs <= B).
    { intros k x I ks d E. apply (Z (k :: ks)). cbn [block]. rewrite (FillMain.assoc_of_in k x l); auto. rewrite Forall_forall in K. apply K. apply (in_map fst) in I. exact I. }
    assert (X : match proj_items (projcontent (repeat true n) fixed) (embed_items (embed L) l), proj_items (projcontentR total n fixed) (embed_items (embed L) l) with
      | Ok x, Ok y => Forall2 (fun a b => fst a = fst b /\ related (within B) (snd a) (snd b)) x y | Err e, Err e' => e = e' | _, _ => False end).
    { clear Z ND K. induction l as [|(k, x) l IHl]; [constructor|]. inversion F as [|? ? F1 F2]; subst. cbn [embed_items proj_items].
      fold (proj_items (projcontentR total n fixed) (embed_items (embed L) l)). fold (proj_items (projcontent (repeat true n) fixed) (embed_items (embed L) l)). fold (embed_items (embed L) l).
      cbn [snd] in F1. specialize (IH x F1 (Z' k x (or_introl eq_refl))). specialize (IHl F2 (fun k' x' I => Z' k' x' (or_intror I))).
      destruct (projcontent (repeat true n) fixed (embed L x)) as [a|e], (projcontentR total n fixed (embed L x)) as [b|e']; try contradiction; [|exact IH]. cbn [bind].
      destruct (proj_items (projcontent (repeat true n) fixed) (embed_items (embed L) l)) as [t|e], (proj_items (projcontentR total n fixed) (embed_items (embed L) l)) as [t'|e']; try contradiction; [|exact IHl].
      cbn [bind]. constructor; auto. }
    destruct (proj_items (projcontent (repeat true n) fixed) (embed_items (embed L) l)) as [t|e], (proj_items (projcontentR total n fixed) (embed_items (embed L) l)) as [t'|e']; try contradiction; [|exact X].
    cbn [bind]. constructor. exact X.
Qed.
End Total.
