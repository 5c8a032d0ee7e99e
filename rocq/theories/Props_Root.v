(** Properties of the export to ROOT: C54. *)
From Coq Require Import String.
From Verif Require Import Base Num NumFacts Axis AxisSpec Calc Content Fill FillSpec
  Tree Order Expr ExprFacts Instr InstrSpec Elem HistFill HistSpec KeySpec HistAlg AlgSpec HistAlgProofs HistAlgMain CompareProofs Props_Alg
  Nd NdProofs Proj ProjSpec ProjProofs ProjMain ProjMain2 ProjLaws Props_Proj
  Select Table TableSpec TableProofs FracProofs Props_Table Root RootSpec RootProofs.
Local Open Scope string_scope.
Local Open Scope list_scope.

(** ** Counts *)
(** [hist.root(axis)] for a bin axis: a TH1D with the bins of the axis.  Each bin of the axis, underflow
    and overflow too, is shown in the ROOT bin of the same numbers, with the sum of the entries over all
    other axes and groups; missing underflow and overflow are zero.  Weighted histograms get the square
    roots of the sums of squared weights for errors.  ([power_groups]: see C37; it says nothing if the
    histogram has no group axes.) *)
Theorem C54_root_counts e n l hi u o nf cl sqrt bin_width h P : 0 < n -> (this l < this hi)%Q ->
  let a := ABin e n (Fin l) (Fin hi) u o nf cl in
  hobj_ok h -> NoDup (o_fixed h) -> In a (o_fixed h) -> lists_blocks (o_content h) P -> power_groups (keep_of [a] (o_group h)) (o_content h) ->
  exists t, root sqrt bin_width (view h) [a] = Ok (TH1D t) /\ r_bins t = n /\ r_low t = Fin l /\ r_high t = Fin hi /\
    root_shows a (fun s => summed h a P s SumW) (r_content t) /\ r_total t = nsum (r_content t) /\
    match r_errors t with
    | Some x => weighted h = true /\ root_shows a (fun s => sqrt (summed h a P s SumW2)) x
    | None => weighted h = false
    end.
Proof. intros Hn Hlh a. apply root_counts; auto. Qed.
Print Assumptions C54_root_counts.

(** ** Profiles *)
(** [hist.root(axis, profile)]: a TProfile with the bins of the axis, whose numbers of entries are the
    sums of entries, whose means are those of the profile (C43), and whose errors are those of the means. *)
Theorem C54_root_profile e n l hi u o nf cl sqrt bin_width h P p i : 0 < n -> (this l < this hi)%Q ->
  let a := ABin e n (Fin l) (Fin hi) u o nf cl in
  hobj_ok h -> NoDup (o_fixed h) -> In a (o_fixed h) -> lists_blocks (o_content h) P -> power_groups (keep_of [a] (o_group h)) (o_content h) ->
  profile_number h p i -> has_dup (table_columns (root_opts true) [p]) = false ->
  (forall s, s < totbins a -> exists c, summed h a P s SumW = Fin c) ->
  exists t, root sqrt bin_width (view h) [a; p] = Ok (TProfile t) /\ q_bins t = n /\ q_lower t = Fin l /\ q_upper t = Fin hi /\
    root_shows a (fun s => summed h a P s SumW) (q_entries t) /\ q_total t = nsum (q_entries t) /\
    root_shows a (summed_mean h a P i) (map (prof_mean t) (seq 0 (n + 2))) /\
    ((forall s, s < totbins a -> isfin (summed_mean h a P i s) = true /\ isfin (summed_error sqrt h a P i s) = true /\ exact_root sqrt (summed_root sqrt h a P i s)) ->
     root_shows a (fun s => nmul (summed_error sqrt h a P i s) (summed_error sqrt h a P i s)) (map (prof_error2 t) (seq 0 (n + 2)))).
Proof. intros Hn Hlh a. apply root_profile; auto. Qed.
Print Assumptions C54_root_profile.

(** [root_shows] determines the ROOT bin of each bin: no two ROOT bins hold the same numbers. *)
Definition between (x y : Qc) : Qc := ((x + y) / qz 2)%Qc.
Lemma between_lt x y : (this x < this y)%Q -> (this x < this (between x y))%Q /\ (this (between x y) < this y)%Q.
Proof.
  intros H. unfold between. assert (E : (this ((x + y) / qz 2)%Qc == (this x + this y) / 2)%Q) by (qc_push; reflexivity). rewrite E.
  split; [apply Qlt_shift_div_l|apply Qlt_shift_div_r]; try reflexivity; lra.
Qed.
Lemma root_edge_fin n l h j : 0 < n -> root_edge n (Fin l) (Fin h) j = Fin (l + qz (Z.of_nat j) / qz (Z.of_nat n) * (h - l))%Qc.
Proof.
  intros Hn. unfold root_edge, nnat, nz. cbn [ndiv nsub nneg nadd]. assert (E : qeqb (qz (Z.of_nat n)) qc0 = false) by (apply qeqb_false; intros X; change qc0 with (qz 0) in X; apply qz_inj in X; lia).
  rewrite E. cbn [nmul nadd]. f_equal.
Qed.
Lemma root_edge_lt n l h j k : 0 < n -> (this l < this h)%Q -> j < k ->
  (this (l + qz (Z.of_nat j) / qz (Z.of_nat n) * (h - l))%Qc < this (l + qz (Z.of_nat k) / qz (Z.of_nat n) * (h - l))%Qc)%Q.
Proof.
  intros Hn Hlh Hjk. assert (Hn0 : (0 < this (qz (Z.of_nat n)))%Q) by (rewrite this_qz; unfold Qlt, inject_Z; cbn; lia).
  rewrite !this_add, !this_mul, !this_div, this_sub. set (d := (this h - this l)%Q). assert (Hd : (0 < d)%Q) by (unfold d; lra).
  apply Qplus_lt_r. apply Qmult_lt_compat_r; auto. apply Qmult_lt_compat_r; [apply Qinv_lt_0_compat; auto|]. rewrite !this_qz. unfold Qlt, inject_Z. cbn. lia.
Qed.
Lemma some_number n l h i : 0 < n -> (this l < this h)%Q -> i < n + 2 -> exists v, v <> NaN /\ ~ is_edge n (Fin l) (Fin h) v /\ in_root_bin n (Fin l) (Fin h) i v.
Proof.
  intros Hn Hlh Hi.
  pose proof (fun j => root_edge_fin n l h j Hn) as Hedge.
  assert (Hn0 : (0 < this (qz (Z.of_nat n)))%Q) by (rewrite this_qz; unfold Qlt, inject_Z; cbn; lia).
  pose proof (fun j k => root_edge_lt n l h j k Hn Hlh) as Hmono.
  assert (H0 : (l + qz (Z.of_nat 0) / qz (Z.of_nat n) * (h - l))%Qc = l). { apply Qc_ext. rewrite !this_add, !this_mul, !this_div, !this_sub. rewrite this_qz at 1. cbn [Z.of_nat]. change (inject_Z 0) with 0%Q. field. lra. }
  assert (H1 : (l + qz (Z.of_nat n) / qz (Z.of_nat n) * (h - l))%Qc = h). { apply Qc_ext. rewrite !this_add, !this_mul, !this_div, !this_sub. field. lra. }
  destruct (Nat.eq_dec i 0) as [->|Hi0]; [|destruct (Nat.eq_dec i (n + 1)) as [->|Hi1]].
  - exists NInf. split; [discriminate|]. split; [intros (j & _ & E); rewrite Hedge in E; discriminate|]. left. auto.
  - exists PInf. split; [discriminate|]. split; [intros (j & _ & E); rewrite Hedge in E; discriminate|]. right; right. auto.
  - set (x := (l + qz (Z.of_nat (i - 1)) / qz (Z.of_nat n) * (h - l))%Qc). set (y := (l + qz (Z.of_nat i) / qz (Z.of_nat n) * (h - l))%Qc).
    destruct (between_lt x y) as (L1 & L2); [apply Hmono; lia|]. exists (Fin (between x y)). split; [discriminate|]. split.
    + intros (j & Hj & E). rewrite Hedge in E. assert (E2 := f_equal (fun k => match k with Fin k => k | _ => qc0 end) E). cbn beta iota in E2.
      destruct (Nat.le_gt_cases j (i - 1)) as [Hle|Hle].
      * assert (X : (this (l + qz (Z.of_nat j) / qz (Z.of_nat n) * (h - l))%Qc <= this x)%Q).
        { destruct (Nat.eq_dec j (i - 1)) as [->|]; [apply Qle_refl|]. apply Qlt_le_weak. apply Hmono. lia. }
        rewrite <- E2 in X. lra.
      * assert (X : (this y <= this (l + qz (Z.of_nat j) / qz (Z.of_nat n) * (h - l))%Qc)%Q).
        { destruct (Nat.eq_dec j i) as [->|]; [apply Qle_refl|]. apply Qlt_le_weak. apply Hmono. lia. }
        rewrite <- E2 in X. lra.
    + right; left. split; [lia|]. rewrite !Hedge. split; [apply nleb_iff; left|]; apply qltb_iff; auto.
Qed.
Theorem C54_one_root_bin n l h cl i j k : 0 < n -> (this l < this h)%Q -> i < n + 2 -> j < n + 2 ->
  same_bin n (Fin l) (Fin h) cl i k -> same_bin n (Fin l) (Fin h) cl j k -> i = j.
Proof.
  intros Hn Hlh Hi Hj H1 H2. destruct (some_number n l h i Hn Hlh Hi) as (v & Hv & He & Hb).
  assert (Hb2 : in_root_bin n (Fin l) (Fin h) j v) by (apply H2; auto; apply H1; auto).
  (* no number is in two ROOT bins *)
  assert (Hmono : forall x y, x <= y -> nleb (root_edge n (Fin l) (Fin h) x) (root_edge n (Fin l) (Fin h) y) = true).
  { intros x y Hxy. rewrite !root_edge_fin by auto. apply nleb_iff. destruct (Nat.eq_dec x y) as [->|]; [right; auto|left]. apply qltb_iff. apply root_edge_lt; auto. lia. }
  assert (E0 : root_edge n (Fin l) (Fin h) 0 = Fin l) by (rewrite root_edge_eq, AxisProofs.i2x_edge, AxisProofs.edge_0 by auto; reflexivity).
  assert (En : root_edge n (Fin l) (Fin h) n = Fin h) by (rewrite root_edge_eq, AxisProofs.i2x_edge, AxisProofs.edge_n by auto; reflexivity).
  assert (Hx : forall x y, x < y -> in_root_bin n (Fin l) (Fin h) x v -> in_root_bin n (Fin l) (Fin h) y v -> False).
  { intros x y Hxy Hx Hy.
    assert (A : exists p, p < y /\ p <= n /\ nltb v (root_edge n (Fin l) (Fin h) p) = true).
    { destruct Hx as [(-> & X)|[(X & _ & Y)|(-> & X)]]; [exists 0; rewrite E0; repeat split; auto; lia|exists x; repeat split; auto; lia|exfalso].
      destruct Hy as [(-> & _)|[(Y & _)|(-> & _)]]; lia. }
    assert (B : exists p, y <= p + 1 /\ nleb (root_edge n (Fin l) (Fin h) p) v = true).
    { destruct Hy as [(-> & X)|[(X & Y & _)|(-> & X)]]; [lia|exists (y - 1); split; [lia|auto]|exists n; rewrite En; split; auto; lia]. }
    destruct A as (p1 & Hp1 & _ & A). destruct B as (p2 & Hp2 & B). assert (M := Hmono p1 p2 ltac:(lia)).
    clear - A B M. rewrite nleb_iff in *. destruct (root_edge n (Fin l) (Fin h) p1), (root_edge n (Fin l) (Fin h) p2), v; cbn in *; try discriminate;
      repeat match goal with H : _ \/ _ |- _ => destruct H | H : _ /\ _ |- _ => destruct H end; try discriminate; try congruence;
      repeat match goal with H : qltb _ _ = true |- _ => apply qltb_iff in H end;
      repeat match goal with H : Fin ?x = Fin ?y |- _ => let E := fresh in assert (E : x = y) by exact (f_equal (fun k => match k with Fin k => k | _ => qc0 end) H); clear H; subst end; try lra. }
  destruct (Nat.lt_trichotomy i j) as [H|[H|H]]; auto; exfalso; eauto.
Qed.
Print Assumptions C54_one_root_bin.

(** groupby("g"), bin("x", 2, 0, 2) with all flow bins, and profile("p"): in the bin [0, 1), group "a" has
    one entry and group "b" three; their mean is 3/2 and its error 1.  The NaN bin is left out. *)
Definition rt_x : axis := ABin "x" 2 (nz 0) (nz 2) true true true true.
Definition rt_content : content :=
  CDict [(GStr "a", arr [0; 0; 0;  1; 1; 1;   0; 0; 0;  0; 0; 0;  0; 0; 0]%Z);
         (GStr "b", arr [2; 4; 1;  5; 24; 3;  0; 0; 0;  2; 4; 1;  0; 0; 7]%Z)].
Definition rt_hist : hobj := {|
  o_group := [pr_g]; o_fixed := [rt_x]; o_prof := [pr_p]; o_weight := None; o_filter := None; o_defs := []; o_attach := []; o_content := rt_content |}.
Definition rt_sqrt (x : Num) : Num := if neqb x (nz 25) then nz 5 else if neqb x (nz 4) then nz 2 else x.
Definition rt_groups : list (list gkey) := [[GStr "a"]; [GStr "b"]].
Lemma rt_blocks : lists_blocks rt_content rt_groups.
Proof.
  split; [repeat constructor; cbn; intuition discriminate|]. intros ks. destruct ks as [|k [|k' ks]]; cbn.
  - intuition discriminate.
  - split; [intros [E|[E|[]]]; inversion E; subst; cbn; discriminate|].
    destruct (gkey_eqb k (GStr "a")) eqn:Ea; [apply gkey_eqb_eq in Ea; subst; auto|].
    destruct (gkey_eqb k (GStr "b")) eqn:Eb; [apply gkey_eqb_eq in Eb; subst; auto|]. congruence.
  - split; [intuition discriminate|]. intros H. exfalso. apply H. destruct (gkey_eqb k (GStr "a")); auto. destruct (gkey_eqb k (GStr "b")); auto.
Qed.
Example C54_example : hobj_ok rt_hist /\ NoDup (o_fixed rt_hist) /\ lists_blocks (o_content rt_hist) rt_groups /\ power_groups (keep_of [rt_x] (o_group rt_hist)) (o_content rt_hist) /\
  profile_number rt_hist pr_p 0 /\ has_dup (table_columns (root_opts true) [pr_p]) = false /\
  (forall s, s < totbins rt_x -> (exists c, summed rt_hist rt_x rt_groups s SumW = Fin c) /\ isfin (summed_mean rt_hist rt_x rt_groups 0 s) = true /\
     isfin (summed_error rt_sqrt rt_hist rt_x rt_groups 0 s) = true /\ exact_root rt_sqrt (summed_root rt_sqrt rt_hist rt_x rt_groups 0 s)) /\
  (exists t, root rt_sqrt exact_width (view rt_hist) [rt_x] = Ok (TH1D t) /\ r_content t = map nz [1; 4; 0; 1]%Z /\ r_errors t = None) /\
  exists t, root rt_sqrt exact_width (view rt_hist) [rt_x; pr_p] = Ok (TProfile t) /\ prof_mean t 1 = Fin (qfrac 3 2) /\ prof_error2 t 1 = nz 1.
Proof.
  split; [repeat (ok_tac; cbn [snd map fst])|]. split; [repeat constructor; cbn; tauto|]. split; [apply rt_blocks|]. split.
  { cbn. split; [right; exists 0; reflexivity|]. repeat constructor. }
  split; [split; [reflexivity|intros j Hj; lia]|]. split; [reflexivity|]. split.
  { intros s Hs. cbn in Hs. 
    do 5 (destruct s as [|s]; [split; [eexists; vm_compute; reflexivity|]; split; [reflexivity|]; split; [reflexivity|]; unfold exact_root; num_tac|]). lia. }
  split; eexists; (split; [vm_compute; reflexivity|]); split; num_tac.
Qed.

(** ** Which axes *)
(** Without axes, [hist.root()] is [hist.root( *axes)] of all group and fixed axes. *)
Theorem C54_default_axes sqrt bin_width h : o_group (p_head h) ++ o_fixed (p_head h) <> [] ->
  root sqrt bin_width h [] = root sqrt bin_width h (o_group (p_head h) ++ o_fixed (p_head h)).
Proof. intros H. unfold root. destruct (o_group (p_head h) ++ o_fixed (p_head h)); [congruence|reflexivity]. Qed.
Print Assumptions C54_default_axes.
(** Every successful export is of one bin or split axis, and at most one profile. *)
Lemma split_profile_spec : forall axes prof r, split_profile axes prof = Ok r ->
  fst r = filter (fun x => negb (is_profile x)) axes /\ length (filter is_profile axes) <= 1.
Proof.
  induction axes as [|a axes IH]; intros prof r H; cbn [split_profile] in H; [inversion H; cbn; auto|]. cbn [filter]. destruct (is_profile a) eqn:E; cbn [negb].
  - destruct prof; [discriminate|]. destruct (IH _ _ H) as (H1 & H2). split; auto. cbn [length].
    assert (X : forall axes p r, split_profile axes (Some p) = Ok r -> filter is_profile axes = []).
    { clear. induction axes as [|a axes IH]; intros p r H; auto. cbn [split_profile filter] in *. destruct (is_profile a); [discriminate|]. destruct (split_profile axes (Some p)) as [r'|] eqn:E; [|discriminate]. eauto. }
    rewrite (X _ _ _ H). auto.
  - destruct (split_profile axes prof) as [r'|] eqn:E2; [|discriminate]. cbn in H. inversion H; subst. cbn [fst]. destruct (IH _ _ E2) as (-> & H2). auto.
Qed.
Theorem C54_only_one_axis sqrt bin_width h axes r : axes <> [] -> root sqrt bin_width h axes = Ok r ->
  exists a, filter (fun x => negb (is_profile x)) axes = [a] /\ (exists n l hi u o nf, root_range a = Ok (n, l, hi, u, o, nf)) /\ length (filter is_profile axes) <= 1.
Proof.
  intros Hne H. unfold root in H. cbn zeta in H. destruct axes as [|a0 t0]; [congruence|]. set (axes := a0 :: t0) in *. clearbody axes. clear a0 t0 Hne.
  destruct (negb _); [discriminate|]. destruct (split_profile axes None) as [[b prof]|] eqn:E; [|discriminate]. cbn [bind] in H. apply split_profile_spec in E. cbn [fst] in E. destruct E as (<- & E2).
  destruct (project h b) as [g|]; [|discriminate]. cbn [bind] in H. destruct (match prof with None => _ | Some _ => _ end) as [t|]; [|discriminate]. cbn [bind] in H.
  destruct b as [|a [|b2 [|b3 b]]]; try discriminate.
  - exists a. split; auto. split; auto. destruct (is_groupby a); [discriminate|]. destruct (is_groupbin a); [discriminate|].
    destruct (root_range a) as [[[[[[? ?] ?] ?] ?] ?]|] eqn:ER; [eauto 10|]. unfold make_th1, make_tprofile in H. rewrite ER in H. destruct prof; discriminate.
  - destruct (is_groupby a || is_groupby b2); [discriminate|]. destruct (is_groupbin a || is_groupbin b2); discriminate.
  - repeat match type of H with (if ?x then _ else _) = _ => destruct x; try discriminate end.
Qed.
Print Assumptions C54_only_one_axis.
Example C54_only_one_axis_example : exists r, root rt_sqrt exact_width (view rt_hist) [rt_x; pr_p] = Ok r. Proof. eexists. vm_compute. reflexivity. Qed.

(** ** Where the export fails or shows something else *)
(** Integer bins and cuts have no [numbins]. *)
Theorem C54_integer_bins_and_cuts_refuted : exists h a b, hobj_ok h /\ o_fixed h = [a; b] /\ forall sqrt bin_width,
  root sqrt bin_width (view h) [a] = Err AttributeError /\ root sqrt bin_width (view h) [b] = Err AttributeError.
Proof.
  exists {| o_group := []; o_fixed := [AIntbin "x" 0 1 false false; ACut "y"]; o_prof := []; o_weight := None; o_filter := None; o_defs := []; o_attach := []; o_content := arr [1; 2; 3; 4]%Z |},
    (AIntbin "x" 0 1 false false), (ACut "y").
  split; [ok_tac|]. split; auto.
Qed.
Print Assumptions C54_integer_bins_and_cuts_refuted.
(** Two bin axes: TH2 is not implemented. *)
Theorem C54_two_axes_refuted : exists h, hobj_ok h /\ o_group h = [] /\ length (o_fixed h) = 2 /\ forall sqrt bin_width, root sqrt bin_width (view h) [] = Err NotImplementedError.
Proof. exists pr_flat. split; [ok_tac|]. split; [reflexivity|]. split; [reflexivity|]. reflexivity. Qed.
Print Assumptions C54_two_axes_refuted.
(** A split axis gets bins of equal width: the entry in [0, 1) of edges 0, 1, 4 is shown in [0, 2). *)
Theorem C54_split_refuted : exists h a, hobj_ok h /\ o_fixed h = [a] /\ a = ASplit "x" [nz 0; nz 1; nz 4] false false false true /\
  forall sqrt bin_width, exists t, root sqrt bin_width (view h) [a] = Ok (TH1D t) /\ hcell h [] [0] SumW = nz 5 /\ hcell h [] [1] SumW = nz 0 /\ nth 1 (r_content t) nzero = nz 5 /\
    nth_error (keys a) 1 = Some (KIv (nz 1) (nz 4) true false) /\ contains (KIv (nz 1) (nz 4) true false) (Fin (qfrac 3 2)) /\
    in_root_bin (r_bins t) (r_low t) (r_high t) 1 (Fin (qfrac 3 2)).
Proof.
  exists {| o_group := []; o_fixed := [ASplit "x" [nz 0; nz 1; nz 4] false false false true]; o_prof := []; o_weight := None; o_filter := None; o_defs := []; o_attach := []; o_content := arr [5; 0]%Z |},
    (ASplit "x" [nz 0; nz 1; nz 4] false false false true).
  split; [ok_tac|]. split; auto. split; auto. intros. eexists. split; [reflexivity|]. cbn [r_content r_bins r_low r_high].
  do 4 (split; [num_tac|]). split; [split; left; reflexivity|]. right; left. split; [cbn; lia|]. split; reflexivity.
Qed.
Print Assumptions C54_split_refuted.
(** The entries of the NaN bin are in no ROOT bin. *)
Theorem C54_nan_bin_refuted : exists h a, hobj_ok h /\ o_fixed h = [a] /\ nth_error (keys a) 2 = Some KNaN /\ hcell h [] [2] SumW = nz 3 /\
  forall sqrt bin_width, exists t, root sqrt bin_width (view h) [a] = Ok (TH1D t) /\ r_total t = nz 3 /\ r_content t = map nz [0; 1; 2; 0]%Z.
Proof.
  exists {| o_group := []; o_fixed := [ABin "x" 2 (nz 0) (nz 2) false false true true]; o_prof := []; o_weight := None; o_filter := None; o_defs := []; o_attach := []; o_content := arr [1; 2; 3]%Z |},
    (ABin "x" 2 (nz 0) (nz 2) false false true true).
  split; [ok_tac|]. split; auto. split; [reflexivity|]. split; [num_tac|]. intros. eexists. split; [reflexivity|]. split; num_tac.
Qed.
Print Assumptions C54_nan_bin_refuted.
(** A bin axis with bins closed above: the entry with x = 1 is in the bin (0, 1], and ROOT's bin for it is
    [0, 1), which does not have 1. *)
Theorem C54_closed_high_edges_refuted : exists h a v, hobj_ok h /\ o_fixed h = [a] /\ nth_error (keys a) 0 = Some (KIv (nz 0) (nz 1) false true) /\ contains (KIv (nz 0) (nz 1) false true) v /\
  hcell h [] [0] SumW = nz 1 /\ forall sqrt bin_width, exists t, root sqrt bin_width (view h) [a] = Ok (TH1D t) /\
    r_content t = map nz [0; 1; 0; 0]%Z /\ ~ in_root_bin (r_bins t) (r_low t) (r_high t) 1 v.
Proof.
  exists {| o_group := []; o_fixed := [ABin "x" 2 (nz 0) (nz 2) false false false false]; o_prof := []; o_weight := None; o_filter := None; o_defs := []; o_attach := []; o_content := arr [1; 0]%Z |},
    (ABin "x" 2 (nz 0) (nz 2) false false false false), (nz 1).
  split; [ok_tac|]. split; auto. split; [num_tac|]. split; [split; [left; reflexivity|right; repeat split; discriminate]|]. split; [num_tac|]. intros. eexists. split; [reflexivity|]. split; [num_tac|].
  cbn [r_bins r_low r_high]. intros [(X & _)|[(_ & _ & X)|(X & _)]]; try discriminate.
Qed.
Print Assumptions C54_closed_high_edges_refuted.
