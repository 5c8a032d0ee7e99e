(** Properties of combinations of plots: C60. *)
From Coq Require Import String Lia.
From Verif Require Import Base Num NumFacts Axis AxisSpec Calc Content Fill FillSpec FillProofs3 Tree Order Expr KeySpec HistAlg AlgSpec Props_Alg Nd Proj Props_Proj Select Table Props_Table Pandas PandasSpec Props_Pandas
  Vega VegaSpec VegaProofs Props_Vega VegaEnc VegaEncProofs Props_VegaEnc VegaComb VegaCombSpec VegaCombProofs VegaCombMain.
Local Open Scope string_scope.
Local Open Scope list_scope.

(** ** Lemmas *)
Lemma recurse2_length jx jy : forall axes j content row o, recurse2 jx jy j axes content row = Ok o -> forall r, In r (w_rows o) -> length row + length axes <= length r.
Proof.
  induction axes as [|a axes IH]; intros j content row o E r Hr; cbn [recurse2] in E.
  - destruct (numbers_of content) as [ns|]; [|discriminate]. injection E as <-. cbn in Hr. destruct Hr as [<-|[]]. rewrite app_length. cbn. lia.
  - destruct (keys_of a content) as [ks|]; [|discriminate]. cbn [bind] in E. destruct (items (as_bin a) content) as [its|]; [|discriminate]. cbn [bind] in E.
    destruct (mapM _ its) as [rs|] eqn:Em; [|discriminate]. cbn [bind] in E. assert (Ho : In r (w_rows (outs rs))) by (apply (f_equal (fun x => match x with Ok y => w_rows y | _ => [] end)) in E; rewrite <- E in Hr; exact Hr). clear E Hr.
    revert rs Em Ho. induction its as [|[k x] its IHi]; intros rs Em Ho; cbn [mapM] in Em; [injection Em as <-; contradiction|].
    match type of Em with (do y <- ?e; _) = _ => destruct e as [r1|] eqn:E1; [|discriminate] end. cbn [bind] in Em. destruct (mapM _ its) as [rs2|] eqn:E2; [|discriminate]. cbn [bind] in Em. injection Em as <-.
    cbn [outs fold_right out_app w_rows] in Ho. apply in_app_or in Ho. destruct Ho as [Ho|Ho]; [|eapply IHi; eauto].
    assert (X : (exists c, recurse2 jx jy (S j) axes x (row ++ [c]) = Ok r1) \/ r1 = out_none).
    { destruct k as [g|[lo hi c1 c2| |z|b]]; eauto; destruct (Nat.eqb j jx || Nat.eqb j jy); eauto; try (destruct (isfin lo && isfin hi); eauto); right; congruence. }
    destruct X as [(c & Ec)| ->]; [|contradiction]. specialize (IH _ _ _ _ Ec r Ho). rewrite app_length in IH. cbn in *. lia.
Qed.
Lemma chain_x sorted order ds cs e e' : encode_chain sorted order ds cs e = Ok e' -> n_x e' = n_x e.
Proof. intros E. apply (chain_keeps _ _ _ _ _ _ E). Qed.
Lemma own_data sqrt bin_width sorted x inf lastj data ms a d : raw sqrt bin_width x = Ok (inf, lastj, data) -> amarks sorted x inf = Ok ms -> In a ms -> In d data -> says_something (ameans lastj a d) = true.
Proof.
  intros Er Em Ha Hd. destruct x as [h p|h p]; cbn [raw amarks] in *.
  - destruct (data1d _ _ _ _ _) as [[[order data0] ds]|] eqn:E1; [|discriminate]. cbn [bind] in Er. destruct (position _ order) as [j|] eqn:Ej; [|discriminate]. cbn [bind] in Er. injection Er as <- <- <-. cbn [fst snd] in Em.
    destruct (data1d_rows _ _ _ _ _ _ _ _ E1) as (lj & El & Hrows & _). assert (lj = j) by congruence. subst lj. pose proof (position_ok _ _ _ Ej) as Hj.
    destruct (row_cell _ _ _ _ _ _ _ (Hrows d Hd) Hj) as (c & Hc & _).
    destruct (encode1d _ _ _ _) as [e|] eqn:Ee; [|discriminate]. cbn [bind] in Em. injection Em as <-.
    assert (Hx : n_x e = j) by (destruct (C58_encoding _ _ _ _ _ Ee) as (X & _); congruence).
    assert (Hcen : c_error (p1_last p) && is_baseline (c_kind (p1_last p)) = true -> exists y, d_centre d = Some y).
    { intros Hb. unfold data1d in E1. destruct (project _ _) as [pr|]; [|discriminate]. cbn [bind] in E1. destruct (table _ _ _ _ _) as [t|]; [|discriminate]. cbn [bind] in E1. destruct (position _ _) as [lj|] eqn:El2 in E1; [|discriminate]. cbn [bind] in E1.
      destruct (recurse _ _ _ _ _ _ _) as [r|]; [|discriminate]. cbn [bind] in E1. injection E1 as Eo Ed _. rewrite <- Ed in Hd. apply in_map_iff in Hd. destruct Hd as (row & <- & _). cbn [d_centre d_row] in *. rewrite Hb. rewrite Eo in El2. assert (lj = j) by congruence. subst lj. rewrite Hc. cbn. eauto. }
    destruct Ha as [<-|Ha].
    + unfold says_something, ameans, amark_of. cbn [a_cols map existsb fst snd meaning]. rewrite Hx, Hc. reflexivity.
    + destruct (c_error (p1_last p)) eqn:He; [|contradiction]. destruct Ha as [<-|[]]. unfold says_something, ameans, aerror. cbn [a_cols map existsb fst snd]. rewrite He. destruct (is_baseline (c_kind (p1_last p))) eqn:Hb; cbn [andb meaning].
      * destruct Hcen as (y & Hy); [reflexivity|]. rewrite Hx, Nat.eqb_refl, Hy. reflexivity.
      * rewrite Hx, Hc. reflexivity.
  - unfold data2d in Er. destruct (project _ _) as [pr|]; [|discriminate]. cbn [bind] in Er. destruct (table _ _ _ _ _) as [t|]; [|discriminate]. cbn [bind] in Er. set (order := o_group (p_head pr) ++ o_fixed (p_head pr)) in *.
    destruct (position (c_xaxis (p2_last p)) order) as [jx|] eqn:Ejx; [|discriminate]. cbn [bind] in Er. destruct (position (c_yaxis (p2_last p)) order) as [jy|]; [|discriminate]. cbn [bind] in Er. destruct (recurse2 _ _ _ _ _ _) as [r|] eqn:Err; [|discriminate]. cbn [bind] in Er. injection Er as <- <- <-.
    apply in_map_iff in Hd. destruct Hd as (row & <- & Hd). pose proof (recurse2_length _ _ _ _ _ _ _ Err row Hd) as Hl. cbn [fst snd] in Em.
    unfold encode2d in Em. destruct (heat_axis false _); [|discriminate]. cbn [bind] in Em. destruct (heat_axis true _); [|discriminate]. cbn [bind] in Em. rewrite Ejx in Em. cbn [bind] in Em. destruct (position (c_yaxis (p2_last p)) order) as [jy'|]; [|discriminate]. cbn [bind] in Em.
    destruct (existsb (fun c => is_overlay c || is_stack c) (p2_chain p)); [discriminate|]. destruct (encode_chain _ _ _ _ _) as [e|] eqn:Ee; [|discriminate]. cbn [bind] in Em. injection Em as <-. destruct Ha as [<-|[]]. apply chain_x in Ee. cbn [n_x] in Ee.
    unfold says_something, ameans, amark_of. cbn [a_cols map existsb fst snd meaning d_row]. rewrite Ee. apply position_ok in Ejx. assert (jx < length order) by (apply nth_error_Some; congruence). destruct (nth_error row jx) eqn:En; [reflexivity|]. apply nth_error_None in En. cbn in Hl. lia.
Qed.

Lemma pick {A B} (F : list A -> list B) : F [] = [] -> (forall a b, F (a ++ b) = F a ++ F b) -> forall bs n b, nth_error bs n = Some b -> (forall k b', nth_error bs k = Some b' -> k <> n -> F b' = []) -> F (concat bs) = F b.
Proof.
  intros F0 Fa. induction bs as [|b0 bs IH]; intros [|n] b Hn Hk; try discriminate; cbn [concat]; rewrite Fa.
  - cbn in Hn. injection Hn as ->. assert (X : F (concat bs) = []); [|rewrite X, app_nil_r; reflexivity].
    assert (Y : forall k b', nth_error bs k = Some b' -> F b' = []) by (intros k b' H; apply (Hk (S k)); auto). clear - F0 Fa Y. induction bs as [|x bs IH]; auto. cbn [concat]. rewrite Fa, (Y 0 x) by auto. apply IH. intros k. apply (Y (S k)).
  - rewrite (Hk 0 b0) by auto. cbn [app]. apply (IH n); auto. intros k b' H Hne. apply (Hk (S k)); auto.
Qed.
Lemma reads_app u a b : reads u (a ++ b) = reads u a ++ reads u b.
Proof. unfold reads. rewrite filter_app, map_app. reflexivity. Qed.
Lemma block_id i r o : In o (block i r) -> exists lastj d, o = to_object (varname i) lastj (set_id (Some (varname i)) d).
Proof. destruct r as [[inf lastj] data]. cbn [block]. intros H. apply in_map_iff in H. destruct H as (d & <- & _). eauto. Qed.
Lemma passes_block i k a r o : In o (block k r) -> passes (with_filter (varname i) (render (varname i) a)) o = Nat.eqb i k.
Proof.
  intros H. destruct (block_id _ _ _ H) as (lastj & d & ->). unfold passes. cbn [with_filter render u_ids app forallb]. rewrite value_id by apply varname_lower. cbn [option_map set_id d_id]. rewrite andb_true_r.
  destruct (Nat.eqb_spec i k) as [->|Hn]; [apply String.eqb_refl|]. apply String.eqb_neq. intros E. apply Hn. apply varname_inj. exact E.
Qed.
Lemma filter_all {A} (f : A -> bool) l : (forall x, In x l -> f x = true) -> filter f l = l.
Proof. induction l as [|x l IH]; intros H; auto. cbn. rewrite (H x) by (left; auto). rewrite IH; auto. intros y Hy. apply H. right. auto. Qed.
Lemma filter_none {A} (f : A -> bool) l : (forall x, In x l -> f x = false) -> filter f l = [].
Proof. induction l as [|x l IH]; intros H; auto. cbn. rewrite (H x) by (left; auto). apply IH. intros y Hy. apply H. right. auto. Qed.
Lemma block_reads i a inf lastj data : map (fun o => map (fun rf => (fst rf, value_of (snd rf) o)) (u_fields (render (varname i) a))) (block i (inf, lastj, data)) = map (ameans lastj a) data.
Proof. cbn [block]. rewrite map_map. apply map_ext. intros d. apply fields_mean_set. apply varname_lower. Qed.
Lemma alone_reads lastj a data : reads (render "a" a) (map (fun d => to_object "a" lastj (set_id None d)) data) = map (ameans lastj a) data.
Proof. unfold reads. rewrite filter_all by reflexivity. rewrite map_map. apply map_ext. intros d. apply fields_mean_set. reflexivity. Qed.
Section Reading.
  Variables (sqrt : Num -> Num) (bin_width : nat -> Num -> Num -> Num) (sorted : list dkey -> res (list dkey)).
  Lemma reads_filtered rs i inf lastj data a : nth_error rs i = Some (inf, lastj, data) -> reads (with_filter (varname i) (render (varname i) a)) (concat (blocks 0 rs)) = map (ameans lastj a) data.
  Proof.
    intros Hi. rewrite (pick (reads (with_filter (varname i) (render (varname i) a)))) with (n := i) (b := block i (inf, lastj, data)).
    - unfold reads. rewrite filter_all by (intros o Ho; rewrite (passes_block i i a _ o Ho); apply Nat.eqb_refl). apply block_reads.
    - reflexivity.
    - apply reads_app.
    - apply (blocks_nth rs 0 i). exact Hi.
    - intros k b Hb Hn. destruct (blocks_nth_inv rs 0 k b Hb) as (r & _ & ->). unfold reads. rewrite filter_none; [reflexivity|]. intros o Ho. cbn [Nat.add] in Ho. rewrite (passes_block i k a r o Ho). apply Nat.eqb_neq. auto.
  Qed.
  Lemma reads_unfiltered rs i x inf lastj data a ms : nth_error rs i = Some (inf, lastj, data) -> raw sqrt bin_width x = Ok (inf, lastj, data) -> amarks sorted x inf = Ok ms -> In a ms ->
    filter says_something (reads (render (varname i) a) (concat (blocks 0 rs))) = map (ameans lastj a) data.
  Proof.
    intros Hi Er Em Ha. rewrite (pick (fun l => filter says_something (reads (render (varname i) a) l))) with (n := i) (b := block i (inf, lastj, data)).
    - unfold reads. rewrite (filter_all (passes _)) by reflexivity. rewrite block_reads. apply filter_all. intros y Hy. apply in_map_iff in Hy. destruct Hy as (d & <- & Hd). eapply own_data; eauto.
    - reflexivity.
    - intros p q. rewrite reads_app, filter_app. reflexivity.
    - apply (blocks_nth rs 0 i). exact Hi.
    - intros k b Hb Hn. destruct (blocks_nth_inv rs 0 k b Hb) as (r & _ & ->). apply filter_none. intros y Hy. unfold reads in Hy. apply in_map_iff in Hy. destruct Hy as (o & <- & Ho). apply filter_In in Ho. destruct Ho as (Ho & _). cbn [Nat.add] in Ho.
      destruct (block_id _ _ _ Ho) as (lj & d & ->). apply fields_other; try apply varname_lower. intros E. apply varname_inj in E. congruence.
  Qed.
  Lemma amarks_error x inf ms : amarks sorted x inf = Ok ms -> length ms = if error_bars x then 2 else 1.
  Proof. destruct x as [h p|h p]; cbn [amarks error_bars]; [destruct (encode1d _ _ _ _)|destruct (encode2d _ _ _ _)]; try discriminate; cbn [bind]; intros E; injection E as <-; auto. destruct (c_error (p1_last p)); reflexivity. Qed.
  (** The marks of each plot, and what they show *)
  Definition plot_shown (data : list object) (xb : plot * bool) (us : list unit_view) : Prop :=
    exists data0 v0, plot_vegalite sqrt bin_width sorted (fst xb) = Ok (data0, v0) /\
      Forall2 (shows_at_least data data0) us (marks v0) /\ (snd xb = true \/ error_bars (fst xb) = false -> Forall2 (shows data data0) us (marks v0)).
  Lemma leaf_shown rs i xb us : nth_error rs i <> None -> (forall r, nth_error rs i = Some r -> raw sqrt bin_width (fst xb) = Ok r) ->
    leaf sorted (map (fun y => fst (fst y)) rs) i xb us -> plot_shown (concat (blocks 0 rs)) xb us.
  Proof.
    intros Hi Hr (inf' & ms & Ei & Em & ->). destruct (nth_error rs i) as [[[inf lastj] data]|] eqn:En; [|congruence]. clear Hi. specialize (Hr _ eq_refl). rewrite (map_nth_error _ _ _ En) in Ei. injection Ei as <-. cbn [fst] in Em.
    exists (map (fun d => to_object "a" lastj (set_id None d)) data), (one_or_layer (map (render "a") ms)). split; [rewrite alone, Hr; cbn [bind]; rewrite Em; reflexivity|]. rewrite marks_units.
    pose proof (amarks_error _ _ _ Em) as HL. unfold framed.
    assert (S : snd xb || Nat.eqb (length ms) 1 = true -> Forall2 (shows (concat (blocks 0 rs)) (map (fun d => to_object "a" lastj (set_id None d)) data)) (map (fun a => if snd xb || Nat.eqb (length ms) 1 then with_filter (varname i) (render (varname i) a) else render (varname i) a) ms) (map (render "a") ms)).
    { intros ->. clear - En. induction ms as [|a ms IH]; constructor; auto. split; [reflexivity|]. split; [reflexivity|]. rewrite alone_reads. apply (reads_filtered rs i inf). exact En. }
    split.
    - destruct (snd xb || Nat.eqb (length ms) 1) eqn:B.
      + specialize (S eq_refl). assert (O : forall a d, In a ms -> In d data -> says_something (ameans lastj a d) = true) by (intros; eapply own_data; eauto). clear - S O.
        induction ms as [|a ms IH]; inversion S as [|? ? ? ? H1 H2]; subst; constructor; [|apply IH; auto; intros a' d Ha Hd; apply O; auto; right; auto].
        destruct H1 as (A & B & C). split; auto. split; auto. rewrite C, alone_reads. apply filter_all. intros y Hy. apply in_map_iff in Hy. destruct Hy as (d & <- & Hd). apply O; auto. left; auto.
      + assert (O : forall a, In a ms -> filter says_something (reads (render (varname i) a) (concat (blocks 0 rs))) = map (ameans lastj a) data) by (intros; eapply reads_unfiltered; eauto). clear - O.
        induction ms as [|a ms IH]; constructor; [|apply IH; intros; apply O; right; auto]. split; [reflexivity|]. split; [reflexivity|]. rewrite alone_reads. apply O. left; auto.
    - intros Hb. apply S. destruct Hb as [-> | Hb]; auto. rewrite HL, Hb. apply orb_true_r.
  Qed.
  Lemma leaves_shown rs : forall xs i uss, leaves sorted (map (fun y => fst (fst y)) rs) i xs uss -> (forall k xb, nth_error xs k = Some xb -> exists r, nth_error rs (i + k) = Some r /\ raw sqrt bin_width (fst xb) = Ok r) ->
    Forall2 (plot_shown (concat (blocks 0 rs))) xs uss.
  Proof.
    induction xs as [|x xs IH]; intros i [|us uss] H Hr; try contradiction; constructor; cbn [leaves] in H; destruct H as (H1 & H2).
    - destruct (Hr 0 x eq_refl) as (r & E1 & E2). rewrite Nat.add_0_r in E1. apply (leaf_shown rs i); auto; congruence.
    - apply (IH (S i)); auto. intros k xb Hk. destruct (Hr (S k) xb Hk) as (r & E1 & E2). exists r. split; auto. rewrite <- E1. f_equal. lia.
  Qed.
End Reading.

(** ** C60: combinations *)
(** The marks of overlay(...), beside(...), below(...) and grid(...) are those of their plots, in order; each
    shows what it does when the plot is drawn alone: the same values in its channels for the same data, in
    the same order, the same colours and the same stacking.  The only exception: a plot with error bars
    that is in none of the overlays also gets the data of the other plots, in which none of its fields is
    defined. *)
Theorem C60_combination_shows_its_plots sqrt bin_width sorted c data v : built c -> (forall x, c <> Single x) -> comb_vegalite sqrt bin_width sorted c = Ok (data, v) ->
  exists uss, marks v = concat uss /\ Forall2 (plot_shown sqrt bin_width sorted data) (plots_in c) uss.
Proof.
  intros Hb Hs E.
  assert (X : exists r, collect sqrt bin_width c 0 = Ok r /\ data = snd r /\ exists vs n, marks v = flat_map marks vs /\ filled sorted (snd (fst r)) (plots_in c) 0 (n, vs)).
  { destruct (built_fills sorted (match collect sqrt bin_width c 0 with Ok r => snd (fst r) | Err _ => [] end) c Hb) as (F1 & F2).
    destruct c as [x|l|l|l|n l]; [contradiction (Hs x); auto| | | |]; unfold comb_vegalite in E; destruct (collect sqrt bin_width _ 0) as [[[k all] d]|]; try discriminate; cbn [bind snd fst] in *; exists (k, all, d); cbn [fst snd]; split; auto.
    - destruct (fill sorted all (Overlay l) 0) as [f|] eqn:Ef; [|discriminate]. cbn [bind] in E. injection E as <- <-. split; auto. exists (snd f), (fst f). split; auto. destruct f. apply F1. auto.
    - destruct (fill sorted all (Beside l) 0) as [f|] eqn:Ef; [|discriminate]. cbn [bind] in E. injection E as <- <-. split; auto. exists (snd f), (fst f). split; auto. destruct f. apply F1. auto.
    - destruct (fill sorted all (Below l) 0) as [f|] eqn:Ef; [|discriminate]. cbn [bind] in E. injection E as <- <-. split; auto. exists (snd f), (fst f). split; auto. destruct f. apply F1. auto.
    - destruct (fill_grid sorted all n l 0 [] []) as [f|] eqn:Ef; [|discriminate]. cbn [bind] in E. injection E as <- <-. split; auto. destruct (grid_walk sorted all n l 0 [] [] f Ef) as (vs & Ew & Ec). exists vs, (fst f). cbn [concat app] in Ec. split.
      + cbn [marks]. rewrite <- Ec. generalize (snd f). intros rows. clear. induction rows as [|r rows IH]; auto. cbn [map flat_map concat marks]. rewrite flat_map_app. cbn [marks] in IH. rewrite IH. reflexivity.
      + cbn [plots_in]. eapply walk_ok; [|exact Ew]. cbn [sons] in F2. eapply Forall_impl; [|exact F2]. intros x Hx. apply (son_ok sorted all (Grid n [])). auto. }
  destruct X as ([[k all] d] & Ec & -> & vs & n & Em & (_ & uss & Hm & Hl)). cbn [fst snd] in *. destruct (collect_ok sqrt bin_width c 0 _ Ec) as (rs & Hr & Er). injection Er as -> -> ->.
  exists uss. split; [congruence|]. eapply leaves_shown; eauto. intros j xb Hj. cbn [Nat.add].
  assert (Hp : nth_error (the_plots c) j = Some (fst xb)) by (unfold the_plots; rewrite (map_nth_error _ _ _ Hj); auto).
  clear - Hr Hp. revert j Hp. induction Hr as [|x r xs rs H Hr IH]; intros [|j] Hp; try discriminate; cbn in *; [injection Hp as <-; eauto|]. auto.
Qed.
Print Assumptions C60_combination_shows_its_plots.

(** A combination can be drawn exactly if each of its plots can be drawn alone. *)
Theorem C60_drawn_exactly_if_its_plots_are sqrt bin_width sorted c : built c ->
  ((exists r, comb_vegalite sqrt bin_width sorted c = Ok r) <-> forall x b, In (x, b) (plots_in c) -> exists r, plot_vegalite sqrt bin_width sorted x = Ok r).
Proof.
  intros Hb. destruct c as [x|l|l|l|n l] eqn:Ecc.
  { cbn. split; [intros H y b [E|[]]; injection E as <- <-; auto|intros H; apply (H x false); auto]. }
  all: rewrite <- Ecc in *; assert (Hs : forall x, c <> Single x) by (intros x; rewrite Ecc; discriminate); split;
    [intros ((data & v) & E) x b Hx; destruct (C60_combination_shows_its_plots _ _ _ _ _ _ Hb Hs E) as (uss & _ & F); clear - F Hx; induction F as [|xb us xs uss (d0 & v0 & E0 & _) F IH]; [contradiction|]; destruct Hx as [->|Hx]; [exists (d0, v0); exact E0|auto]|].
  all: intros H; assert (Hraw : forall x, In x (the_plots c) -> exists y, raw sqrt bin_width x = Ok y /\ exists ms, amarks sorted x (fst (fst y)) = Ok ms);
    [intros x Hx; apply in_map_iff in Hx; destruct Hx as ([x' b] & <- & Hx); destruct (H x' b Hx) as (r & Er); rewrite alone in Er; cbn [fst]; destruct (raw sqrt bin_width x') as [[[inf lastj] data]|]; [|discriminate]; cbn [bind] in Er; exists (inf, lastj, data); split; auto; cbn [fst]; destruct (amarks sorted x' inf) as [ms|]; [eauto|discriminate]|].
  all: destruct (collect_total sqrt bin_width c 0) as (r & Er); [intros x Hx; destruct (Hraw x Hx) as (y & E & _); eauto|].
  all: destruct (collect_ok sqrt bin_width c 0 _ Er) as (rs & Hr & Ers); subst r.
  all: assert (Hok : leaves_ok sorted (map (fun y => fst (fst y)) rs) 0 (plots_in c));
    [intros k xb Hk; assert (Hp : nth_error (the_plots c) k = Some (fst xb)) by (unfold the_plots; rewrite (map_nth_error _ _ _ Hk); auto);
     assert (Y : exists y, nth_error rs k = Some y /\ raw sqrt bin_width (fst xb) = Ok y) by
       (clear - Hr Hp; revert k Hp; induction Hr as [|x r xs rs H Hr IH]; intros [|j] Hp; try discriminate; cbn in *; [injection Hp as <-; eauto|]; auto);
     destruct Y as (y & Y1 & Y2); destruct (Hraw (fst xb)) as (y' & Y3 & ms & Y4); [eapply nth_error_In; eauto|]; assert (y' = y) by congruence; subst y'; exists (fst (fst y)), ms; split; auto; cbn [Nat.add]; apply map_nth_error with (f := fun y => fst (fst y)); auto|].
  all: destruct (built_total sorted (map (fun y => fst (fst y)) rs) c Hb) as (T1 & T2); rewrite Ecc in T1, T2, Hok, Er |- *; unfold comb_vegalite; rewrite Er; cbn [bind].
  - destruct (T1 0 Hok) as (vs & ->). cbn [bind]. eauto.
  - destruct (T1 0 Hok) as (vs & ->). cbn [bind]. eauto.
  - destruct (T1 0 Hok) as (vs & ->). cbn [bind]. eauto.
  - destruct (T2 0 Hok) as (vs & ->). cbn [bind]. eauto.
Qed.
Print Assumptions C60_drawn_exactly_if_its_plots_are.

(** ** The layout *)
(** Each argument is one entry: a mark, or layers, or a row or column of its own, with the marks of its plots. *)
Definition number_of_marks (x : comb) : nat := list_sum (map (fun y => if error_bars (fst y) then 2 else 1) (plots_in x)).
Definition entry (x : comb) (v : view_tree) : Prop :=
  length (marks v) = number_of_marks x /\
  match x with
  | Single y => if error_bars y then exists l, v = VLayer l else exists u, v = VUnit u
  | Overlay _ => exists l, v = VLayer l
  | Beside _ => exists l, v = VHconcat l
  | Below _ | Grid _ _ => exists l, v = VVconcat l
  end.
Lemma leaves_count sorted all : forall xs i uss, leaves sorted all i xs uss -> length (concat uss) = list_sum (map (fun y => if error_bars (fst y) then 2 else 1) xs).
Proof.
  induction xs as [|x xs IH]; intros i [|us uss] H; try contradiction; auto. destruct H as ((inf & ms & _ & Em & ->) & H). cbn [concat map list_sum fold_right]. rewrite app_length, (IH _ _ H). unfold framed. rewrite map_length, (amarks_error _ _ _ _ Em). reflexivity.
Qed.
Lemma walk_entries sorted all c l : Forall (fills_ok sorted all) l -> forall i r, walk (son sorted all c) l i = Ok r -> Forall2 entry l (snd r).
Proof.
  induction 1 as [|x l Hx Hl IH]; intros i r E; cbn [walk] in E; [injection E as <-; constructor|].
  destruct (son sorted all c x i) as [r1|] eqn:E1; [|discriminate]. cbn [bind] in E. destruct (walk _ l (fst r1)) as [r2|] eqn:E2; [|discriminate]. injection E as <-. cbn [snd]. constructor; [|eapply IH; eauto]. split.
  - destruct (son_ok _ _ _ _ Hx _ _ E1) as (_ & uss & M & L). cbn [snd flat_map] in M. rewrite app_nil_r in M. rewrite M. eapply leaves_count; eauto.
  - destruct x as [y|l'|l'|l'|n l'].
    + assert (E' : (do v <- fill_plot sorted all y i; Ok (i + 1, v)) = Ok r1) by (destruct c; exact E1). unfold fill_plot, info_at in E'. destruct (nth_error all i) as [inf|]; [|discriminate]. cbn [bind] in E'. rewrite units_render in E'.
      destruct (amarks sorted y inf) as [ms|] eqn:Em; [|discriminate]. cbn [bind] in E'. injection E' as <-. cbn [snd]. pose proof (amarks_error _ _ _ _ Em) as HL. destruct (error_bars y); destruct ms as [|m [|m' ms]]; try discriminate; cbn [map]; eauto.
    + assert (E' : (do r <- fill sorted all (Overlay l') i; Ok (fst r, VLayer (snd r))) = Ok r1) by (destruct c; exact E1). destruct (fill sorted all (Overlay l') i); [|discriminate]. injection E' as <-. cbn. eauto.
    + destruct c; try discriminate. cbn [son] in E1. destruct (fill sorted all (Beside l') i); [|discriminate]. injection E1 as <-. cbn. eauto.
    + destruct c; try discriminate. cbn [son] in E1. destruct (fill sorted all (Below l') i); [|discriminate]. injection E1 as <-. cbn. eauto.
    + destruct c; discriminate.
Qed.
(** The rows of a grid: full ones, then a last one that is not longer. *)
Definition rows_of {A} (n : nat) (rows : list (list A)) : Prop := exists full last, rows = full ++ [last] /\ (forall r, In r full -> length r = n) /\ length last <= n /\ (full <> [] -> last <> []).
Lemma grid_rows sorted all n : 0 < n -> forall l i rows row r, (forall x, In x rows -> length x = n) -> length row <= n -> (rows <> [] -> row <> []) -> fill_grid sorted all n l i rows row = Ok r -> rows_of n (snd r).
Proof.
  intros Hn. induction l as [|x l IH]; intros i rows row r H1 H2 H3 E.
  - injection E as <-. exists rows, row. auto.
  - cbn [fill_grid] in E. destruct (Nat.leb n (length row)) eqn:L.
    + match type of E with (do r <- ?e; _) = _ => destruct e as [r1|]; [|discriminate] end. cbn [bind] in E. apply Nat.leb_le in L. eapply IH; [| | |exact E].
      * intros y Hy. apply in_app_or in Hy. destruct Hy as [Hy|[<-|[]]]; auto. lia.
      * cbn. lia.
      * discriminate.
    + match type of E with (do r <- ?e; _) = _ => destruct e as [r1|]; [|discriminate] end. cbn [bind] in E. apply Nat.leb_gt in L. eapply IH; [| | |exact E]; auto.
      * rewrite app_length. cbn. lia.
      * intros _ X. destruct row; discriminate.
Qed.
Theorem C60_layout sqrt bin_width sorted c data v : built c -> comb_vegalite sqrt bin_width sorted c = Ok (data, v) ->
  match c with
  | Single _ => True
  | Overlay l => exists us, v = VLayer (map VUnit us) /\ length us = number_of_marks c
  | Beside l => exists vs, v = VHconcat vs /\ Forall2 entry l vs
  | Below l => exists vs, v = VVconcat vs /\ Forall2 entry l vs
  | Grid n l => exists rows, v = VVconcat (map VHconcat rows) /\ Forall2 entry l (concat rows) /\ (0 < n -> rows_of n rows)
  end.
Proof.
  intros Hb E. destruct c as [x|l|l|l|n l]; auto; unfold comb_vegalite in E; destruct (collect sqrt bin_width _ 0) as [[[k all] d]|]; try discriminate; cbn [bind snd fst] in E; destruct (built_fills sorted all _ Hb) as (F1 & F2); cbn [sons] in F2.
  - destruct (fill sorted all (Overlay l) 0) as [f|] eqn:Ef; [|discriminate]. injection E as _ <-.
    assert (X : forall l, (forall x, In x l -> in_overlay x = true) -> forall i f, fill sorted all (Overlay l) i = Ok f -> snd f = map VUnit (flat_map marks (snd f))).
    { clear. induction l as [|x l IH]; intros Hl i f E; [injection E as <-; reflexivity|]. destruct x as [x| | | |]; try (discriminate (Hl _ (or_introl eq_refl))).
      change (fill sorted all (Overlay (Single x :: l)) i) with (do r <- fill_layers sorted all x i; do r' <- fill sorted all (Overlay l) (i + 1); Ok (fst r', r ++ snd r')) in E.
      destruct (fill_layers sorted all x i) as [vs|] eqn:E1; [|discriminate]. cbn [bind] in E. destruct (fill sorted all (Overlay l) (i + 1)) as [r2|] eqn:E2; [|discriminate]. injection E as <-. cbn [snd]. rewrite flat_map_app, map_app, <- (IH (fun y Hy => Hl y (or_intror Hy)) _ _ E2).
      f_equal. unfold fill_layers in E1. destruct (info_at all i); [|discriminate]. cbn [bind] in E1. destruct (plot_units _ _ _ _) as [us|]; [|discriminate]. injection E1 as <-. clear. induction us as [|u us IHu]; auto. cbn [map flat_map marks app]. f_equal. exact IHu. }
    exists (flat_map marks (snd f)). assert (Hi : forall x, In x l -> in_overlay x = true).
    { inversion Hb as [|args c Hy Eo|args c Hy Eo|args c Hy Eo|n args c Hy Eo]; subst; unfold overlay_, beside_, below_, grid_, combine_plots in Eo; match type of Eo with context [forallb ?t ?l] => destruct (forallb t l) eqn:Fb; [|discriminate] end; try discriminate. injection Eo as <-. rewrite forallb_forall in Fb. exact Fb. }
    split; [cbn [marks]; rewrite <- (X l Hi 0 f Ef); reflexivity|]. destruct (F1 _ _ Ef) as (_ & uss & M & L). rewrite M. eapply leaves_count; eauto.
  - destruct (fill sorted all (Beside l) 0) as [f|] eqn:Ef; [|discriminate]. injection E as _ <-. exists (snd f). split; auto. rewrite fill_beside in Ef. eapply walk_entries; eauto.
  - destruct (fill sorted all (Below l) 0) as [f|] eqn:Ef; [|discriminate]. injection E as _ <-. exists (snd f). split; auto. rewrite fill_below in Ef. eapply walk_entries; eauto.
  - destruct (fill_grid sorted all n l 0 [] []) as [f|] eqn:Ef; [|discriminate]. injection E as _ <-. exists (snd f). split; auto. split.
    + destruct (grid_walk _ _ _ _ _ _ _ _ Ef) as (vs & Ew & Ec). cbn [concat app] in Ec. rewrite Ec. apply (walk_entries _ _ _ _ F2 _ _ Ew).
    + intros Hn. eapply grid_rows; [exact Hn| | | |exact Ef]; [contradiction|cbn; lia|congruence].
Qed.
Print Assumptions C60_layout.

(** overlay(plot with error bars, plot of another histogram), and below() of it with a heat map. *)
Definition cb_1 : plot := Plot1 (view (pd_hist pd_content)) {| p1_chain := [ChOverlay pd_g; ChStack pd_y None]; p1_last := ve_last TArea pd_x true |}.
Definition cb_2 : plot := Plot1 (view vc_hist) {| p1_chain := []; p1_last := ve_last TLine pd_x false |}.
Definition cb_3 : plot := Plot2 (view vc_hist) {| p2_chain := [ChBeside (AIntbin "n" 1 2 false false)]; p2_last := {| c_xaxis := pd_x; c_yaxis := ACut "c"; c_profile2 := None |} |}.
Definition cb_comb : comb := Below [Overlay [Single cb_1; Single cb_2]; Single cb_3].
Lemma cb_built : built cb_comb.
Proof.
  apply built_below with (args := [One (Overlay [Single cb_1; Single cb_2]); Many [Single cb_3]]); [|reflexivity]. intros y [<-|[<-|[]]]; [|constructor].
  apply built_overlay with (args := [Many [Single cb_1; Single cb_2]]); [|reflexivity]. intros y [<-|[<-|[]]]; constructor.
Qed.
Example C60_example : built cb_comb /\ exists data v, comb_vegalite (fun x => x) exact_width by_insertion cb_comb = Ok (data, v) /\
  map (fun u => length (reads u data)) (marks v) = [12; 12; 2; 8] /\ length data = 22 /\
  map u_ids (marks v) = [["b"]; ["b"]; ["c"]; ["d"]] /\ varname 0 = "b" /\ varname 24 = "z" /\ varname 25 = "ba" /\
  hd [] (map (fun u => hd [] (reads u data)) (skipn 2 (marks v))) = [(RX, Some (FCell (VNumber (Fin (qfrac 1 2))))); (RY, Some (FCell (VNumber (nz 26))))].
Proof.
  split; [apply cb_built|]. do 2 eexists. split; [vm_compute; reflexivity|]. split; [vm_compute; reflexivity|]. split; [vm_compute; reflexivity|]. split; [vm_compute; reflexivity|]. split; [reflexivity|]. split; [reflexivity|]. split; [reflexivity|]. num_tac.
Qed.
(** A plot with error bars beside another one is also given the data of the other. *)
Theorem C60_error_bars_beside_refuted : let c := Beside [Single cb_1; Single cb_2] in built c /\ exists data v data0 v0, comb_vegalite (fun x => x) exact_width by_insertion c = Ok (data, v) /\
  plot_vegalite (fun x => x) exact_width by_insertion cb_1 = Ok (data0, v0) /\ map (fun u => length (reads u data)) (firstn 2 (marks v)) = [14; 14] /\ map (fun u => length (reads u data0)) (marks v0) = [12; 12] /\
  skipn 12 (reads (hd (unit_of "" {| n_x := 0; n_y := 0; n_color := None; n_order := None; n_column := None; n_row := None |}) (marks v)) data) = repeat [(RX, None); (RY, None); (RColor, None); (ROrder, None)] 2.
Proof.
  cbn zeta. split. { apply built_beside with (args := [One (Single cb_1); One (Single cb_2)]); [|reflexivity]. intros y [<-|[<-|[]]]; constructor. }
  do 4 eexists. split; [vm_compute; reflexivity|]. split; [vm_compute; reflexivity|]. split; [vm_compute; reflexivity|]. split; vm_compute; reflexivity.
Qed.
Print Assumptions C60_error_bars_beside_refuted.
