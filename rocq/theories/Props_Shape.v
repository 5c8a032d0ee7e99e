(** What shape says about the arrays of a histogram: C82. *)
From Coq Require Import String.
From Verif Require Import Base Num NumFacts Axis AxisSpec AxisProofs AxisProofs2 Calc Content Fill FillSpec FillMain Tree Order Expr HistAlg AlgSpec HistAlgProofs HistAlgMain Shape
  Nd Proj ProjSpec ProjProofs ProjMain ProjLaws Select SelSpec SelMain Rebin RebinSpec Props_Alg Props_Proj Props_Select Props_Rebin.
Local Open Scope string_scope.
Local Open Scope list_scope.

(** The number of sums that every bin holds: the sum of weights, the sum of their squares if there are
    weights, and two for every profile. *)
Definition sums_per_bin (profiles : nat) (is_weighted : bool) : nat := (if is_weighted then 2 else 1) + 2 * profiles.

Lemma last_plus_app k l n : last_plus k (l ++ [n]) = l ++ [n + k].
Proof. induction l as [|x l IH]; [reflexivity|]. cbn [app last_plus]. rewrite IH. destruct l; reflexivity. Qed.
Lemma fixed_entries_ok axs : forall s, fixed_entries s axs = s ++ map totbins (filter is_fixed axs).
Proof.
  induction axs as [|a axs IH]; intros s; cbn [fixed_entries filter map]; [rewrite app_nil_r; auto|].
  rewrite IH. destruct (is_fixed a); auto. cbn [map]. rewrite <- app_assoc. auto.
Qed.
Lemma profile_entries_ok axs : forall l n, profile_entries (l ++ [n]) axs = l ++ [n + 2 * length (filter is_profile axs)].
Proof.
  induction axs as [|a axs IH]; intros l n; cbn [profile_entries filter]; [cbn; rewrite Nat.add_0_r; auto|].
  destruct (is_profile a); [rewrite last_plus_app|]; rewrite IH; auto. cbn [length]. do 2 f_equal. lia.
Qed.
Lemma init_shape_ok axs w f : init_shape axs w f = map totbins (filter is_fixed axs) ++
  [sums_per_bin (length (filter is_profile axs)) (match w, f with None, None => false | _, _ => true end)].
Proof.
  unfold init_shape, sums_per_bin. rewrite fixed_entries_ok. cbn [app]. rewrite profile_entries_ok, last_plus_app. do 2 f_equal. destruct w, f; lia.
Qed.
(** shape is, for every fixed axis in the order they were given, its number of bins, and then the number
    of sums per bin. *)
Theorem C82_shape axs w f : ~ In ANull axs ->
  init_shape axs w f = map (fun a => length (keys a)) (filter is_fixed axs) ++
    [sums_per_bin (length (filter is_profile axs)) (match w, f with None, None => false | _, _ => true end)].
Proof.
  intros N. rewrite init_shape_ok. f_equal. apply map_ext_in. intros a I. apply filter_In in I. destruct I as (I & Fx). symmetry. apply keys_length_totbins; auto. intros ->. auto.
Qed.
Print Assumptions C82_shape.

Lemma filter_all {A} (f : A -> bool) l : Forall (fun x => f x = true) l -> filter f l = l.
Proof. induction 1 as [|x l E H IH]; cbn [filter]; auto. rewrite E, IH. auto. Qed.
Lemma filter_none {A} (f g : A -> bool) l : (forall x, f x = true -> g x = false) -> Forall (fun x => f x = true) l -> filter g l = [].
Proof. intros D. induction 1 as [|x l E H IH]; cbn [filter]; auto. rewrite (D x E), IH. auto. Qed.
Lemma hist_shape_layout h : hobj_ok h -> hist_shape h = l_tots (o_layout h) ++ [l_last (o_layout h)].
Proof.
  intros (HG & HF & HP & _). unfold hist_shape. rewrite init_shape_ok. unfold o_axes. rewrite !filter_app.
  rewrite (filter_none is_group is_fixed (o_group h)), (filter_none is_group is_profile (o_group h)) by (auto; intros []; cbn; congruence).
  rewrite (filter_all is_fixed), (filter_none is_fixed is_profile (o_fixed h)) by (auto; intros []; cbn; congruence).
  rewrite (filter_all is_profile), (filter_none is_profile is_fixed (o_prof h)) by (auto; intros []; cbn; congruence).
  rewrite app_nil_r. cbn [app]. unfold o_layout, l_last, sums_per_bin. cbn [l_tots l_nprof l_weighted]. do 2 f_equal. destruct (o_weight h), (o_filter h); lia.
Qed.
Lemma fold_mul_app l n : fold_right Nat.mul 1 (l ++ [n]) = fold_right Nat.mul 1 l * n.
Proof. induction l as [|x l IH]; cbn [app fold_right]; [lia|]. rewrite IH. lia. Qed.
(** Every array of the content has as many numbers as the shape says. *)
Theorem C82_arrays h ks d : hobj_ok h -> block (o_content h) ks = Some d -> length d = fold_right Nat.mul 1 (hist_shape h).
Proof.
  intros Hok E. rewrite (hist_shape_layout h Hok), fold_mul_app. apply (hist_block_length (o_layout h) _ _ ks d (proj2 (proj2 (proj2 Hok))) E).
Qed.
Print Assumptions C82_arrays.
(** Histograms that can be added have the same shape, and so have their sum, multiples, copies and
    cleared histograms. *)
Theorem C82_algebra h g v : hobj_ok h -> hobj_ok g -> addable h g ->
  hist_shape g = hist_shape h /\
  (exists s, hist_add h g = Ok s /\ hist_shape s = hist_shape h) /\
  (exists s, hist_iadd h g = (s, None) /\ hist_shape s = hist_shape h) /\
  (o_content h <> CNone -> exists s, hist_mul h v = Ok s /\ hist_shape s = hist_shape h) /\
  hist_shape (hist_copy h) = hist_shape h /\ hist_shape (hist_cleared h) = hist_shape h.
Proof.
  intros Hh Hg Ha. destruct (C25_sum h g Hh Hg Ha) as (s & Es & Hs & _). destruct (C27_iadd h g Hh Hg Ha) as (s2 & Es2 & Es3).
  assert (Sh : forall s, hist_add h g = Ok s -> hist_shape s = hist_shape h).
  { intros t. unfold hist_add. destruct (axes_eqb _ _); [|discriminate]. destruct (content_add _ _ _ _); cbn [bind]; [|discriminate]. intros [= <-]. reflexivity. }
  split; [|split; [eauto|split; [|split; [|split; reflexivity]]]].
  - rewrite !hist_shape_layout by auto. destruct Ha as (Ax & Aw). assert (Q := same_layout' h g Hh Hg Ax Aw). intuition congruence.
  - exists s2. split; [congruence|]. apply Sh. congruence.
  - intros Nc. destruct Hh as (HG & HF & HP & [Hc|Hc]); [contradiction|]. destruct (content_mul_ok (o_layout h) v _ _ Hc) as (c & E1 & _). exists (with_content h c). unfold hist_mul. rewrite E1. split; reflexivity.
Qed.
Print Assumptions C82_algebra.
(** project(...) leaves the entries of the axes that stay. *)
Theorem C82_project h axes : hobj_ok h -> all_in axes (o_group h ++ o_fixed h) = true -> keeps_groups h axes ->
  exists g, project (view h) axes = Ok (view g) /\ hist_shape g = map totbins (filter (fun x => axis_in x axes) (o_fixed h)) ++ [last (hist_shape h) 0].
Proof.
  intros Hok Ha Hk. destruct (C35_projection_sums_cells h axes Hok Ha Hk) as (g & Eg & Hg & _ & Ef & Ep & Ew & El & _). exists g. split; auto.
  rewrite !hist_shape_layout, last_last by auto. unfold o_layout, l_last. cbn [l_tots l_nprof l_weighted]. rewrite Ef, Ep, Ew, El. reflexivity.
Qed.
Print Assumptions C82_project.
Lemma changed_shape q a' h g : hobj_ok h -> hobj_ok g -> axis_changed q a' h g ->
  hist_shape g = at_axis q (fun _ => totbins a') (map totbins (o_fixed h)) ++ [last (hist_shape h) 0].
Proof.
  intros Hh Hg (_ & Ef & Ep & Ew & El & _). rewrite !hist_shape_layout, last_last by auto. unfold o_layout, l_last. cbn [l_tots l_nprof l_weighted]. rewrite Ef, Ep, Ew, El. f_equal.
  clear. revert q. induction (o_fixed h) as [|x l IH]; intros [|q]; cbn; auto. f_equal. apply IH.
Qed.
(** select("x < 1") (C38) changes the entry of the axis alone: it is the number of bins that stay. *)
Theorem C82_select mb parse tol h e x c v n q a g' : hobj_ok h -> no_null h -> compares (asconst mb) e x c v -> as_real v = Some n -> n <> NaN ->
  only_axis parse h e x (length (o_group h) + q) a -> numeric_axis a -> small_for a tol -> hist_select mb parse tol (view h) e = Ok g' ->
  exists g a', g' = view g /\ nth_error (o_fixed g) q = Some a' /\
    hist_shape g = at_axis q (fun _ => totbins a') (map totbins (o_fixed h)) ++ [last (hist_shape h) 0].
Proof.
  intros Hok Hn Hc Hv Nn Ho Ha Ht E. destruct (C38_selection_keeps_the_bins_inside _ _ _ _ _ _ _ _ _ _ _ _ Hok Hn Hc Hv Nn Ho Ha Ht E) as (g & a' & t & edge & Eg & Hg & Hch & _).
  exists g, a'. split; auto. split; [|apply changed_shape; auto]. destruct Hch as (_ & -> & _). destruct Ho as (Hnth & _).
  rewrite nth_error_app2 in Hnth by lia. replace (length (o_group h) + q - length (o_group h)) with q in Hnth by lia. revert Hnth. clear. revert q.
  induction (o_fixed h) as [|y l IH]; intros [|q]; cbn; try discriminate; auto.
Qed.
Print Assumptions C82_select.

(** So does rebin(...): to the number of new bins. *)
Theorem C82_rebin parse h arg q a edges g' : hobj_ok h -> numeric_axis a -> names_axis parse h arg q a -> rebin parse (view h) arg edges = Ok g' ->
  exists g a', g' = view g /\ has_edges a a' edges /\ hist_shape g = at_axis q (fun _ => totbins a') (map totbins (o_fixed h)) ++ [last (hist_shape h) 0].
Proof.
  intros Hok Ha Hn E. destruct (C40_rebin_sums_the_old_bins _ _ _ _ _ _ _ Hok Ha Hn E) as (g & a' & parts & Eg & Hg & Hch & He & _). exists g, a'. split; auto. split; auto. apply changed_shape; auto.
Qed.
Print Assumptions C82_rebin.
(** drop(...) of all profiles leaves the sum of weights, and the sum of squares if there are weights. *)
Theorem C82_drop h dropped : hobj_ok h -> dropped <> [] -> all_in dropped (o_prof h) = true -> Forall (fun p => axis_in p dropped = true) (o_prof h) ->
  (o_filter h = None \/ o_weight h <> None) ->
  exists g, drop (view h) dropped = Ok (view g) /\ hist_shape g = map totbins (o_fixed h) ++ [sums_per_bin 0 (weighted h)].
Proof.
  intros H1 H2 H3 H4 H5. destruct (C42_dropping_all_profiles_keeps_counts h dropped H1 H2 H3 H4 H5) as (g & E & Hg & Ax & Ew & Ef & _). exists g. split; auto.
  unfold hist_shape. rewrite init_shape_ok, Ax, Ew, Ef, !filter_app. destruct H1 as (HG & HF & _).
  rewrite (filter_none is_group is_fixed (o_group h)), (filter_none is_group is_profile (o_group h)) by (auto; intros []; cbn; congruence).
  rewrite (filter_all is_fixed), (filter_none is_fixed is_profile (o_fixed h)) by (auto; intros []; cbn; congruence). reflexivity.
Qed.
Print Assumptions C82_drop.

(** Two bins in x with two profiles and weights: six sums per bin. A selection leaves one bin of two. *)
Example C82_example : let h := pr_prof (Some (XStr "w")) None [10; 11; 20; 21; 3; 5; 30; 31; 40; 41; 7; 9]%Z in
  hobj_ok h /\ hist_shape h = [2; 6] /\ (exists d, block (o_content h) [] = Some d /\ length d = 12) /\
  init_shape [pr_p; pr_x; pr_g; pr_q; pr_y] (Some (XStr "w")) None = [2; 2; 6] /\
  hobj_ok (pr_grouped 2) /\ addable (pr_grouped 2) (pr_grouped 2) /\ hist_shape (pr_grouped 2) = [2; 2; 1] /\
  all_in [pr_g; pr_x] (o_group (pr_grouped 2) ++ o_fixed (pr_grouped 2)) = true /\ keeps_groups (pr_grouped 2) [pr_g; pr_x] /\
  (exists g, hist_select se_mb EName se_tol (view pr_flat) (ERel CLt (EName "x") (se_num 1)) = Ok g /\ hist_shape pr_flat = [2; 2; 1] /\ hist_shape (p_head g) = [1; 2; 1]).
Proof.
  cbn zeta. split; [ok_tac|]. split; [reflexivity|]. split; [eexists; split; reflexivity|]. split; [reflexivity|]. split; [ok_tac|]. split; [split; reflexivity|]. split; [reflexivity|]. split; [reflexivity|].
  split; [reflexivity|]. eexists. split; [vm_compute; reflexivity|]. split; reflexivity.
Qed.
(** drop() of one of two profiles leaves an array that is not as the shape says. *)
Theorem C82_drop_refuted : exists h dropped g sh e, hobj_ok h /\ drop (view h) dropped = Ok g /\ p_content g = PArr sh e /\ hist_shape (p_head g) <> sh.
Proof.
  exists (pr_prof (Some (XStr "w")) None [10; 11; 20; 21; 3; 5; 30; 31; 40; 41; 7; 9]%Z), [pr_p]. eexists. eexists. eexists. split; [ok_tac|]. split; [vm_compute; reflexivity|]. split; [reflexivity|]. vm_compute. discriminate.
Qed.
Print Assumptions C82_drop_refuted.
Example C82_rebin_example : hobj_ok rb_hist /\ numeric_axis rb_x /\ names_axis EName rb_hist (ByExpr (EName "x")) 1 rb_x /\
  exists g, rebin EName (view rb_hist) (ByExpr (EName "x")) rb_edges = Ok g /\ hist_shape (p_head g) = [2; 4; 1].
Proof.
  destruct C40_example as (H1 & H2 & H3 & _). split; [exact H1|]. split; [exact H2|]. split; [exact H3|]. eexists. split; [vm_compute; reflexivity|]. vm_compute. reflexivity.
Qed.
Example C82_drop_example : let h := pr_prof (Some (XStr "w")) None [10; 11; 20; 21; 3; 5; 30; 31; 40; 41; 7; 9]%Z in
  hobj_ok h /\ [pr_p; pr_q] <> [] /\ all_in [pr_p; pr_q] (o_prof h) = true /\ Forall (fun p => axis_in p [pr_p; pr_q] = true) (o_prof h) /\ o_weight h <> None /\
  exists g, drop (view h) [pr_p; pr_q] = Ok g /\ hist_shape h = [2; 6] /\ hist_shape (p_head g) = [2; 2].
Proof.
  cbn zeta. split; [ok_tac|]. split; [discriminate|]. split; [reflexivity|]. split; [repeat constructor|]. split; [discriminate|]. eexists. split; [vm_compute; reflexivity|]. split; vm_compute; reflexivity.
Qed.
