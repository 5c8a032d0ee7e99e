(** Filling and projecting, against filling the smaller histogram with the same arrays. *)
From Coq Require Import String Permutation.
From Verif Require Import Base Num NumFacts Axis Calc Content Fill FillSpec FillProofs FillProofs2 FillProofs3 FillMain
  Tree Instr InstrSpec InstrProofs Elem HistFill HistSpec HistFillProofs HistFillMain HistFillMain2 HistFillMain3 HistFillMain4 Props_Hist
  HistAlg AlgSpec HistAlgProofs HistAlgMain Props_Alg Nd NdProofs Proj ProjSpec ProjProofs ProjMain ProjMain2 ProjFill.
Local Open Scope list_scope.

(** The histogram with only the axes among [axes]: same expressions, profiles and weight. *)
Definition smaller (h : hist) (axes : list axis) : hist := {|
  h_group := filter (fun p => axis_in (fst p) axes) (h_group h);
  h_fixed := filter (fun p => axis_in (fst p) axes) (h_fixed h);
  h_prof := h_prof h; h_weight := h_weight h |}.
Lemma smaller_exprs h axes t : In t (hist_exprs (smaller h axes)) -> In t (hist_exprs h).
Proof.
  unfold hist_exprs, smaller; cbn [h_group h_fixed h_prof h_weight]. rewrite !in_app_iff, !in_map_iff.
  intros [(p & <- & Hp)|[(p & <- & Hp)|H]]; [apply filter_In in Hp; left; exists p; tauto|apply filter_In in Hp; right; left; exists p; tauto|tauto].
Qed.
Lemma smaller_wf h axes : hist_wf h -> hist_wf (smaller h axes).
Proof.
  intros (H1 & H2 & H3). split; [|split].
  - intros p Hp. cbn in Hp. apply filter_In in Hp. apply H1; tauto.
  - intros p Hp. cbn in Hp. apply filter_In in Hp. apply H2; tauto.
  - intros t Ht. apply H3. eapply smaller_exprs; eauto.
Qed.
Lemma smaller_no_bcast h axes : no_bcast h -> no_bcast (smaller h axes).
Proof. intros H t c Ht. apply H. eapply smaller_exprs; eauto. Qed.
Lemma mapM_select {A B} (f : A -> res B) (p : A -> bool) l : forall ys, mapM f l = Ok ys -> mapM f (filter p l) = Ok (select (map p l) ys).
Proof.
  induction l as [|x l IH]; intros ys E.
  - cbn in E. inversion E. reflexivity.
  - cbn [mapM] in E. apply bind_ok in E. destruct E as (y & Ey & E). apply bind_ok in E. destruct E as (t & Et & E). inversion E; subst.
    cbn [filter map select]. destruct (p x); [|auto]. cbn [mapM]. rewrite Ey. cbn [bind]. rewrite (IH t Et). reflexivity.
Qed.

Section E2E.
  Variable cast : Num -> Z.
  Variable rnd : Qc -> Num.
  Variable user : string -> list arg -> res val.
  Definition kg (h : hist) (axes : list axis) : list bool := keep_of axes (map fst (h_group h)).
  Definition kf (h : hist) (axes : list axis) : list bool := keep_of axes (map fst (h_fixed h)).

  Lemma smaller_row h axes f r : row_of cast rnd user h f = Ok r ->
    row_of cast rnd user (smaller h axes) f = Ok (proj_row (kg h axes) (kf h axes) r).
  Proof.
    intros E. apply row_of_inv in E. destruct E as (E1 & E2 & E3 & E4 & E5). unfold row_of, smaller; cbn [h_group h_fixed h_prof h_weight].
    rewrite (mapM_select _ (fun p => axis_in (fst p) axes) _ _ E1). cbn [bind].
    rewrite (mapM_select _ (fun p => axis_in (fst p) axes) _ _ E2). cbn [bind]. rewrite E3. cbn [bind]. rewrite E4. cbn [bind].
    unfold proj_row, kg, kf, keep_of. rewrite !map_map. rewrite E5. reflexivity.
  Qed.
  Lemma smaller_rows h axes A len rows : rows_of cast rnd user h A len = Ok rows ->
    rows_of cast rnd user (smaller h axes) A len = Ok (map (proj_row (kg h axes) (kf h axes)) rows).
  Proof.
    unfold rows_of. generalize (seq 0 len). intros l. revert rows. induction l as [|i l IH]; intros rows E; cbn [mapM] in *.
    - inversion E. reflexivity.
    - apply bind_ok in E. destruct E as (r & Er & E). apply bind_ok in E. destruct E as (t & Et & E). inversion E; subst.
      rewrite (smaller_row h axes _ _ Er). cbn [bind]. rewrite (IH t Et). reflexivity.
  Qed.
  Lemma smaller_layout h axes : hist_layout (smaller h axes) = layout_keep (kf h axes) (hist_layout h).
  Proof.
    unfold hist_layout, layout_keep, smaller, kf, keep_of; cbn [h_fixed h_prof h_weight l_tots l_nprof l_weighted].
    rewrite map_filter_select, map_map. reflexivity.
  Qed.

  Lemma filled_projection order h srcs srcs' A len rows profs w f defs att axes :
    is_order order -> Permutation srcs (sources (hist_goals h)) -> Permutation srcs' (sources (hist_goals (smaller h axes))) ->
    hist_wf h -> no_bcast h -> args_ok h A len -> args_ok (smaller h axes) A len ->
    hist_ready cast rnd user h A len rows CNone -> layout_ok (hist_layout (smaller h axes)) ->
    o_layout (held h profs w f defs att CNone) = hist_layout h -> Forall (fun a => is_profile a = true) profs ->
    all_in axes (map fst (h_group h) ++ map fst (h_fixed h)) = true ->
    forallb (removed_keep (kg h axes) (kf h axes)) rows = true ->
    exists c c', hist_fill cast rnd user order srcs h A CNone = (c, None) /\
      hist_fill cast rnd user order srcs' (smaller h axes) A CNone = (c', None) /\
      (power_groups (kg h axes) c ->
       exists g, project (view (held h profs w f defs att c)) axes = Ok (view g) /\
         o_axes g = map fst (h_group (smaller h axes)) ++ map fst (h_fixed (smaller h axes)) ++ profs /\
         same_cells (hist_layout (smaller h axes)) (o_content g) c' /\
         (forallb (fun b : bool => b) (kg h axes) = true -> same_content (o_content g) c')).
  Proof.
    intros Ho Hp Hp' Hwf Hnb HA HA' HR HL' HLe Hpr Hax Hrem. assert (Hpre := ready_pre cast rnd user _ _ _ _ _ Hwf HR).
    destruct HR as (E & _). assert (Lg : length (kg h axes) = length (h_group h)) by (unfold kg, keep_of; rewrite !map_length; auto).
    assert (Lf : length (kf h axes) = length (l_tots (hist_layout h))) by (unfold kf, keep_of, hist_layout; cbn; rewrite !map_length; auto).
    destruct (fill_ok _ _ _ _ _ Hpre) as (c & Ec & Oc & _).
    assert (Fr : filter (removed_keep (kg h axes) (kf h axes)) rows = rows) by (apply filter_all; apply Forall_forall; rewrite forallb_forall in Hrem; auto).
    assert (Er := smaller_rows h axes A len rows E).
    assert (Tg : trues (kg h axes) = length (h_group (smaller h axes))) by (unfold kg, keep_of; rewrite map_map; apply trues_filter).
    rewrite smaller_layout in HL'. rewrite <- Lg in Hpre, Ec, Oc.
    pose proof (proj_pre (kg h axes) (kf h axes) (hist_layout h) (hist_mode h) rows CNone CNone Lf Hpre HL' (or_introl (conj eq_refl eq_refl))) as Hpre'.
    rewrite Fr in Hpre'. destruct (fill_ok _ _ _ _ _ Hpre') as (c' & Ec' & Oc' & _).
    exists c, c'. rewrite (fill_is_rows cast rnd user order h srcs Ho Hp Hwf Hnb A len rows CNone HA E), <- Lg.
    rewrite (fill_is_rows cast rnd user order (smaller h axes) srcs' Ho Hp' (smaller_wf h axes Hwf) (smaller_no_bcast h axes Hnb) A len _ CNone HA' Er).
    rewrite smaller_layout, <- Tg. change (hist_mode (smaller h axes)) with (hist_mode h). split; auto. split; auto. intros Hpow.
    destruct (projcontent_embed (kf h axes) (hist_layout h) Lf (kg h axes) c Oc Hpow) as (y & Ey & Py).
    set (H := held h profs w f defs att c). assert (HLH : o_layout H = hist_layout h) by exact HLe.
    assert (OkH : hobj_ok H).
    { destruct Hwf as (W1 & W2 & _). split; [|split; [|split]]; auto.
      - cbn. apply Forall_map. apply Forall_forall. auto.
      - cbn. apply Forall_map. apply Forall_forall. intros p Hpp. apply W2; auto.
      - right. rewrite HLH. cbn. rewrite map_length, <- Lg. auto. }
    exists (proj_head H axes y). split; [|split; [|]].
    - apply project_kept; auto. rewrite HLH. cbn. rewrite map_length, <- Lg. exact Oc. rewrite HLH. exact Ey.
    - unfold o_axes, smaller, H, held; cbn. rewrite !map_filter_select.
      rewrite <- !(map_filter_select (fun x => x) (fun x => axis_in x axes)) || idtac.
      assert (G : forall (l : list (axis * tree)), filter (fun x => axis_in x axes) (map fst l) = select (map (fun p => axis_in (fst p) axes) l) (map fst l)).
      { induction l as [|[a t] l IH]; auto. cbn [map filter fst select]. destruct (axis_in a axes); congruence. }
      rewrite !G. reflexivity.
    - destruct (project_fill (kg h axes) (kf h axes) (hist_layout h) (hist_mode h) rows CNone CNone c y Lf Hpre HL' (or_introl (conj eq_refl eq_refl)) Ec Py) as (y' & Ey' & SC & SS).
      rewrite Fr in Ey'. rewrite Ec' in Ey'. inversion Ey'; subst y'. cbn [o_content proj_head]. split; auto.
  Qed.
End E2E.
