(** Rebinning a histogram. *)
From Coq Require Import String Permutation.
From Verif Require Import Base Num NumFacts Axis AxisSpec AxisProofs AxisProofs2 AxisMain CompareProofs Calc Content Fill FillSpec FillProofs FillProofs2 FillProofs3 FillMain Tree Order Expr ExprFacts
  HistAlg AlgSpec HistAlgProofs HistAlgMain Nd NdProofs Proj ProjSpec ProjProofs ProjMain ProjMain2 ProjFill ProjLaws ProjDrop Remap Select SelSpec SelAxis SelAxis2 SelContent SelMain SelFill SelHist
  Rebin RebinSpec RebinAxis RebinAxis2 RebinContent.
Local Open Scope list_scope.

(** ** Finding the axis *)
Lemma find_axis_at p a : forall l q i0, nth_error l q = Some a -> p a = true -> (forall i b, i < q -> nth_error l i = Some b -> p b = false) ->
  find_axis p i0 l = Some (i0 + q, a).
Proof.
  induction l as [|x l IH]; intros [|q] i0 Ha Hp Hn; cbn in *; try discriminate.
  - inversion Ha; subst. rewrite Hp, Nat.add_0_r. reflexivity.
  - rewrite (Hn 0 x) by (auto; lia). rewrite (IH q); auto; [do 2 f_equal; lia|]. intros i b Hi Hb. apply (Hn (S i)); auto. lia.
Qed.
Lemma group_no_rebin a : is_group a = true -> has_rebin a = false.
Proof. destruct a; cbn; congruence. Qed.
Lemma numeric_self a : numeric_axis a -> axis_eqb a a = true /\ has_rebin a = true.
Proof.
  intros H. split; [|destruct a; cbn in H; try contradiction; reflexivity]. apply axis_eqb_refl. destruct a; try contradiction.
  - destruct (numeric_bin _ _ _ _ _ _ _ _ H) as (l & h & -> & -> & _). split; reflexivity.
  - exact I.
  - destruct (numeric_split _ _ _ _ _ _ H) as (_ & _ & Hn). cbn. apply Forall_forall. intros x Hx. specialize (Hn x Hx). destruct x; cbn; congruence.
Qed.
Lemma find_arg_names parse h arg q a : hobj_ok h -> numeric_axis a -> names_axis parse h arg q a ->
  find_arg parse has_rebin arg (o_group h ++ o_fixed h) = Some (length (o_group h) + q, a).
Proof.
  intros (HG & _) Hnum (Ha & Harg). destruct (numeric_self a Hnum) as (Es & Hr).
  assert (Hn : nth_error (o_group h ++ o_fixed h) (length (o_group h) + q) = Some a) by (rewrite nth_error_app2 by lia; rewrite <- Ha; f_equal; lia).
  assert (G : forall i b, i < length (o_group h) + q -> nth_error (o_group h ++ o_fixed h) i = Some b -> has_rebin b = true -> exists j, j < q /\ nth_error (o_fixed h) j = Some b).
  { intros i b Hi Hb Hrb. destruct (Nat.lt_ge_cases i (length (o_group h))) as [L|L].
    - rewrite nth_error_app1 in Hb by auto. apply nth_error_In in Hb. rewrite Forall_forall in HG. rewrite (group_no_rebin b (HG b Hb)) in Hrb. discriminate.
    - rewrite nth_error_app2 in Hb by auto. exists (i - length (o_group h)). split; [lia|auto]. }
  destruct arg as [b|e]; cbn [find_arg].
  - destruct Harg as (-> & Hf). apply (find_axis_at _ a _ _ 0); auto; [rewrite Hr, Es; auto|].
    intros i b Hi Hb. destruct (has_rebin b) eqn:Er; auto. cbn [andb]. destruct (axis_eqb a b) eqn:E; auto. apply axis_eqb_eq in E. subst b.
    destruct (G i a Hi Hb Er) as (j & Hj & Ej). exfalso. exact (Hf j Hj Ej).
  - destruct Harg as (He & Hf). rewrite (find_axis_at _ a _ (length (o_group h) + q) 0); auto.
    + apply (find_axis_at _ a _ _ 0); auto; [rewrite Hr, Es; auto|]. intros i b Hi Hb. destruct (has_rebin b) eqn:Er; auto. cbn [andb]. destruct (axis_eqb a b) eqn:E; auto. apply axis_eqb_eq in E. subst b.
      destruct (G i a Hi Hb Er) as (j & Hj & Ej). exfalso. exact (Hf j a Hj Ej Er He).
    + rewrite Hr, He, expr_same_refl. reflexivity.
    + intros i b Hi Hb. destruct (has_rebin b) eqn:Er; auto. cbn [andb]. destruct (expr_same e (parse (axis_expr b))) eqn:E; auto. apply expr_same_eq in E.
      destruct (G i b Hi Hb Er) as (j & Hj & Ej). exfalso. apply (Hf j b Hj Ej Er). auto.
Qed.

(** ** The new histogram *)
Lemma rebuild_rebin q a' h : hobj_ok h -> q < length (o_fixed h) -> is_fixed a' = true ->
  rebuild h (replace_nth (length (o_group h) + q) a' (o_group h ++ o_fixed h ++ o_prof h)) = with_axis q a' h CNone.
Proof.
  intros (HG & HF & HP & _) Hq Ha. rewrite replace_nth_at, at_axis_app2, at_axis_app by auto. unfold rebuild, with_axis.
  destruct (sort_axes (o_group h) (at_axis q (fun _ => a') (o_fixed h)) (o_prof h)) as (-> & -> & ->); auto. apply Forall_at_axis; auto.
Qed.
Definition rebinned (q : nat) (a' : axis) (rs : list (nat * nat)) (h : hobj) : hobj :=
  with_axis q a' h (cmap (merge_data q rs (totbins a') (o_layout h)) (o_content h)).
Lemma rebinned_layout q a' rs h : o_layout (rebinned q a' rs h) = layout_with q (totbins a') (o_layout h).
Proof. apply with_axis_layout. Qed.
Lemma rebinned_cells q a a' rs h : hobj_ok h -> nth_error (o_fixed h) q = Some a -> is_fixed a' = true ->
  (forall i k, i < totbins a' -> In k (part rs i) -> k < totbins a) ->
  hobj_ok (rebinned q a' rs h) /\ cells_merged q (part rs) h (rebinned q a' rs h).
Proof.
  intros Hok Ha Hf Hr. destruct (nth_tots _ _ _ Ha) as (Hn & Hq). destruct (Hok) as (HG & HF & HP & HC). pose proof (rebinned_layout q a' rs h) as LE.
  split; [|split].
  - split; [exact HG|split; [|split]]; [apply Forall_at_axis; auto|exact HP|]. rewrite LE. cbn [rebinned with_axis o_group o_content].
    destruct HC as [->|HC]; [left; reflexivity|right]. eapply cmap_ok; [|exact HC]. intros d _. apply merge_length; auto.
  - intros ks. unfold has_block. cbn [rebinned with_axis o_content]. rewrite block_cmap. destruct (block (o_content h) ks); cbn; split; congruence.
  - intros ks ss kd i Hs Hi Hk. unfold hcell, cell. rewrite LE in *. cbn [rebinned with_axis o_content]. rewrite block_cmap.
    destruct (block (o_content h) ks) as [d|]; cbn [option_map].
    + replace (column_of (layout_with q (totbins a') (o_layout h)) kd) with (column_of (o_layout h) kd) by (destruct kd; reflexivity).
      change (l_last (layout_with q (totbins a') (o_layout h))) with (l_last (o_layout h)).
      apply merge_cell; auto; [apply column_lt; auto|]. intros k Hk'. rewrite Hn. apply (Hr i); auto.
      apply (in_shape_nth _ _ _ _ Hs) in Hi. cbn [layout_with l_tots] in Hi. rewrite at_axis_nth in Hi by auto. exact Hi.
    + symmetry. apply nsum_zero. intros z Hz. apply in_map_iff in Hz. destruct Hz as (s & <- & _). reflexivity.
Qed.

(** Everything a successful rebin tells. *)
Lemma edges_in es edges : nonan es -> forallb (fun x => existsb (neqb x) es) edges = true <-> forall e, In e edges -> In e es.
Proof.
  intros Hn. rewrite forallb_forall. split; intros H e He.
  - specialize (H e He). apply existsb_exists in H. destruct H as (y & Hy & E). apply neqb_eq in E. subst; auto.
  - apply existsb_exists. exists e. split; [auto|]. apply neqb_refl. specialize (Hn e (H e He)). destruct e; cbn; congruence.
Qed.
Lemma numeric_disjoint a : numeric_axis a -> disjoint_keys (keys a).
Proof.
  intros H. destruct a; try contradiction.
  - destruct (numeric_bin _ _ _ _ _ _ _ _ H) as (l & h & -> & -> & Hn & Hl). apply bin_keys_disjoint; auto.
  - apply numeric_intbin in H. apply intbin_keys_disjoint; auto.
  - destruct (numeric_split _ _ _ _ _ _ H) as (H1 & H2 & H3). apply split_keys_disjoint; auto.
Qed.
Record rebinning (h : hobj) (q : nat) (a : axis) (edges : list Num) (a' : axis) (rs : list (nat * nat)) : Prop := {
  rb_edges : has_edges a a' edges;
  rb_fixed : is_fixed a' = true;
  rb_unions : unions_of (possible a) (keys a) (keys a') (part rs);
  rb_keys : length (keys a') = totbins a' /\ length (keys a) = totbins a;
  rb_all : has_underflow a = true -> has_overflow a = true -> flat_map (part rs) (seq 0 (totbins a')) = seq 0 (totbins a);
  rb_disjoint : disjoint_keys (keys a) /\ numeric_axis a';
  rb_fewer : totbins a' <= totbins a }.
Lemma rebin_ok parse h arg q a edges g' : hobj_ok h -> numeric_axis a -> names_axis parse h arg q a -> rebin parse (view h) arg edges = Ok g' ->
  exists a' rs, rebinning h q a edges a' rs /\ g' = view (rebinned q a' rs h) /\ hobj_ok (rebinned q a' rs h) /\ cells_merged q (part rs) h (rebinned q a' rs h) /\
    forall c, hist_ok (o_layout h) (length (o_group h)) c -> rebin parse (view (with_content h c)) arg edges = Ok (view (rebinned q a' rs (with_content h c))).
Proof.
  intros Hok Hnum Hname H. pose proof (find_arg_names _ _ _ _ _ Hok Hnum Hname) as Ef. destruct (numeric_split_like a Hnum) as (es & u & o & nf & cl & SL).
  pose proof SL as (Hs & Hn & Hne & Hts & Hedge & Hflags & Hkeys).
  assert (exists a', forallb (fun x => existsb (neqb x) es) edges = true /\ mk_split (axis_expr a) edges u o nf cl = Ok a') as (a' & Ei & Ea').
  { unfold rebin in H. cbn [view p_head p_content o_group o_fixed o_prof with_content] in H. rewrite Ef in H. unfold rebinsplit in H. rewrite Hts in H. cbn [bind] in H.
    destruct (forallb (fun x => existsb (neqb x) es) edges); [|discriminate]. destruct (mk_split (axis_expr a) edges u o nf cl) as [a'|]; [|discriminate]. eauto. }
  pose proof (proj1 (edges_in es edges Hn) Ei) as Hin.
  pose proof (mk_split_ok _ _ _ _ _ _ _ Ea') as (-> & Hed & Hdup). set (news := sort_num edges) in *.
  assert (Hnn : nonan edges) by (intros x Hx; apply Hn; auto). destruct (mk_split_edges _ _ _ _ _ _ _ Hnn Ea') as (Hs' & Hne' & Hn').
  assert (Hin' : forall e, In e news -> In e es) by (intros e He; apply Hin; apply sort_num_in; auto).
  destruct (positions_ex es news Hin') as (js & Hp). pose (rs := ranges (length es - 1) u o nf js). pose (a' := ASplit (axis_expr a) news u o nf cl).
  pose proof (rebin_ranges_ok es u o nf news js Hs Hn Hs' Hne' Hp) as Hrr. fold rs in Hrr.
  destruct (Hname) as (Ha & _). destruct (nth_tots _ _ _ Ha) as (Ht & Hq). assert (Hqf : q < length (o_fixed h)) by (apply nth_error_Some; congruence).
  assert (U : unions_of (possible a) (keys a) (keys a') (part rs)) by (apply (unions_like a es u o nf cl); auto; apply split_unions; auto).
  assert (Hja : js <> []) by (intros ->; inversion Hp; subst; congruence).
  assert (Kl : length (keys a) = totbins a) by (apply keys_length_totbins; destruct a; try contradiction; try reflexivity; try discriminate).
  assert (Kl' : length (keys a') = totbins a') by (apply keys_length_totbins; [reflexivity|discriminate]).
  assert (Kt : totbins a = length es - 1 + b2n u + b2n o + b2n nf).
  { rewrite <- Kl, (Forall2_length _ _ _ Hkeys). apply keys_split_length; auto. }
  assert (G : forall c, hist_ok (o_layout h) (length (o_group h)) c -> rebin parse (view (with_content h c)) arg edges = Ok (view (rebinned q a' rs (with_content h c)))).
  { intros c HC. unfold rebin. cbn [view p_head p_content o_group o_fixed o_prof with_content]. rewrite Ef. unfold rebinsplit. rewrite Hts. cbn [bind]. rewrite Ei, Ea'. cbn [bind].
    unfold view. rewrite rebinned_layout. change (o_layout (with_content h c)) with (o_layout h). cbn [p_content o_content with_content].
    destruct HC as [->|Hc].
    - cbn [embed bind fst snd]. fold a'. change (rebuild (with_content (with_content h CNone) CNone)) with (rebuild h). rewrite rebuild_rebin by auto. reflexivity.
    - pose proof (embed_content_not_none _ _ _ Hc) as En. replace (length (o_group h) + q - length (o_group h)) with q by lia.
      pose proof (rebin_content_embed q es news u o nf rs _ _ _ Hq Hrr Hc) as Er. cbv zeta in Er.
      destruct (embed (o_layout h) c) eqn:Ee; try congruence; rewrite Er; cbn [bind fst snd]; fold a';
        change (rebuild (with_content (with_content h c) CNone)) with (rebuild h); rewrite rebuild_rebin by auto; reflexivity. }
  assert (Eh : with_content h (o_content h) = h) by (destruct h; reflexivity).
  exists a', rs. destruct (rebinned_cells q a a' rs h) as (Hok' & Hm); auto.
  { intros i k Hi Hk. destruct (nth_error (keys a') i) as [k'|] eqn:E; [|apply nth_error_None in E; lia]. destruct (U i k' E) as (_ & U2 & _). rewrite <- Kl. auto. }
  split; [|split; [|split; [auto|split; [auto|exact G]]]].
  - constructor; auto.
    + exists news, u, o, nf, cl. split; [reflexivity|split; [intros e; apply sort_num_in|split; [apply sort_num_length|exact Hflags]]].
    + intros H1 H2. assert (u = true /\ o = true) as (-> & ->) by (clear - Hflags H1 H2; destruct a; try contradiction; cbn in *; intuition congruence).
      pose proof (split_all_parts es news js nf Hs Hs' Hne' Hp) as E. cbv zeta in E. fold rs in E. unfold rs in E at 2. rewrite ranges_length, (positions_length _ _ _ Hp) in E by auto.
      rewrite Kt. cbn [a' totbins b2n] in *. rewrite E. f_equal. lia.
    + split.
      * apply numeric_disjoint; auto.
      * cbn [numeric_axis a']. exists edges. auto.
    + rewrite Kt. cbn [a' totbins]. assert (length news <= length es); [|lia]. apply NoDup_incl_length; [apply sorted_nodup; auto|exact Hin'].
  - destruct (Hok) as (_ & _ & _ & HC). specialize (G _ HC). rewrite Eh in G. congruence.
Qed.
