(** Fractions of the entries that pass cuts. *)
From Coq Require Import String Permutation.
From Verif Require Import Base Num NumFacts Axis AxisSpec Calc Content Fill FillSpec FillProofs FillProofs2 FillProofs3 FillMain
  Tree Order Expr ExprFacts HistAlg AlgSpec HistAlgProofs HistAlgMain CompareProofs Nd NdProofs Proj ProjSpec ProjProofs ProjMain ProjMain2 ProjFill ProjLaws ProjDrop
  Remap Select SelSpec SelContent SelMain Props_Proj Table TableSpec TableProofs.
Local Open Scope list_scope.

(** ** Selecting a cut axis without dropping it *)
Lemma select_kept q a a' s h : hobj_ok h -> nth_error (o_fixed h) q = Some a -> is_fixed a' = true -> totbins a' = slice_len s (totbins a) ->
  select_axis (view h) (length (o_group h) + q) a' (CutSlice s) false = Ok (view (sliced q a' s h)).
Proof.
  intros Hok Ha Hf Ht. destruct (nth_tots _ _ _ Ha) as (Hn & Hq).
  assert (LE : o_layout (sliced q a' s h) = layout_with q (cut_len q s (o_layout h)) (o_layout h)) by (unfold sliced; rewrite with_axis_layout, Ht; unfold cut_len; rewrite Hn; reflexivity).
  unfold select_axis, view; cbn [p_head p_content o_group o_fixed o_prof with_content]. change (rebuild (with_content h CNone)) with (rebuild h).
  assert (ER : rebuild h (replace_nth (length (o_group h) + q) a' (o_group h ++ o_fixed h) ++ o_prof h) = with_axis q a' h CNone).
  { destruct (Hok) as (HG & HF & HP & _). rewrite replace_nth_at, at_axis_app2, <- app_assoc. unfold rebuild, with_axis.
    destruct (sort_axes (o_group h) (at_axis q (fun _ => a') (o_fixed h)) (o_prof h)) as (-> & -> & ->); auto. apply Forall_at_axis; auto. }
  rewrite ER, LE. cbn [sliced with_axis with_content o_content andb].
  destruct (Hok) as (_ & _ & _ & [Hc|Hc]); [rewrite Hc; reflexivity|].
  pose proof (embed_content_not_none _ _ _ Hc). pose proof (cutcontent_slice q s _ _ _ Hq Hc) as E.
  assert (Lf : length (o_fixed h) = length (l_tots (o_layout h))) by (unfold o_layout; cbn; rewrite map_length; auto). rewrite Lf.
  destruct (embed (o_layout h) (o_content h)); try congruence; rewrite E; reflexivity.
Qed.

(** ** Slots over *)
Lemma select_split {A} kp b kq (l1 : list A) x l2 : length kp = length l1 ->
  select (kp ++ b :: kq) (l1 ++ x :: l2) = select kp l1 ++ (if b then [x] else []) ++ select kq l2.
Proof.
  revert l1. induction kp as [|k kp IH]; intros [|y l1] H; cbn [length] in H; try lia.
  - cbn. destruct b; reflexivity.
  - cbn [app select]. rewrite IH by lia. destruct k; reflexivity.
Qed.
Lemma idx_eqb_app a b : forall c d, length a = length c -> idx_eqb (a ++ b) (c ++ d) = idx_eqb a c && idx_eqb b d.
Proof.
  induction a as [|x a IH]; intros [|y c] d H; cbn [length] in H; try lia; auto. cbn [app idx_eqb]. rewrite IH by lia. apply andb_assoc.
Qed.
Lemma slots_pass kp kq tp n tq s1 s2 v : length kp = length tp -> length s1 = length (select kp tp) ->
  slots_over (kp ++ true :: kq) (tp ++ n :: tq) (s1 ++ v :: s2) =
  filter (fun ss => Nat.eqb (nth (length kp) ss 0) v) (slots_over (kp ++ false :: kq) (tp ++ n :: tq) (s1 ++ s2)).
Proof.
  intros Hk Hs. unfold slots_over. rewrite filter_filter. apply filter_ext_in. intros i Hi. apply indices_in in Hi.
  apply Forall2_app_inv_r in Hi. destruct Hi as (i1 & i' & H1 & H2 & ->). inversion H2 as [|x ? i2 ? Hx H2']; subst.
  assert (L1 : length i1 = length tp) by (eapply Forall2_length; eauto).
  assert (LS : length (select kp i1) = length s1) by (rewrite Hs; apply (Forall2_length lt), select_lt; auto).
  rewrite !select_split by lia. rewrite !idx_eqb_app by (rewrite ?LS; auto). cbn [app idx_eqb].
  rewrite app_nth2 by lia. replace (length kp - length i1) with 0 by lia. cbn [nth].
  destruct (idx_eqb (select kp i1) s1), (Nat.eqb x v), (idx_eqb (select kq i2) s2); reflexivity.
Qed.
Lemma insert_mid {A} (s1 s2 : list A) v : insert_at (length s1) v (s1 ++ s2) = s1 ++ v :: s2.
Proof. induction s1; cbn; congruence. Qed.
Lemma remove_mid {A} (s1 s2 : list A) v : remove_at (length s1) (s1 ++ v :: s2) = s1 ++ s2.
Proof. induction s1; cbn; congruence. Qed.

(** ** The groups *)
Lemma frac_handle_embed F L L0 f0 sh G (lf : list (layout * (list Num -> list Num))) n c :
  (forall d, length d = l_size L -> F (f0 d) (map (fun p => PArr (l_shape (fst p)) (snd p d)) lf) = Ok (PArr sh (G d))) -> content_ok L n c ->
  frac_handle F (embed L0 (cmap f0 c)) (map (fun p => embed (fst p) (cmap (snd p) c)) lf) = Ok (tmap sh G c).
Proof.
  intros HF. revert c. induction n as [|n IH]; intros [|d|l] Hc; try contradiction.
  - cbn [cmap embed frac_handle tmap]. apply HF. exact Hc.
  - rewrite cmap_dict, embed_dict, tmap_dict. cbn [frac_handle]. destruct Hc as (Hc & Hn & Hk). rewrite map_map. cbn [fst snd].
    assert (E : forall m, incl m l -> frac_items (frac_handle F) (map (fun p => embed (fst p) (cmap (snd p) (CDict l))) lf)
        (map (fun kv => (fst kv, embed L0 (cmap f0 (snd kv)))) m) = Ok (map (fun kv => (fst kv, tmap sh G (snd kv))) m)).
    { induction m as [|[k x] m IHm]; intros Hi; auto. cbn [map frac_items fst snd].
      assert (Hx : In (k, x) l) by (apply Hi; left; auto).
      assert (Ek : mapM (frac_key k) (map (fun p => embed (fst p) (cmap (snd p) (CDict l))) lf) = Ok (map (fun p => embed (fst p) (cmap (snd p) x)) lf)).
      { clear - Hx Hn Hk. induction lf as [|p lf IHf]; auto. cbn [map mapM]. rewrite cmap_dict, embed_dict. cbn [frac_key].
        rewrite map_map. cbn [fst snd]. rewrite (assoc_map (fun x => embed (fst p) (cmap (snd p) x))), (assoc_of_in k x l); auto.
        - cbn [option_map bind]. rewrite IHf. reflexivity.
        - rewrite Forall_forall in Hk. apply Hk. apply (in_map fst) in Hx. exact Hx. }
      rewrite Ek. cbn [bind]. rewrite Forall_forall in Hc. rewrite IH by (apply (Hc _ Hx)). cbn [bind].
      fold (frac_items (frac_handle F) (map (fun p => embed (fst p) (cmap (snd p) (CDict l))) lf)). rewrite IHm by (intros y Hy; apply Hi; right; auto). reflexivity. }
    rewrite E by apply incl_refl. reflexivity.
Qed.

(** ** Axes that are not cuts *)
Definition axes_but (cuts all : list axis) : list axis := filter (fun x => negb (axis_in x cuts)) all.
Definition axes_but_one (c : axis) (cuts all : list axis) : list axis := filter (fun x => axis_eqb x c || negb (axis_in x cuts)) all.
Lemma axis_in_filter x f l : nan_free_axis x -> In x l -> axis_in x (filter f l) = f x.
Proof.
  intros Hx Hi. unfold axis_in. destruct (f x) eqn:E.
  - apply existsb_exists. exists x. split; [apply filter_In; auto|apply axis_eqb_refl; auto].
  - apply not_true_is_false. intros H. apply existsb_exists in H. destruct H as (y & Hy & Ey). apply axis_eqb_eq in Ey. subst y. apply filter_In in Hy. destruct Hy. congruence.
Qed.
Lemma all_in_self f l : Forall nan_free_axis l -> all_in (filter f l) l = true.
Proof.
  intros H. unfold all_in. apply forallb_forall. intros x Hx. apply filter_In in Hx. destruct Hx as (Hx & _). rewrite Forall_forall in H.
  unfold axis_in. apply existsb_exists. exists x. split; auto. apply axis_eqb_refl; auto.
Qed.
Lemma group_not_cut h cuts x : hobj_ok h -> Forall (fun c => is_cut c = true) cuts -> In x (o_group h) -> axis_in x cuts = false.
Proof.
  intros (HG & _) Hc Hx. apply not_true_is_false. intros H. apply existsb_exists in H. destruct H as (y & Hy & E). apply axis_eqb_eq in E. subst y.
  rewrite Forall_forall in HG, Hc. specialize (HG _ Hx). specialize (Hc _ Hy). destruct x; discriminate.
Qed.

(** ** The rows that pass one cut *)
Definition pass_slice : slc := Slice (Some 1%Z) (Some 2%Z).
Lemma select_length_mid {A B} kp (tp : list A) (xs : list B) : length kp = length tp -> length kp = length xs -> length (select kp tp) = length (select kp xs).
Proof. revert tp xs. induction kp as [|k kp IH]; intros [|t tp] [|x xs] H1 H2; cbn in *; try lia. destruct k; cbn; rewrite (IH tp xs); lia. Qed.
Section OneCut.
  Variables (L : layout) (kp kq : list bool) (tp tq : list nat).
  Hypothesis Ht : l_tots L = tp ++ 2 :: tq.
  Hypothesis Hp : length kp = length tp.
  Hypothesis Hq : length kq = length tq.
  Let L0 := layout_keep (kp ++ false :: kq) L.
  Let L1 := layout_keep (kp ++ true :: kq) L.
  Let q := length (select kp tp).
  Lemma cut_tots : l_tots L1 = select kp tp ++ 2 :: select kq tq /\ l_tots L0 = select kp tp ++ select kq tq.
  Proof. unfold L0, L1, layout_keep; cbn [l_tots]. rewrite Ht, !select_split by auto. auto. Qed.
  Lemma cut_layout : layout_without q L1 = L0.
  Proof.
    destruct cut_tots as (E1 & E0). unfold layout_without. rewrite E1. unfold q. rewrite remove_mid, <- E0. reflexivity.
  Qed.
  Lemma cut_q : q < length (l_tots L1) /\ nth q (l_tots L1) 0 = 2.
  Proof.
    destruct cut_tots as (E1 & _). rewrite E1. unfold q. rewrite app_length, app_nth2, Nat.sub_diag by lia. cbn. split; [lia|reflexivity].
  Qed.
  Lemma cut_one : cut_len q pass_slice L1 = 1.
  Proof. unfold cut_len. rewrite (proj2 cut_q). reflexivity. Qed.
  Definition pass_data (d : list Num) : list Num := cut_data q pass_slice L1 (proj_data (kp ++ true :: kq) L d).
  Lemma pass_length d : length (pass_data d) = l_size L0.
  Proof. unfold pass_data. rewrite cut_dropped_length; [rewrite cut_layout; reflexivity|apply cut_q|apply cut_one]. Qed.
  Lemma pass_cell d ss j : in_shape L0 ss -> j < l_last L ->
    nth (ravel (l_tots L0) ss * l_last L + j) (pass_data d) nzero =
    nsum (map (fun ss' => nth (ravel (l_tots L) ss' * l_last L + j) d nzero)
              (filter (fun ss' => Nat.eqb (nth (length kp) ss' 0) 1) (slots_over (kp ++ false :: kq) (l_tots L) ss))).
  Proof.
    intros Hs Hj. unfold pass_data. rewrite <- cut_layout in Hs |- *. change (l_last L) with (l_last L1) at 1.
    rewrite cut_dropped_cell; auto; [|apply cut_q|apply cut_one]. rewrite (proj2 cut_q). change (slice_lo pass_slice 2) with 1.
    rewrite cut_layout in Hs. unfold in_shape in Hs. rewrite (proj2 cut_tots) in Hs. apply Forall2_app_inv_r in Hs. destruct Hs as (s1 & s2 & H1 & H2 & ->).
    assert (E : length s1 = q) by (eapply Forall2_length; eauto). rewrite <- E, insert_mid. rewrite Ht, <- (slots_pass kp kq tp 2 tq s1 s2 1) by auto. rewrite <- Ht.
    change (l_last L1) with (l_last (layout_keep (kp ++ true :: kq) L)). apply proj_data_cell; auto.
    - rewrite Ht, !app_length. cbn. lia.
    - unfold in_shape. fold L1. rewrite (proj1 cut_tots). apply Forall2_app; auto.
  Qed.
End OneCut.

(** ** The columns *)
Definition computed (e : ferror) : Prop := e = FNone \/ e = FNormal \/ e = FWilson.
Section Columns.
  Variables (sqrt sigmas : Num -> Num) (err_name : string -> Num -> string) (parse : string -> expr).
  Definition part_columns (o : fopts) (L : layout) (d0 d1 : list Num) : list (list Num) :=
    let n r := nth (r * l_last L + l_sumw L) d0 nzero in
    let p r := ndiv (nth (r * l_last L + l_sumw L) d1 nzero) (n r) in
    let where_good (f : nat -> Num) := map (fun r => if nltb nzero (n r) then f r else nzero) (seq 0 (l_rows L)) in
    where_good p ::
    match f_error o with
    | FNormal => map (fun l => where_good (fun r => normal_err sqrt sigmas l (p r) (n r))) (f_levels o)
    | FWilson => map (fun l => where_good (fun r => wilson_err sqrt sigmas l (p r) (n r))) (f_levels o)
    | _ => []
    end.
  Definition all_columns (o : fopts) (L : layout) (d0 : list Num) (ds : list (list Num)) : list (list Num) :=
    (if f_count o then [map (fun r => nth (r * l_last L + l_sumw L) d0 nzero) (seq 0 (l_rows L))] else []) ++ flat_map (part_columns o L d0) ds.
  Lemma part_columns_ok o L d0 d1 sh : computed (f_error o) -> length d1 = l_size L ->
    frac_columns sqrt sigmas o (l_rows L) (fun r => nth (r * l_last L + l_sumw L) d0 nzero) (l_last L) (l_sumw L) (PArr sh d1) = Ok (part_columns o L d0 d1).
  Proof.
    intros He Hd. unfold frac_columns, part_columns. rewrite (rows_of L d1 Hd).
    replace (Nat.eqb (l_rows L * l_last L) (length d1)) with true by (symmetry; apply Nat.eqb_eq; rewrite Hd; reflexivity). rewrite Nat.eqb_refl. cbn [negb].
    destruct He as [->|[->| ->]]; reflexivity.
  Qed.
  Lemma columns_names o L d0 ds cuts : computed (f_error o) -> length ds = length cuts -> length (fraction_columns err_name o cuts) = length (all_columns o L d0 ds).
  Proof.
    intros He Hl. unfold fraction_columns, all_columns. rewrite !app_length. f_equal; [destruct (f_count o); reflexivity|].
    revert cuts Hl. induction ds as [|d ds IH]; intros [|c cuts] Hl; try discriminate; auto. cbn [flat_map]. rewrite !app_length. injection Hl as Hl. rewrite (IH cuts Hl). f_equal.
    unfold part_columns. destruct He as [->|[->| ->]]; cbn; rewrite ?map_length; reflexivity.
  Qed.
  Lemma frac_array_ok o cuts (D : hobj) (Cs : list hobj) d0 (ds : list (list Num)) (ccs : list pv) : computed (f_error o) -> length ds = length cuts ->
    length d0 = l_size (o_layout D) ->
    Forall2 (fun C dp => l_last (o_layout C) = l_last (o_layout D) /\ l_sumw (o_layout C) = l_sumw (o_layout D) /\ length (fst dp) = l_size (o_layout D) /\ exists sh, snd dp = PArr sh (fst dp)) Cs (combine ds ccs) ->
    length ccs = length ds ->
    (f_recarray o = true -> fraction_columns err_name o cuts <> [] /\ has_dup (fraction_columns err_name o cuts) = false) ->
    frac_array sqrt sigmas o (fraction_columns err_name o cuts) D Cs d0 ccs =
    Ok (PArr (l_tots (o_layout D) ++ [length (fraction_columns err_name o cuts)])
             (fill_cols (l_rows (o_layout D)) (length (fraction_columns err_name o cuts)) (all_columns o (o_layout D) d0 ds))).
  Proof.
    intros He Hl Hd HC Hcc Hr. unfold frac_array. rewrite (rows_of (o_layout D) d0 Hd).
    replace (Nat.eqb (l_rows (o_layout D) * l_last (o_layout D)) (length d0)) with true by (symmetry; apply Nat.eqb_eq; rewrite Hd; reflexivity). cbn [negb].
    assert (E : mapM (fun hc => frac_columns sqrt sigmas o (l_rows (o_layout D)) (fun r => nth (r * l_last (o_layout D) + l_sumw (o_layout D)) d0 nzero)
        (l_last (o_layout (fst hc))) (l_sumw (o_layout (fst hc))) (snd hc)) (combine Cs ccs) = Ok (map (part_columns o (o_layout D) d0) ds)).
    { clear Hl Hr. revert Cs ccs Hcc HC. induction ds as [|d ds IH]; intros Cs [|cc ccs] Hcc HC; try discriminate; inversion HC as [|C ? Cs' ? (H1 & H2 & H3 & sh & H4) HC']; subst; auto.
      cbn [combine mapM map fst snd] in *. rewrite H1, H2, H4, part_columns_ok by auto. cbn [bind]. rewrite IH; auto. }
    rewrite E. cbn [bind]. rewrite <- flat_map_concat_map.
    pose proof (columns_names o (o_layout D) d0 ds cuts He Hl) as Hn. rewrite Hn.
    apply (finish_ok (f_recarray o) (l_tots (o_layout D)) (fraction_columns err_name o cuts) (all_columns o (o_layout D) d0 ds) Hn Hr).
  Qed.
  Lemma all_columns_row o L d0 ds r : computed (f_error o) -> r < l_rows L ->
    map (fun c => nth r c nzero) (all_columns o L d0 ds) =
    (if f_count o then [nth (r * l_last L + l_sumw L) d0 nzero] else []) ++
    flat_map (fun d1 => fraction_cells sqrt sigmas (f_error o) (f_levels o) (nth (r * l_last L + l_sumw L) d0 nzero) (nth (r * l_last L + l_sumw L) d1 nzero)) ds.
  Proof.
    intros He Hr. unfold all_columns. rewrite map_app. f_equal.
    - destruct (f_count o); auto. cbn [map]. rewrite nth_rows by auto. reflexivity.
    - induction ds as [|d ds IH]; auto. cbn [flat_map]. rewrite map_app, IH. f_equal. unfold part_columns, fraction_cells. cbn [map]. rewrite nth_rows by auto. f_equal.
      destruct He as [->|[->| ->]]; auto; rewrite map_map; apply map_ext; intros l; rewrite nth_rows by auto; reflexivity.
  Qed.
End Columns.

(** ** The histograms *)
Lemma firstn_app_all {A} (l m : list A) : firstn (length l) (l ++ m) = l.
Proof. induction l; cbn; congruence. Qed.
Lemma skipn_mid {A} (l m : list A) x : skipn (S (length l)) (l ++ x :: m) = m.
Proof. induction l; cbn in *; auto. Qed.
Section Hists.
  Variables (sqrt sigmas : Num -> Num) (err_name : string -> Num -> string) (parse : string -> expr).
  Variable w : hobj.
  Hypothesis Hok : hobj_ok w.
  Hypothesis Hnan : Forall nan_free_axis (o_group w ++ o_fixed w).
  Variable cuts : list axis.
  Hypothesis Hcuts : Forall (fun c => is_cut c = true) cuts.
  Let all := o_group w ++ o_fixed w.
  Let K0 (x : axis) : bool := negb (axis_in x cuts).
  Lemma fixed_nan_free x : In x (o_fixed w) -> nan_free_axis x.
  Proof. intros H. rewrite Forall_forall in Hnan. apply Hnan, in_or_app. auto. Qed.
  Lemma keep_filter f : keep_of (filter f all) (o_fixed w) = map f (o_fixed w).
  Proof. unfold keep_of. apply map_ext_in. intros x Hx. apply axis_in_filter; [apply fixed_nan_free; auto|apply in_or_app; auto]. Qed.
  Lemma keeps_filter f : (forall x, K0 x = true -> f x = true) -> keeps_groups w (filter f all).
  Proof.
    intros Hf. unfold keeps_groups. apply forallb_forall. intros x Hx. rewrite axis_in_filter.
    - apply Hf. unfold K0. rewrite (group_not_cut w cuts x); auto.
    - rewrite Forall_forall in Hnan. apply Hnan, in_or_app. auto.
    - apply in_or_app. auto.
  Qed.
  Definition denominator : hobj := proj_hist w (axes_but cuts all).
  Lemma denominator_ok : project (view w) (axes_but cuts all) = Ok (view denominator) /\ hobj_ok denominator /\
    o_layout denominator = layout_keep (other_axes cuts w) (o_layout w).
  Proof.
    assert (Hg : keeps_groups w (axes_but cuts all)) by (apply keeps_filter; auto).
    split; [|split].
    - apply project_hist; auto. apply all_in_self; auto.
    - apply proj_hist_ok; auto.
    - unfold denominator. rewrite proj_hist_layout. f_equal. apply keep_filter.
  Qed.
  (** The parts of the fixed axes around a cut *)
  Lemma cut_parts c q : cut_number parse w c q -> In c cuts -> exists pre post, o_fixed w = pre ++ c :: post /\ length pre = q /\
    other_axes cuts w = map K0 pre ++ false :: map K0 post /\
    keep_of (axes_but_one c cuts all) (o_fixed w) = map K0 pre ++ true :: map K0 post /\
    find_cut parse c (filter (fun x => axis_in x (axes_but_one c cuts all)) (o_fixed w)) = Some (length (select (map K0 pre) (map totbins pre))).
  Proof.
    intros (Hc & Hn & Hu) Hi. destruct (nth_error_split _ _ Hn) as (pre & post & E & Hl). exists pre, post. do 2 (split; auto).
    assert (Hr : axis_eqb c c = true) by (apply axis_eqb_refl; destruct c; try discriminate; exact I).
    assert (Hin : axis_in c cuts = true) by (apply existsb_exists; exists c; auto).
    assert (Hne : forall i a, nth_error (o_fixed w) i = Some a -> i <> q -> axis_eqb a c || negb (axis_in a cuts) = K0 a).
    { intros i a Ha Hne. unfold K0. destruct (axis_eqb a c) eqn:Ea; auto. apply axis_eqb_eq in Ea. subst a. exfalso. apply Hne, (Hu i c); auto. }
    assert (Hpre : forall a, In a pre -> axis_eqb a c || negb (axis_in a cuts) = K0 a).
    { intros a Ha. apply In_nth_error in Ha. destruct Ha as (i & Ha). assert (i < length pre) by (apply nth_error_Some; congruence).
      apply (Hne i); [rewrite E, nth_error_app1 by auto; auto|lia]. }
    assert (Hpost : forall a, In a post -> axis_eqb a c || negb (axis_in a cuts) = K0 a).
    { intros a Ha. apply In_nth_error in Ha. destruct Ha as (i & Ha).
      apply (Hne (S (q + i))); [rewrite E, nth_error_app2 by lia; replace (S (q + i) - length pre) with (S i) by lia; auto|lia]. }
    split; [|split].
    - unfold other_axes. rewrite E, map_app. cbn [map]. rewrite Hin. reflexivity.
    - unfold axes_but_one. rewrite keep_filter, E, map_app. cbn [map]. rewrite Hr. cbn [orb]. f_equal; [|f_equal]; apply map_ext_in; auto.
    - rewrite (filter_ext_in (fun x => axis_in x (axes_but_one c cuts all)) (fun x => axis_eqb x c || negb (axis_in x cuts))).
      2:{ intros x Hx. apply axis_in_filter; [apply fixed_nan_free; auto|apply in_or_app; auto]. }
      rewrite E, filter_app. cbn [filter]. rewrite Hr. cbn [orb]. rewrite (filter_ext_in _ K0 pre Hpre).
      assert (Hp : forall a, In a pre -> is_cut a && expr_same (parse (axis_expr c)) (parse (axis_expr a)) = false).
      { intros a Ha. apply not_true_is_false. intros T. apply andb_prop in T. destruct T as (T1 & T2). apply expr_same_eq in T2.
        apply In_nth_error in Ha. destruct Ha as (i & Ha). assert (i < length pre) by (apply nth_error_Some; congruence).
        assert (i = q); [|lia]. apply (Hu i a); auto. rewrite E, nth_error_app1 by auto. auto. }
      clear - Hp Hc. induction pre as [|a pre IH]; cbn [filter app map select].
      + cbn [find_cut]. rewrite Hc, expr_same_refl. reflexivity.
      + assert (IH' := IH ltac:(intros; apply Hp; right; auto)). destruct (K0 a) eqn:Ka; auto. cbn [app find_cut length]. rewrite Hp by (left; auto). rewrite IH'. reflexivity.
  Qed.
  Definition part (q : nat) : list Num -> list Num :=
    pass_data (o_layout w) (map K0 (firstn q (o_fixed w))) (map K0 (skipn (S q) (o_fixed w))) (firstn q (l_tots (o_layout w))).
  Lemma cut_hist_ok c q : cut_number parse w c q -> In c cuts -> exists C,
    cut_hist parse (view w) all cuts c = Ok (view C) /\ o_content C = cmap (part q) (o_content w) /\
    l_last (o_layout C) = l_last (o_layout w) /\ l_sumw (o_layout C) = l_sumw (o_layout w) /\
    (forall d, length (part q d) = l_size (o_layout denominator)) /\
    forall d ss, in_shape (o_layout denominator) ss ->
      nth (ravel (l_tots (o_layout denominator)) ss * l_last (o_layout w) + l_sumw (o_layout w)) (part q d) nzero =
      nsum (map (fun ss' => nth (ravel (l_tots (o_layout w)) ss' * l_last (o_layout w) + l_sumw (o_layout w)) d nzero)
                (filter (fun ss' => Nat.eqb (nth q ss' 0) 1) (bins_over w cuts ss))).
  Proof.
    intros Hn Hi. destruct (cut_parts c q Hn Hi) as (pre & post & E & Hl & H0 & H1 & Hf). destruct denominator_ok as (_ & _ & EL).
    set (kp := map K0 pre) in *. set (kq := map K0 post) in *. set (tp := map totbins pre) in *. set (tq := map totbins post).
    assert (Hc : totbins c = 2) by (destruct Hn as (Hc & _); destruct c; try discriminate; reflexivity).
    assert (Et : l_tots (o_layout w) = tp ++ 2 :: tq) by (unfold o_layout; cbn [l_tots]; rewrite E, map_app; cbn [map]; rewrite Hc; reflexivity).
    assert (Lp : length kp = length tp) by (unfold kp, tp; rewrite !map_length; auto).
    assert (Lq : length kq = length tq) by (unfold kq, tq; rewrite !map_length; auto).
    assert (EP : part q = pass_data (o_layout w) kp kq tp).
    { unfold part. rewrite Et, E. replace q with (length tp) by (unfold tp; rewrite map_length; auto). rewrite (firstn_app_all tp). 
      replace (length tp) with (length pre) by (unfold tp; rewrite map_length; auto). rewrite firstn_app_all, skipn_mid. reflexivity. }
    set (P := proj_hist w (axes_but_one c cuts all)). set (q' := length (select kp tp)).
    assert (EF : o_fixed P = filter (fun x => axis_in x (axes_but_one c cuts all)) (o_fixed w)) by reflexivity.
    assert (LP : o_layout P = layout_keep (kp ++ true :: kq) (o_layout w)) by (unfold P; rewrite proj_hist_layout, H1; reflexivity).
    assert (Hg : keeps_groups w (axes_but_one c cuts all)).
    { apply keeps_filter. intros x Hx. unfold K0 in Hx. rewrite Hx. apply orb_true_r. }
    assert (HP : hobj_ok P) by (apply proj_hist_ok; auto).
    assert (Nq : exists a, nth_error (o_fixed P) q' = Some a /\ totbins a = 2).
    { pose proof (cut_q (o_layout w) kp kq tp tq Et Lp Lq) as (B1 & B2). rewrite <- LP in B1, B2. unfold o_layout in B1, B2; cbn [l_tots] in B1, B2.
      rewrite map_length in B1. destruct (nth_error (o_fixed P) q') as [a|] eqn:En; [|apply nth_error_None in En; unfold q' in En; lia].
      exists a. split; auto. apply (f_equal (option_map totbins)) in En. rewrite <- nth_error_map in En. apply (nth_error_nth _ _ 0) in En. fold q' in B2. congruence. }
    destruct Nq as (a & Na & Ta).
    exists (sliced q' ANull pass_slice P). split; [|split; [|split; [|split; [|split]]]].
    - unfold cut_hist. fold (axes_but_one c cuts all). rewrite project_hist; auto; [|apply all_in_self; auto]. cbn [bind]. fold P.
      change (p_head (view P)) with (with_content P CNone). cbn [o_fixed o_group with_content]. rewrite EF, Hf. fold q'.
      apply (select_kept q' a); auto. rewrite Ta. reflexivity.
    - cbn [sliced with_axis o_content]. unfold P at 2. cbn [proj_hist proj_head o_content]. rewrite cmap_cmap, LP, EP, H1. reflexivity.
    - reflexivity.
    - reflexivity.
    - intros d. rewrite EP, (pass_length (o_layout w) kp kq tp tq) by auto. rewrite EL, H0. reflexivity.
    - intros d ss Hs. rewrite EL, H0 in *. rewrite EP. rewrite (pass_cell (o_layout w) kp kq tp tq); auto.
      + unfold bins_over. rewrite H0. replace (length kp) with q by (unfold kp; rewrite map_length; auto). reflexivity.
      + unfold l_last, l_sumw. destruct (l_weighted (o_layout w)); lia.
  Qed.
End Hists.

(** ** The whole computation *)
Lemma drop_started h dropped g : o_content h <> CNone -> drop (view h) dropped = Ok g -> p_content g <> PNone.
Proof.
  unfold drop. destruct dropped as [|p dr]; [discriminate|]. destruct (negb _); [discriminate|].
  change (p_content (view h)) with (embed (o_layout h) (o_content h)). destruct (o_content h) as [|d|l]; [congruence| |]; intros _.
  - cbn [embed dropcontent]. destruct (_ && _); [|discriminate]. cbn zeta. cbn [bind]. intros E. inversion E. discriminate.
  - rewrite embed_dict. cbn [dropcontent]. destruct (proj_items _ _); cbn [rmap bind]; [|discriminate]. intros E. inversion E. discriminate.
Qed.
Lemma cut_number_in h parse c q : cut_number parse h c q -> axis_in c (o_fixed h) && is_cut c = true.
Proof.
  intros (Hc & Hn & _). rewrite Hc, andb_true_r. apply existsb_exists. exists c. split; [eapply nth_error_In; eauto|]. apply axis_eqb_refl. destruct c; try discriminate; exact I.
Qed.
Lemma nsum_ext_cells (f g : list nat -> Num) l : (forall x, In x l -> f x = g x) -> nsum (map f l) = nsum (map g l).
Proof. intros H. f_equal. apply map_ext_in. auto. Qed.

Section Whole.
  Variables (sqrt sigmas : Num -> Num) (err_name : string -> Num -> string) (parse : string -> expr).
  Lemma fraction_ok_shape h o cuts qs : hobj_ok h -> Forall nan_free_axis (o_group h ++ o_fixed h) -> o_prof h <> [] -> (o_filter h = None \/ o_weight h <> None) ->
    Forall2 (cut_number parse h) cuts qs -> computed (f_error o) ->
    (f_recarray o = true -> fraction_columns err_name o cuts <> [] /\ has_dup (fraction_columns err_name o cuts) = false) ->
    exists T, fraction sqrt sigmas err_name parse (view h) o cuts = Ok (T, fraction_columns err_name o cuts) /\
      (exists g, T = tmap (select (other_axes cuts h) (l_tots (o_layout h)) ++ [length (fraction_columns err_name o cuts)]) g (started h) /\
         forall d, length (g d) = prodn (select (other_axes cuts h) (l_tots (o_layout h))) * length (fraction_columns err_name o cuts)) /\
      one_row_per_bin h T (select (other_axes cuts h) (l_tots (o_layout h))) (length (fraction_columns err_name o cuts)) /\
      forall ks ss, has_group h ks -> in_shape (layout_keep (other_axes cuts h) (o_layout h)) ss ->
        bin_row T ks ss = Some (fraction_row sqrt sigmas h cuts qs o ks ss).
  Proof.
    intros Hok Hnan Hp Hw Hc He Hr. set (h1 := with_content h (started h)).
    assert (Hok1 : hobj_ok h1).
    { destruct (Hok) as (HG & HF & HP & _). split; [|split; [|split]]; auto. right. apply (started_ok h Hok). }
    assert (Hne : o_content h1 <> CNone).
    { cbn [h1 with_content o_content]. pose proof (started_ok h Hok) as S1. destruct (started h); try discriminate. destruct (length (o_group h)); contradiction. }
    destruct (Hok) as (_ & _ & HP & _).
    assert (Hself : forall p, In p (o_prof h) -> axis_in p (o_prof h) = true).
    { intros p Hi. apply existsb_exists. exists p. split; auto. apply axis_eqb_refl. rewrite Forall_forall in HP. specialize (HP p Hi). destruct p; try discriminate; exact I. }
    destruct (drop_all_shape h1 (o_prof h)) as (c & Ed & (fdrop & Efdrop) & Hokw & Hbw & Hcw); auto.
    { apply forallb_forall. auto. } { apply Forall_forall. auto. }
    cbn zeta in *. set (w := without_profiles h1 c) in *.
    assert (Hcc : content_ok (o_layout w) (length (o_group w)) c).
    { destruct Hokw as (_ & _ & _ & [X|X]); auto. exfalso. apply (drop_started _ _ _ Hne Ed). cbn [view p_content]. rewrite X. reflexivity. }
    assert (Lt : l_tots (o_layout w) = l_tots (o_layout h)) by reflexivity.
    assert (Hcell : forall ks ss, in_shape (o_layout h) ss -> hcell w ks ss SumW = hcell h ks ss SumW).
    { intros ks ss Hs. rewrite Hcw by (auto; exact I). unfold hcell. change (o_layout h1) with (o_layout h). change (o_content h1) with (started h). apply started_cell. }
    assert (Hblock : forall ks, block c ks <> None <-> has_group h ks).
    { intros ks. rewrite <- started_group by auto. apply Hbw. }
    assert (Hcw' : Forall2 (cut_number parse w) cuts qs) by exact Hc.
    assert (Hcuts : Forall (fun c => is_cut c = true) cuts).
    { clear - Hc. induction Hc as [|x q cs qs (X & _) H IH]; constructor; auto. }
    destruct (denominator_ok w Hokw Hnan cuts Hcuts) as (Pd & Okd & Ld). set (D := denominator w cuts) in *.
    assert (HC : forall cs qs', Forall2 (cut_number parse w) cs qs' -> incl cs cuts -> exists Cs,
      mapM (cut_hist parse (view w) (o_group w ++ o_fixed w) cuts) cs = Ok (map view Cs) /\
      Forall2 (fun C q => o_content C = cmap (part w cuts q) c /\ l_last (o_layout C) = l_last (o_layout w) /\ l_sumw (o_layout C) = l_sumw (o_layout w)) Cs qs').
    { intros cs qs' H. induction H as [|x q cs qs' H1 H IH]; intros Hi.
      - exists []. split; auto.
      - destruct IH as (Cs & E & F); [intros y Hy; apply Hi; right; auto|].
        destruct (cut_hist_ok parse w Hokw Hnan cuts Hcuts x q H1) as (C & E1 & E2 & E3 & E4 & _); [apply Hi; left; auto|].
        exists (C :: Cs). cbn [mapM map]. rewrite E1. cbn [bind]. rewrite E. split; auto. }
    destruct (HC cuts qs Hcw' (incl_refl _)) as (Cs & EC & FC). clear HC.
    assert (HQ : forall cs qs', Forall2 (cut_number parse w) cs qs' -> incl cs cuts -> Forall (fun q => (forall d, length (part w cuts q d) = l_size (o_layout D)) /\
      forall d ss, in_shape (o_layout D) ss ->
      nth (ravel (l_tots (o_layout D)) ss * l_last (o_layout w) + l_sumw (o_layout w)) (part w cuts q d) nzero =
      nsum (map (fun ss' => nth (ravel (l_tots (o_layout w)) ss' * l_last (o_layout w) + l_sumw (o_layout w)) d nzero)
                (filter (fun ss' => Nat.eqb (nth q ss' 0) 1) (bins_over w cuts ss)))) qs').
    { intros cs qs' H. induction H as [|x q cs qs' H1 H IH]; intros Hi; constructor.
      - destruct (cut_hist_ok parse w Hokw Hnan cuts Hcuts x q H1) as (C & _ & _ & _ & _ & E5 & E6); [apply Hi; left; auto|]. split; auto.
      - apply IH. intros y Hy; apply Hi; right; auto. }
    specialize (HQ cuts qs Hcw' (incl_refl _)).
    set (names := fraction_columns err_name o cuts). set (f0 := proj_data (other_axes cuts w) (o_layout w)).
    set (G := fun d => fill_cols (l_rows (o_layout D)) (length names) (all_columns sqrt sigmas o (o_layout D) (f0 d) (map (fun q => part w cuts q d) qs))).
    assert (ED : o_content D = cmap f0 c).
    { unfold D, denominator, proj_hist. cbn [proj_head o_content]. unfold axes_but. rewrite (keep_filter w Hnan). reflexivity. }
    assert (Hlast : l_last (o_layout D) = l_last (o_layout w)) by (rewrite Ld; reflexivity).
    assert (Hsumw : l_sumw (o_layout D) = l_sumw (o_layout w)) by (rewrite Ld; reflexivity).
    assert (Hkeep : length (other_axes cuts w) = length (l_tots (o_layout w))) by (unfold other_axes, o_layout; cbn [l_tots]; rewrite !map_length; auto).
    assert (Hf0 : forall d, length (f0 d) = l_size (o_layout D)) by (intros d; unfold f0; rewrite proj_data_length, Ld; auto).
    exists (tmap (l_tots (o_layout D) ++ [length names]) G c). split; [|split; [|split]].
    2:{ exists (fun d => G (fdrop d)). rewrite Efdrop, tmap_cmap. change (o_content h1) with (started h). rewrite Ld. split; [reflexivity|].
        intros d. unfold G. rewrite fill_cols_length. change (l_rows (o_layout D)) with (prodn (l_tots (o_layout D))). rewrite Ld. reflexivity. }
    - unfold fraction. cbn zeta. change (p_head (view h)) with (with_content h CNone). cbn [o_fixed o_group o_prof with_content].
      replace (forallb _ cuts) with true.
      2:{ symmetry. apply forallb_forall. intros x Hx. assert (In x cuts) by auto. clear - Hc Hx. induction Hc as [|y q cs qs' H1 H IH]; [contradiction|]. destruct Hx as [->|Hx]; auto. eapply cut_number_in; eauto. }
      cbn [negb]. rewrite pprefill_view. change (PH (with_content h CNone) (embed (o_layout h) (started h))) with (view h1). rewrite Ed. cbn [bind].
      change (o_group h ++ o_fixed h) with (o_group w ++ o_fixed w) in *. fold (axes_but cuts (o_group w ++ o_fixed w)). rewrite Pd. cbn [bind]. rewrite EC. cbn [bind].
      change (p_content (view D)) with (embed (o_layout D) (o_content D)). rewrite ED. rewrite !map_map. cbn [p_content p_head view].
      fold names. set (Hs := map (fun x => with_content x CNone) Cs).
      assert (EM : map (fun x => embed (o_layout x) (o_content x)) Cs = map (fun p => embed (fst p) (cmap (snd p) c)) (combine (map o_layout Cs) (map (part w cuts) qs))).
      { clear - FC. induction FC as [|C q Cs qs (E1 & _) H IH]; auto. cbn [map combine fst snd]. rewrite IH, E1. reflexivity. }
      rewrite EM. erewrite (frac_handle_embed _ (o_layout w) (o_layout D) f0 (l_tots (o_layout D) ++ [length names]) G _ (length (o_group w))); [reflexivity| |exact Hcc].
      intros d Hd. unfold G.
      assert (EA : frac_array sqrt sigmas o names D Hs (f0 d) (map (fun p => PArr (l_shape (fst p)) (snd p d)) (combine (map o_layout Cs) (map (part w cuts) qs))) =
        Ok (PArr (l_tots (o_layout D) ++ [length names]) (fill_cols (l_rows (o_layout D)) (length names) (all_columns sqrt sigmas o (o_layout D) (f0 d) (map (fun q => part w cuts q d) qs))))).
      { apply frac_array_ok; auto.
        - rewrite map_length. symmetry. eapply Forall2_length; eauto.
        - unfold Hs. clear - FC HQ Hlast Hsumw. induction FC as [|C q Cs qs (E1 & E2 & E3) H IH]; cbn [map combine fst snd]; constructor; inversion HQ; subst; auto.
          cbn [fst snd]. change (o_layout (with_content C CNone)) with (o_layout C). rewrite Hlast, Hsumw. repeat split; auto. apply H2. eexists; reflexivity.
        - rewrite !map_length, combine_length, !map_length. assert (length Cs = length qs) by (eapply Forall2_length; eauto). lia. }
      exact EA.
    - replace (select (other_axes cuts h) (l_tots (o_layout h))) with (l_tots (o_layout D)) by (rewrite Ld; reflexivity).
      intros ks. rewrite table_block_tmap. fold names. split; intros H.
      + apply Hblock in H. destruct (block c ks) as [d|]; [|congruence]. eexists. reflexivity.
      + destruct (block c ks) as [d|] eqn:E; auto. exfalso. apply H. apply Hblock. congruence.
    - intros ks ss H Hs. assert (Hs' : in_shape (o_layout D) ss) by (rewrite Ld; exact Hs).
      unfold bin_row. rewrite table_block_tmap. apply Hblock in H. destruct (block c ks) as [d|] eqn:E; [|congruence].
      cbn [option_map]. rewrite last_last. f_equal. unfold G.
      assert (Hn : length names = length (all_columns sqrt sigmas o (o_layout D) (f0 d) (map (fun q => part w cuts q d) qs))).
      { apply columns_names; auto. rewrite map_length. symmetry. eapply Forall2_length; eauto. }
      rewrite Hn. change (l_rows (o_layout D)) with (prodn (l_tots (o_layout D))). rewrite cols_row by exact Hs'. rewrite all_columns_row by (auto; apply (ravel_lt _ _ Hs')).
      assert (HS : forall l, incl l (bins_over h cuts ss) -> nsum (map (fun ss' => nth (ravel (l_tots (o_layout w)) ss' * l_last (o_layout w) + l_sumw (o_layout w)) d nzero) l) =
        nsum (map (fun ss' => hcell h ks ss' SumW) l)).
      { intros l Hl. apply nsum_ext_cells. intros ss' Hi. apply Hl in Hi. unfold bins_over, slots_over in Hi. apply filter_In in Hi. destruct Hi as (Hi & _). apply indices_in in Hi.
        rewrite <- Hcell by exact Hi. unfold hcell, cell. cbn [w without_profiles o_content]. rewrite E. reflexivity. }
      assert (E0 : nth (ravel (l_tots (o_layout D)) ss * l_last (o_layout D) + l_sumw (o_layout D)) (f0 d) nzero = total_over h cuts ks ss).
      { rewrite Hsumw. rewrite Ld in *. unfold f0. rewrite proj_data_cell; auto.
        - apply (HS (bins_over h cuts ss)). apply incl_refl.
        - unfold l_last, l_sumw. destruct (l_weighted (o_layout w)); lia. }
      unfold fraction_row. rewrite E0. f_equal. clear EC FC Hn G. clear Hc Hcw'.
      induction qs as [|q qs IH]; auto. inversion HQ as [|? ? (_ & HQ1) HQ2]; subst. cbn [map flat_map]. rewrite IH by auto. f_equal. f_equal.
      rewrite Hlast, Hsumw, HQ1 by auto. apply HS. intros x Hx. apply filter_In in Hx. tauto.
  Qed.
  Lemma fraction_ok h o cuts qs : hobj_ok h -> Forall nan_free_axis (o_group h ++ o_fixed h) -> o_prof h <> [] -> (o_filter h = None \/ o_weight h <> None) ->
    Forall2 (cut_number parse h) cuts qs -> computed (f_error o) ->
    (f_recarray o = true -> fraction_columns err_name o cuts <> [] /\ has_dup (fraction_columns err_name o cuts) = false) ->
    exists T, fraction sqrt sigmas err_name parse (view h) o cuts = Ok (T, fraction_columns err_name o cuts) /\
      one_row_per_bin h T (select (other_axes cuts h) (l_tots (o_layout h))) (length (fraction_columns err_name o cuts)) /\
      forall ks ss, has_group h ks -> in_shape (layout_keep (other_axes cuts h) (o_layout h)) ss ->
        bin_row T ks ss = Some (fraction_row sqrt sigmas h cuts qs o ks ss).
  Proof. intros H1 H2 H3 H4 H5 H6 H7. destruct (fraction_ok_shape h o cuts qs H1 H2 H3 H4 H5 H6 H7) as (T & E & _ & R). exists T. auto. Qed.
End Whole.
