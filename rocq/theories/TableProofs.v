(** The rows of a table. *)
From Coq Require Import String Permutation.
From Verif Require Import Base Num NumFacts Axis Calc Content Fill FillSpec FillProofs FillProofs2 FillProofs3 FillMain
  Tree Order Expr HistAlg AlgSpec HistAlgProofs HistAlgMain Nd NdProofs Proj ProjSpec ProjProofs ProjMain ProjMain2 ProjFill ProjLaws ProjDrop Select Table TableSpec.
Local Open Scope list_scope.

(** ** The array *)
Lemma fill_cols_nth nrows ncols cols r j : r < nrows -> j < ncols ->
  nth (r * ncols + j) (fill_cols nrows ncols cols) nzero = nth r (nth j cols []) nzero.
Proof.
  intros Hr Hj. unfold fill_cols. rewrite nth_flat_map with (d' := 0); [|intros; rewrite map_length, seq_length; reflexivity|rewrite seq_length; auto|auto].
  rewrite seq_nth by auto. cbn [plus]. rewrite nth_indep with (d' := nth r (nth 0 cols []) nzero) by (rewrite map_length, seq_length; auto).
  rewrite (map_nth (fun j => nth r (nth j cols []) nzero)). rewrite seq_nth by auto. reflexivity.
Qed.
Lemma fill_cols_length nrows ncols cols : length (fill_cols nrows ncols cols) = nrows * ncols.
Proof. unfold fill_cols. rewrite (flat_map_length _ ncols); [rewrite seq_length; auto|]. intros. rewrite map_length, seq_length. auto. Qed.
Lemma prod_app1 sh n : prodn (sh ++ [n]) = prodn sh * n.
Proof. unfold prodn. induction sh as [|x sh IH]; cbn [fold_right app]; [lia|]. rewrite IH. lia. Qed.

Lemma finish_ok rec tots names cols : length names = length cols -> (rec = true -> names <> [] /\ has_dup names = false) ->
  finish rec tots names (prodn tots) cols = Ok (PArr (tots ++ [length cols]) (fill_cols (prodn tots) (length cols) cols)).
Proof.
  intros Hl Hr. unfold finish. rewrite Hl. destruct rec.
  - destruct Hr as (H1 & ->); auto. rewrite Nat.eqb_refl. destruct cols as [|c cols]; [destruct names; cbn in *; congruence|]. reflexivity.
  - rewrite fill_cols_length, prod_app1, Nat.eqb_refl. reflexivity.
Qed.
Lemma cols_row tots cols ss : Forall2 lt ss tots ->
  map (fun j => aget (tots ++ [length cols]) (fill_cols (prodn tots) (length cols) cols) (ss ++ [j])) (seq 0 (length cols)) =
  map (fun c => nth (ravel tots ss) c nzero) cols.
Proof.
  intros Hs. assert (Hl : length ss = length tots) by (eapply Forall2_length; eauto).
  transitivity (map (fun j => nth (ravel tots ss) (nth j cols []) nzero) (seq 0 (length cols))).
  - apply map_ext_in. intros j Hj. apply in_seq in Hj. unfold aget. rewrite ravel_last by auto. apply fill_cols_nth; [|lia]. apply (ravel_lt _ _ Hs).
  - rewrite <- (map_map (fun j => nth j cols []) (fun c => nth (ravel tots ss) c nzero)). f_equal.
    clear. induction cols as [|c cols IH]; auto. cbn [length seq map nth]. f_equal. rewrite <- seq_shift, map_map. exact IH.
Qed.

(** ** The groups *)
Definition tmap (sh : list nat) (g : list Num -> list Num) : content -> pv :=
  fix go c := match c with
  | CNone => PNone
  | CArr d => PArr sh (g d)
  | CDict l => PDict ((fix items l := match l with [] => [] | (k, x) :: t => (k, go x) :: items t end) l)
  end.
Lemma tmap_dict sh g l : tmap sh g (CDict l) = PDict (map (fun kv => (fst kv, tmap sh g (snd kv))) l).
Proof. cbn [tmap]. f_equal. induction l as [|[k x] l IH]; auto. cbn [map fst snd]. rewrite <- IH. reflexivity. Qed.
Lemma tmap_cmap sh g f c : tmap sh g (cmap f c) = tmap sh (fun d => g (f d)) c.
Proof.
  induction c as [|d|l H] using content_ind'; auto. rewrite cmap_dict, !tmap_dict, map_map. f_equal. apply map_ext_in. intros kv Hkv. cbn [fst snd]. f_equal.
  rewrite Forall_forall in H. apply H; auto.
Qed.
Lemma thandle_embed f L sh g n c : (forall d, length d = l_size L -> f (l_shape L) d = Ok (PArr sh (g d))) -> content_ok L n c ->
  thandle f (embed L c) = Ok (tmap sh g c).
Proof.
  intros Hf. revert c. induction n as [|n IH]; intros [|d|l] Hc; try contradiction.
  - cbn [embed thandle tmap]. apply Hf. exact Hc.
  - rewrite embed_dict, tmap_dict. cbn [thandle]. destruct Hc as (Hc & _).
    assert (E : proj_items (thandle f) (map (fun kv => (fst kv, embed L (snd kv))) l) = Ok (map (fun kv => (fst kv, tmap sh g (snd kv))) l)).
    { induction Hc as [|[k x] l Hx Hl IHl]; auto. cbn [map proj_items fst snd] in *. rewrite IH by auto. cbn [bind].
      fold (proj_items (thandle f)). rewrite IHl. reflexivity. }
    rewrite E. reflexivity.
Qed.
Lemma table_block_tmap sh g c : forall ks, table_block (tmap sh g c) ks = option_map (fun d => (sh, g d)) (block c ks).
Proof.
  induction c as [|d|l H] using content_ind'; intros ks.
  - cbn [tmap]. rewrite block_none. destruct ks; reflexivity.
  - destruct ks; reflexivity.
  - rewrite tmap_dict. destruct ks as [|k ks]; auto. cbn [table_block block]. rewrite assoc_map. destruct (assoc k l) as [x|] eqn:E; cbn [option_map]; auto.
    apply assoc_in in E. rewrite Forall_forall in H. apply (H _ E).
Qed.

(** ** A histogram before its first fill *)
Definition started (h : hobj) : content := prefill (o_layout h) (length (o_group h)) (o_content h).
Lemma pprefill_view h : pprefill (view h) = embed (o_layout h) (started h).
Proof.
  unfold pprefill, view, started, prefill; cbn [p_head p_content o_group with_content].
  destruct (o_content h) as [|d|l]; cbn [embed]; auto. change (o_layout (with_content h CNone)) with (o_layout h).
  destruct (Nat.eqb (length (o_group h)) 0); reflexivity.
Qed.
Lemma started_ok h : hobj_ok h -> content_ok (o_layout h) (length (o_group h)) (started h).
Proof.
  intros (_ & _ & _ & [E|H]); unfold started, prefill.
  - rewrite E. destruct (o_group h); cbn; [apply repeat_length|]. split; constructor; constructor.
  - destruct (o_content h); auto. destruct (o_group h); contradiction.
Qed.
Lemma started_group h ks : hobj_ok h -> (block (started h) ks <> None <-> has_group h ks).
Proof.
  intros (_ & _ & _ & H). unfold started, prefill, has_group, has_block. destruct (o_content h) as [|d|l] eqn:E.
  - rewrite block_none. destruct (o_group h) as [|a G]; cbn [length Nat.eqb].
    + destruct ks as [|k ks]; cbn [block]; (split; [intros X|intros [X|(_ & _ & X)]]); try congruence; right; auto.
    + destruct ks as [|k ks]; cbn [block assoc]; (split; [intros X|intros [X|(_ & X & _)]]); congruence.
  - split; auto. intros [X|(X & _)]; auto; congruence.
  - split; auto. intros [X|(X & _)]; auto; congruence.
Qed.
Lemma started_cell h ks ss j : cell (o_layout h) (started h) ks ss j = cell (o_layout h) (o_content h) ks ss j.
Proof.
  unfold started, prefill. destruct (o_content h) as [|d|l] eqn:E; auto. unfold cell. rewrite block_none.
  destruct (Nat.eqb (length (o_group h)) 0), ks as [|k ks]; cbn [block assoc]; auto.
  apply nth_repeat_zero.
Qed.

(** ** The columns *)
Lemma columns_length (o : topts) profs is : length profs = length is -> forall (A : Type) (a b c : A) (m e : nat -> A),
  length (table_columns o profs) =
  length ((if t_count o then a :: (if t_error o then [b] else []) else []) ++ (if t_effcount o then [c] else []) ++
          flat_map (fun i => m i :: (if t_error o then [e i] else [])) is).
Proof.
  intros H A a b c m e. unfold table_columns. rewrite !app_length. f_equal; [destruct (t_count o), (t_error o); reflexivity|]. f_equal; [destruct (t_effcount o); reflexivity|].
  revert is H. induction profs as [|p profs IH]; intros [|i is] H; try discriminate; auto. cbn [flat_map length app] in *. rewrite !app_length. injection H as H.
  cbn [length]. rewrite (IH is H). destruct (t_error o); reflexivity.
Qed.
Lemma index_of_number h p i : Forall (fun a => is_profile a = true) (o_prof h) -> profile_number h p i -> index_of p (o_prof h) = Some i.
Proof.
  unfold profile_number. intros HP. revert i. induction HP as [|a l Ha Hl IH]; intros i (H & Hf); [destruct i; discriminate|].
  assert (EQ : forall b, is_profile b = true -> forall c, axis_eqb b c = true <-> b = c).
  { intros [] Hb c; try discriminate. destruct c; cbn; try (split; congruence). rewrite String.eqb_eq. split; congruence. }
  cbn [index_of]. destruct (axis_eqb a p) eqn:E.
  - apply EQ in E; auto. subst a. destruct i as [|i]; auto. exfalso. apply (Hf 0); [lia|reflexivity].
  - destruct i as [|i]; cbn in H; [injection H as ->; rewrite (proj2 (EQ p Ha p)) in E; auto; discriminate|].
    rewrite IH with (i := i); auto. split; auto. intros j Hj. apply (Hf (S j)). lia.
Qed.

Section Rows.
  Variable sqrt : Num -> Num.
  Variable bin_width : nat -> Num -> Num -> Num.

  (** The columns of the table of one array (not normalized). *)
  Definition item (L : layout) (d : list Num) (r j : nat) : Num := nth (r * l_last L + j) d nzero.
  Definition array_columns (L : layout) (o : topts) (is : list nat) (d : list Num) : list (list Num) :=
    let rows := seq 0 (l_rows L) in
    let sumw r := item L d r (l_sumw L) in
    let err r := sqrt (if l_weighted L then item L d r (l_sumw2 L) else sumw r) in
    let good r := nltb nzero (sumw r) in
    let effcnt r := if l_weighted L then ndiv (nmul (sumw r) (sumw r)) (item L d r (l_sumw2 L)) else sumw r in
    let where_good (f : nat -> Num) := map (fun r => if good r then f r else nzero) rows in
    let mean i r := ndiv (item L d r (2 * i)) (sumw r) in
    (if t_count o then map sumw rows :: (if t_error o then [map err rows] else []) else []) ++
    (if t_effcount o then [where_good effcnt] else []) ++
    flat_map (fun i => where_good (mean i) ::
      (if t_error o
       then [where_good (fun r => sqrt (ndiv (nsub (ndiv (item L d r (S (2 * i))) (sumw r)) (nmul (mean i r) (mean i r))) (effcnt r)))]
       else [])) is.
  Lemma l_last_pos L : 0 < l_last L.
  Proof. unfold l_last. destruct (l_weighted L); lia. Qed.
  Lemma rows_of L (d : list Num) : length d = l_size L -> length d / l_last L = l_rows L.
  Proof. intros ->. unfold l_size. apply Nat.div_mul. pose proof (l_last_pos L). lia. Qed.
  Lemma table_array_ok h o is names ws d : t_normalized o = false -> length d = l_size (o_layout h) ->
    (forall (A : Type) (a b c : A) (m e : nat -> A), length names =
      length ((if t_count o then a :: (if t_error o then [b] else []) else []) ++ (if t_effcount o then [c] else []) ++
              flat_map (fun i => m i :: (if t_error o then [e i] else [])) is)) ->
    (t_recarray o = true -> names <> [] /\ has_dup names = false) ->
    table_array sqrt (fun i => 2 * i) h o names is ws (l_shape (o_layout h)) d =
    Ok (PArr (l_tots (o_layout h) ++ [length names]) (fill_cols (l_rows (o_layout h)) (length names) (array_columns (o_layout h) o is d))).
  Proof.
    intros Hn Hd Hl Hr. unfold table_array. rewrite (rows_of (o_layout h) d Hd), Hn.
    replace (Nat.eqb (l_rows (o_layout h) * l_last (o_layout h)) (length d)) with true by (symmetry; apply Nat.eqb_eq; rewrite Hd; reflexivity). cbn [negb].
    assert (Hc : length names = length (array_columns (o_layout h) o is d)) by (unfold array_columns; cbn zeta; apply Hl).
    rewrite Hc. destruct (t_count o) eqn:Ec; cbn [bind].
    - transitivity (finish (t_recarray o) (l_tots (o_layout h)) names (l_rows (o_layout h)) (array_columns (o_layout h) o is d)).
      + unfold array_columns. rewrite Ec. reflexivity.
      + apply (finish_ok (t_recarray o) (l_tots (o_layout h)) names (array_columns (o_layout h) o is d) Hc Hr).
    - transitivity (finish (t_recarray o) (l_tots (o_layout h)) names (l_rows (o_layout h)) (array_columns (o_layout h) o is d)).
      + unfold array_columns. rewrite Ec. reflexivity.
      + apply (finish_ok (t_recarray o) (l_tots (o_layout h)) names (array_columns (o_layout h) o is d) Hc Hr).
  Qed.
  Lemma mapM_index h profs is : hobj_ok h -> Forall2 (profile_number h) profs is -> mapM (profile_index (with_content h CNone)) profs = Ok is.
  Proof.
    intros (_ & _ & HP & _) H. induction H as [|p i profs is Hp H IH]; auto. cbn [mapM]. unfold profile_index at 1. cbn [o_prof with_content].
    rewrite (index_of_number h p i HP Hp). cbn [bind]. rewrite IH. reflexivity.
  Qed.
  Lemma numbers_names h profs is : Forall2 (profile_number h) profs is -> map (fun i => nth i (o_prof h) ANull) is = profs.
  Proof. intros H. induction H as [|p i profs is (Hp & _) H IH]; auto. cbn [map]. rewrite IH. f_equal. apply nth_error_nth. auto. Qed.

  Lemma nth_rows (f : nat -> Num) n r : r < n -> nth r (map f (seq 0 n)) nzero = f r.
  Proof. intros H. rewrite nth_indep with (d' := f 0) by (rewrite map_length, seq_length; auto). rewrite map_nth, seq_nth by auto. reflexivity. Qed.
  Lemma array_columns_row h o is ks ss d : block (started h) ks = Some d -> in_shape (o_layout h) ss ->
    map (fun c => nth (ravel (l_tots (o_layout h)) ss) c nzero) (array_columns (o_layout h) o is d) =
    expected_row sqrt h ks ss (t_count o) (t_effcount o) (t_error o) is.
  Proof.
    intros Hb Hs. set (r := ravel (l_tots (o_layout h)) ss). assert (Hr : r < l_rows (o_layout h)) by (apply (ravel_lt _ _ Hs)).
    assert (HI : forall j, item (o_layout h) d r j = cell (o_layout h) (o_content h) ks ss j).
    { intros j. rewrite <- started_cell. unfold cell. rewrite Hb. reflexivity. }
    unfold array_columns, expected_row. cbn zeta. rewrite !map_app. f_equal; [|f_equal].
    - destruct (t_count o); auto. cbn [map]. rewrite nth_rows by auto. f_equal; [apply HI|]. destruct (t_error o); auto. cbn [map]. rewrite nth_rows by auto.
      rewrite !HI. reflexivity.
    - destruct (t_effcount o); auto. cbn [map]. rewrite nth_rows by auto. rewrite !HI. reflexivity.
    - induction is as [|i is IH]; auto. cbn [flat_map]. rewrite map_app, IH. f_equal. cbn [map]. rewrite nth_rows by auto. rewrite !HI. f_equal.
      destruct (t_error o); auto. cbn [map]. rewrite nth_rows by auto. rewrite !HI. unfold if_entries, mean_error, mean, mean_square, effective, entries, hcell.
      cbn [column_of]. replace (2 * i + 1) with (S (2 * i)) by lia. reflexivity.
  Qed.

  Lemma table_ok_shape h o profs is : hobj_ok h -> Forall2 (profile_number h) profs is -> t_normalized o = false ->
    (t_recarray o = true -> table_columns o profs <> [] /\ has_dup (table_columns o profs) = false) ->
    exists T, table sqrt bin_width (view h) o profs = Ok (T, table_columns o profs) /\
      (exists g, T = tmap (l_tots (o_layout h) ++ [length (table_columns o profs)]) g (started h) /\
         forall d, length (g d) = prodn (l_tots (o_layout h)) * length (table_columns o profs)) /\
      one_row_per_bin h T (l_tots (o_layout h)) (length (table_columns o profs)) /\
      forall ks ss, has_group h ks -> in_shape (o_layout h) ss ->
        bin_row T ks ss = Some (expected_row sqrt h ks ss (t_count o) (t_effcount o) (t_error o) is).
  Proof.
    intros Hok HP Hn Hr. set (names := table_columns o profs).
    exists (tmap (l_tots (o_layout h) ++ [length names]) (fun d => fill_cols (l_rows (o_layout h)) (length names) (array_columns (o_layout h) o is d)) (started h)).
    assert (Hlen : length profs = length is) by (eapply Forall2_length; eauto).
    pose proof (columns_length o profs is Hlen) as Hl.
    split; [|split; [|split]]; [|eexists; split; [reflexivity|intros d; apply fill_cols_length]| |].
    - unfold table, table_with. rewrite pprefill_view. cbn zeta; change (p_head (view h)) with (with_content h CNone). rewrite (mapM_index h profs is Hok HP). cbn [bind].
      cbn [o_prof with_content]. rewrite (numbers_names h profs is HP), Hn. cbn [bind]. fold names.
      rewrite (thandle_embed _ (o_layout h) (l_tots (o_layout h) ++ [length names]) (fun d => fill_cols (l_rows (o_layout h)) (length names) (array_columns (o_layout h) o is d)) (length (o_group h))).
      + reflexivity.
      + intros d Hd. apply (table_array_ok (with_content h CNone) o is names []); auto.
      + apply started_ok; auto.
    - intros ks. rewrite table_block_tmap. split; intros H.
      + apply started_group in H; auto. destruct (block (started h) ks) as [d|]; [|congruence]. eexists. reflexivity.
      + destruct (block (started h) ks) as [d|] eqn:E; auto. exfalso. apply H. apply started_group; auto. congruence.
    - intros ks ss H Hs. unfold bin_row. rewrite table_block_tmap. apply started_group in H; auto. destruct (block (started h) ks) as [d|] eqn:E; [|congruence].
      cbn [option_map]. rewrite last_last. f_equal. rewrite <- (array_columns_row h o is ks ss d E Hs).
      assert (Hc : length names = length (array_columns (o_layout h) o is d)) by (unfold array_columns; cbn zeta; apply Hl). rewrite Hc. apply cols_row. exact Hs.
  Qed.
  Lemma table_ok h o profs is : hobj_ok h -> Forall2 (profile_number h) profs is -> t_normalized o = false ->
    (t_recarray o = true -> table_columns o profs <> [] /\ has_dup (table_columns o profs) = false) ->
    exists T, table sqrt bin_width (view h) o profs = Ok (T, table_columns o profs) /\
      one_row_per_bin h T (l_tots (o_layout h)) (length (table_columns o profs)) /\
      forall ks ss, has_group h ks -> in_shape (o_layout h) ss ->
        bin_row T ks ss = Some (expected_row sqrt h ks ss (t_count o) (t_effcount o) (t_error o) is).
  Proof. intros H1 H2 H3 H4. destruct (table_ok_shape h o profs is H1 H2 H3 H4) as (T & E & _ & R). exists T. auto. Qed.
End Rows.
