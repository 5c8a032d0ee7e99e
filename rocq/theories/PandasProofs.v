(** The rows of a DataFrame. *)
From Coq Require Import String Sorted Permutation.
From Verif Require Import Base Num NumFacts Axis AxisSpec AxisProofs AxisProofs2 AxisMain Calc Content Fill FillSpec FillProofs FillProofs2 FillProofs3 FillMain
  Tree Order Expr InstrSpec Elem HistFill HistSpec KeySpec HistAlg AlgSpec HistAlgProofs HistAlgMain
  Nd NdProofs Proj ProjSpec ProjProofs Select Table TableSpec TableProofs Pandas PandasSpec.
Local Open Scope list_scope.

(** ** Sorted keys *)
Lemma gkey_ltb_trans a b c : gkey_ltb a b = true -> gkey_ltb b c = true -> gkey_ltb a c = true.
Proof.
  destruct a as [x|s], b as [y|t], c as [z|u]; cbn; try discriminate; auto.
  - apply nltb_trans.
  - unfold String.ltb. intros H1 H2. destruct (String.compare s t) eqn:E1; try discriminate. destruct (String.compare t u) eqn:E2; try discriminate.
    rewrite (scmp_trans _ _ _ E1 E2). reflexivity.
Qed.
Lemma gkey_ltb_total a b : is_str a = is_str b -> key_ok a -> key_ok b -> a <> b -> gkey_ltb a b = false -> gkey_ltb b a = true.
Proof.
  destruct a as [x|s], b as [y|t]; cbn; try discriminate; intros _ Ha Hb Hn.
  - unfold key_ok in *. destruct x, y; cbn; try discriminate; try congruence; auto. intros H. qc_bool.
    destruct (Qlt_le_dec (this q0) (this q)) as [|H']; [qlra|]. exfalso. apply Hn. do 2 f_equal. apply Qc_is_canon. lra.
  - unfold String.ltb. intros H. destruct (String.compare s t) eqn:E; try discriminate.
    + apply scmp_eq in E. congruence.
    + rewrite scmp_opp, E. reflexivity.
Qed.

Lemma insert_key_sorted x l : StronglySorted (fun a b => gkey_ltb a b = true) l -> ~ In x l -> key_ok x -> Forall key_ok l -> Forall (fun y => is_str y = is_str x) l ->
  StronglySorted (fun a b => gkey_ltb a b = true) (insert_key x l).
Proof.
  induction 1 as [|y l Hs IH Hy]; intros Hn Hx Hl Hk; cbn [insert_key].
  - repeat constructor.
  - inversion Hl as [|? ? Hy' Hl']; subst. inversion Hk as [|? ? Hk1 Hk2]; subst. destruct (gkey_ltb x y) eqn:E.
    + constructor; [constructor; auto|]. constructor; auto. eapply Forall_impl; [|exact Hy]. cbn. intros z Hz. eapply gkey_ltb_trans; eauto.
    + constructor; [apply IH; auto; intros Hi; apply Hn; right; auto|].
      assert (gkey_ltb y x = true). { apply gkey_ltb_total; auto. intros ->. apply Hn. left. auto. }
      apply Forall_forall. intros z Hz. apply (Permutation_in _ (insert_key_perm x l)) in Hz. destruct Hz as [<-|Hz]; auto. rewrite Forall_forall in Hy. auto.
Qed.
Lemma sort_keys_sorted l : NoDup l -> Forall key_ok l -> (forall a b, In a l -> In b l -> is_str a = is_str b) ->
  StronglySorted (fun a b => gkey_ltb a b = true) (sort_keys l).
Proof.
  induction 1 as [|x l Hn Hd IH]; intros Hk Hs; [constructor|]. inversion Hk; subst. cbn [sort_keys fold_right]. fold (sort_keys l).
  pose proof (sort_keys_perm l) as P. apply insert_key_sorted; auto.
  - apply IH; auto. intros a b Ha Hb. apply Hs; right; auto.
  - intros Hi. apply Hn. eapply Permutation_in; eauto.
  - apply Forall_forall. intros z Hz. apply (Permutation_in _ P) in Hz. rewrite Forall_forall in *. auto.
  - apply Forall_forall. intros z Hz. apply (Permutation_in _ P) in Hz. apply Hs; [right|left]; auto.
Qed.
Lemma py_sorted_ok l : (forall a b, In a l -> In b l -> is_str a = is_str b) -> py_sorted l = Ok (sort_keys l).
Proof.
  intros H. unfold py_sorted. destruct (existsb is_str l) eqn:E1; auto. destruct (existsb (fun k => negb (is_str k)) l) eqn:E2; auto. exfalso.
  apply existsb_exists in E1. apply existsb_exists in E2. destruct E1 as (a & Ha & E1), E2 as (b & Hb & E2). rewrite (H b a Hb Ha), E1 in E2. discriminate.
Qed.
Lemma py_sorted_mixed l a b : In a l -> In b l -> is_str a <> is_str b -> py_sorted l = Err TypeError.
Proof.
  intros Ha Hb Hn. unfold py_sorted. replace (existsb is_str l && _) with true; auto. symmetry. apply andb_true_iff.
  assert (G : forall a b, In a l -> In b l -> is_str a = true -> is_str b = false -> existsb is_str l = true /\ existsb (fun k => negb (is_str k)) l = true).
  { clear. intros a b Ha Hb E1 E2. split; apply existsb_exists; [exists a|exists b]; rewrite ?E2; auto. }
  destruct (is_str a) eqn:E1, (is_str b) eqn:E2; try congruence; eauto.
Qed.

(** ** Labels of fixed axes *)
Lemma pd_interval_ok lo hi lc : nleb lo hi = true -> pd_interval lo hi lc = Ok (LIv lo hi lc).
Proof. intros H. unfold pd_interval. rewrite H. reflexivity. Qed.
Lemma shows_iv lo hi lc : shows (LIv lo hi lc) (KIv lo hi lc (negb lc)).
Proof. intros v _ _. reflexivity. Qed.
Lemma nleb_ninf x : x <> NaN -> nleb NInf x = true.
Proof. destruct x; cbn; congruence. Qed.
Lemma nleb_pinf x : x <> NaN -> nleb x PInf = true.
Proof. destruct x; cbn; congruence. Qed.
Lemma shows_under x lc b : shows (LIv NInf x lc) (KIv NInf x b (negb lc)).
Proof.
  intros v Hp Hn. cbn. unfold in_interval. assert (E : v <> NaN -> nltb NInf v = true) by (destruct v; cbn; congruence).
  split; intros (H1 & H2); split; auto; left; apply E; intros ->; destruct H2 as [H2|(_ & _ & H2)]; cbn in H2; try congruence; destruct x; discriminate.
Qed.
Lemma shows_over x lc b : shows (LIv x PInf lc) (KIv x PInf lc b).
Proof.
  intros v Hp Hn. cbn. unfold in_interval. assert (E : v <> NaN -> nltb v PInf = true) by (destruct v; cbn; congruence).
  split; intros (H1 & H2); split; auto; left; apply E; intros ->; destruct H1 as [H1|(_ & _ & H1)]; try congruence; destruct x; discriminate.
Qed.
Lemma opt_label_ok b l k : shows l k -> exists ls, opt_label b (Ok l) = Ok ls /\ Forall2 shows ls (if b then [k] else []).
Proof. intros H. destruct b; cbn; eexists; split; eauto. Qed.
Lemma edge_step n l h i : 0 < n -> (this l < this h)%Q -> (this (edge n l h i) < this (edge n l h (i + 1)))%Q.
Proof.
  intros Hn Hlh. unfold edge. rewrite !this_add, !this_mul, !this_div, !this_sub, !this_qz. pose proof (qn_pos n Hn) as Hp.
  replace (Z.of_nat (i + 1)) with (Z.of_nat i + 1)%Z by lia. rewrite inject_Z_plus. set (N := inject_Z (Z.of_nat n)) in *. set (I := inject_Z (Z.of_nat i)).
  assert (0 < / N)%Q by (apply Qinv_lt_0_compat; auto). unfold Qdiv. change (inject_Z 1) with 1%Q. nra.
Qed.
Lemma edge_zero n l h : 0 < n -> edge n l h 0 = l.
Proof. intros Hn. unfold edge. change (Z.of_nat 0) with 0%Z. apply Qc_ext. qc_push. pose proof (qn_pos n Hn). unfold Qdiv. change (inject_Z 0) with 0%Q. ring. Qed.
Lemma bin_labels_ok n l h cl : 0 < n -> (this l < this h)%Q -> forall m i,
  exists ls, bin_labels n (Fin l) (Fin h) cl (i2x n (Fin l) (Fin h) i) (seq i m) = Ok ls /\
    Forall2 shows ls (map (fun i => KIv (i2x n (Fin l) (Fin h) i) (i2x n (Fin l) (Fin h) (i + 1)) cl (negb cl)) (seq i m)).
Proof.
  intros Hn Hlh. induction m as [|m IH]; intros i; cbn [seq bin_labels map].
  - eexists. split; [reflexivity|constructor].
  - fold (i2x n (Fin l) (Fin h) (i + 1)). rewrite pd_interval_ok.
    2:{ rewrite !i2x_edge by auto. apply nleb_iff. left. cbn. apply qltb_iff. apply edge_step; auto. }
    cbn [bind]. destruct (IH (S i)) as (ls & E & F). replace (i + 1) with (S i) in * by lia. rewrite E. cbn [bind]. eexists. split; [reflexivity|].
    constructor; auto. apply shows_iv.
Qed.
Lemma edge_labels_ok cl : forall es e0, StronglySorted (fun a b => nleb a b = true) (e0 :: es) ->
  exists ls, edge_labels cl e0 es = Ok (ls, last (e0 :: es) NaN) /\ Forall2 shows ls (map (fun p => KIv (fst p) (snd p) cl (negb cl)) (pairs_of (e0 :: es))).
Proof.
  induction es as [|e es IH]; intros e0 H.
  - eexists. split; [reflexivity|constructor].
  - inversion H as [|? ? H1 H2]; subst. inversion H2; subst. cbn [edge_labels]. rewrite pd_interval_ok by auto. cbn [bind].
    destruct (IH e H1) as (ls & -> & F). cbn [bind]. eexists. split; [reflexivity|]. constructor; auto. apply shows_iv.
Qed.
Lemma fixed_labels_ok a : axis_shown a -> is_fixed a = true ->
  exists ls, fixed_labels a = Ok ls /\ length ls = totbins a /\ forall s l, nth_error ls s = Some l -> shows_bin a s l.
Proof.
  intros [Ha| ->] Hf.
  2:{ exists [LEmpty]. split; [reflexivity|]. split; [reflexivity|]. intros [|[|s]] l E; try discriminate. injection E as <-. reflexivity. }
  assert (G : a <> ANull -> (exists ls, fixed_labels a = Ok ls /\ Forall2 shows ls (keys a)) ->
    exists ls, fixed_labels a = Ok ls /\ length ls = totbins a /\ forall s l, nth_error ls s = Some l -> shows_bin a s l).
  { intros Hn (ls & E & F). exists ls. split; auto. split.
    - rewrite <- keys_length_totbins by auto. eapply Forall2_length; eauto.
    - assert (K : forall s l, nth_error ls s = Some l -> exists k, nth_error (keys a) s = Some k /\ shows l k).
      { clear - F. induction F as [|x k ls ks H F IH]; intros [|s] l E; try discriminate; cbn in *; eauto. injection E as <-. eauto. }
      intros s l E1. specialize (K s l E1). destruct a; auto. congruence. }
  destruct Ha as [e|e w org nf cl ax M|e n l hh u o nf cl ax M Hn Hb|e mn mx u o ax M|e raw u o nf cl ax Hr M|e]; try discriminate.
  - unfold mk_groupbin in M. destruct (nleb (Fin w) nzero); [discriminate|]. injection M as <-. discriminate.
  - pose proof (mk_bin_lt _ _ _ _ _ _ _ _ _ M Hn) as Hlt. apply mk_bin_ok in M. destruct M as (-> & _). apply G; [discriminate|]. cbn [fixed_labels keys].
    rewrite (pd_interval_ok NInf) by (apply nleb_ninf; discriminate). rewrite (pd_interval_ok (Fin hh)) by (apply nleb_pinf; discriminate).
    destruct (opt_label_ok u _ _ (shows_under (Fin l) cl true)) as (r1 & -> & F1). destruct (opt_label_ok o _ _ (shows_over (Fin hh) cl true)) as (r3 & -> & F3).
    destruct (opt_label_ok nf LNaN KNaN) as (r4 & -> & F4); [intros v _ _; reflexivity|].
    destruct (bin_labels_ok n l hh cl Hn Hlt n 0) as (r2 & E2 & F2). rewrite i2x_edge, edge_zero in E2 by auto. cbn [bind]. rewrite E2. cbn [bind].
    eexists. split; [reflexivity|]. unfold keys_bin. repeat apply Forall2_app; auto.
  - apply mk_intbin_ok in M. destruct M as (-> & Hle). apply G; [discriminate|]. cbn [fixed_labels keys].
    rewrite (pd_interval_ok NInf), (pd_interval_ok (nz mx)) by reflexivity.
    destruct (opt_label_ok u _ _ (shows_under (nz mn) true true)) as (r1 & -> & F1). destruct (opt_label_ok o _ _ (shows_over (nz mx) false true)) as (r3 & -> & F3).
    cbn [bind]. eexists. split; [reflexivity|]. unfold keys_intbin. replace (mx + 1 - mn)%Z with (mx - mn + 1)%Z by lia. repeat apply Forall2_app; auto.
    clear. generalize (seq 0 (Z.to_nat (mx - mn + 1))). induction l; constructor; auto. intros v _ _. reflexivity.
  - pose proof (mk_split_ok _ _ _ _ _ _ _ M) as (-> & He & _). apply G; [discriminate|]. cbn [fixed_labels keys].
    assert (Hs : StronglySorted (fun a b => nleb a b = true) (sort_num raw)) by (apply sort_num_sorted; exact Hr).
    assert (Hnn : forall x, In x (sort_num raw) -> x <> NaN) by (intros x Hx; exact (Hr x (proj1 (sort_num_in _ _) Hx))).
    destruct (sort_num raw) as [|e0 es] eqn:Es. { exfalso. destruct raw; [apply He; auto|]. apply (f_equal (@length _)) in Es. rewrite sort_num_length in Es. discriminate. }
    rewrite (pd_interval_ok NInf) by (apply nleb_ninf, Hnn; left; auto).
    destruct (edge_labels_ok cl es e0 Hs) as (r2 & -> & F2).
    destruct (opt_label_ok u _ _ (shows_under e0 cl true)) as (r1 & -> & F1). cbn [bind snd fst].
    assert (HL : last (e0 :: es) NaN <> NaN). { apply Hnn. assert (X : In (last (e0 :: es) NaN) (removelast (e0 :: es) ++ [last (e0 :: es) NaN])) by (apply in_or_app; right; left; reflexivity).
      rewrite <- app_removelast_last in X by discriminate. exact X. }
    rewrite (pd_interval_ok (last (e0 :: es) NaN)) by (apply nleb_pinf; auto).
    destruct (opt_label_ok o _ _ (shows_over (last (e0 :: es) NaN) cl true)) as (r3 & -> & F3).
    destruct (opt_label_ok nf LNaN KNaN) as (r4 & -> & F4); [intros v _ _; reflexivity|]. cbn [bind].
    eexists. split; [reflexivity|]. unfold keys_split. cbn [hd]. repeat apply Forall2_app; auto.
  - apply G; [discriminate|]. eexists. split; [reflexivity|]. repeat constructor.
Qed.

(** ** The index *)
Lemma mapM_each {A B} (f : A -> res B) (P : A -> B -> Prop) l : (forall x, In x l -> exists y, f x = Ok y /\ P x y) ->
  exists ys, mapM f l = Ok ys /\ Forall2 P l ys.
Proof.
  induction l as [|x l IH]; intros H; [exists []; split; [reflexivity|constructor]|].
  destruct (H x) as (y & E & Hy); [left; auto|]. destruct IH as (ys & Es & F); [intros; apply H; right; auto|].
  exists (y :: ys). cbn [mapM]. rewrite E. cbn [bind]. rewrite Es. split; [reflexivity|constructor; auto].
Qed.
Definition bin_labels_of (F : list axis) (ss : list nat) (ls : list label) : Prop :=
  Forall2 (fun ak l => shows_bin (fst ak) (snd ak) l) (combine F ss) ls /\ length ls = length F.
Definition under_key (key : list label) (P : list label -> Prop) (row : list label) : Prop := exists r, row = key ++ r /\ P r.
Lemma gather_empty {A} (R : A -> indexed -> Prop) (l : list A) rs : (forall x r, R x r -> fst (fst r) = []) -> Forall2 R l rs -> fst (fst (gather rs)) = [].
Proof. intros H. induction 1 as [|x r l rs H1 F IH]; auto. cbn in *. rewrite (H _ _ H1). exact IH. Qed.
Lemma max_const n (l : list nat) : l <> [] -> Forall (eq n) l -> fold_right Nat.max 0 l = n.
Proof.
  intros Hn. induction 1 as [|x l <- H IH]; [congruence|]. cbn. destruct l; [cbn; lia|]. rewrite IH by discriminate. lia.
Qed.
Lemma max_of_nonempty {A} (l : list A) (rs : list indexed) n : Forall2 (fun _ r => snd r = n) l rs -> l <> [] -> snd (gather rs) = n.
Proof.
  intros F Hl. cbn. apply max_const.
  - destruct F; [congruence|discriminate].
  - clear Hl. induction F; constructor; auto.
Qed.
Lemma max_bound n (rs : list indexed) : Forall (fun r => snd r <= n) rs -> snd (gather rs) <= n.
Proof. induction 1 as [|r rs H F IH]; cbn in *; lia. Qed.
Lemma flat_map_nil {A B} (f : A -> list B) l : (forall x, In x l -> f x = []) -> flat_map f l = [].
Proof. induction l as [|x l IH]; intros H; auto. cbn. rewrite H, IH; auto; intros; try apply H; [right|left]; auto. Qed.
Lemma fixed_step nofixed F a (key : list label) ls :
  (forall key, exists rows n, index nofixed F None key = Ok ([], rows, n) /\
     Forall2 (fun ss => under_key key (bin_labels_of F ss)) (indices (map totbins F)) rows /\ n <= length F /\ (indices (map totbins F) <> [] -> n = length F)) ->
  length ls = totbins a -> (forall s l, nth_error ls s = Some l -> shows_bin a s l) ->
  exists rs, mapM (fun lb => index nofixed F None (key ++ [lb])) ls = Ok rs /\ fst (fst (gather rs)) = [] /\
    Forall2 (fun ss => under_key key (bin_labels_of (a :: F) ss)) (indices (totbins a :: map totbins F)) (snd (fst (gather rs))) /\
    snd (gather rs) <= length F /\ (indices (totbins a :: map totbins F) <> [] -> snd (gather rs) = length F).
Proof.
  intros HF Hl Hs.
  destruct (mapM_each (fun lb => index nofixed F None (key ++ [lb])) (fun lb r => fst (fst r) = [] /\
     Forall2 (fun ss => under_key (key ++ [lb]) (bin_labels_of F ss)) (indices (map totbins F)) (snd (fst r)) /\ snd r <= length F /\ (indices (map totbins F) <> [] -> snd r = length F)) ls) as (rs & E & R).
  { intros lb _. destruct (HF (key ++ [lb])) as (rows & n & E & H1 & H2 & H2'). eexists. split; [exact E|]. cbn. auto. }
  exists rs. split; auto. split; [eapply gather_empty; [|exact R]; cbn; tauto|]. split; [|split].
  - cbn [indices]. rewrite <- Hl. clear E Hl.
    assert (G : forall (ls' : list label) rs' i, (forall s l, nth_error ls' s = Some l -> shows_bin a (i + s) l) ->
      Forall2 (fun lb r => fst (fst r) = [] /\ Forall2 (fun ss => under_key (key ++ [lb]) (bin_labels_of F ss)) (indices (map totbins F)) (snd (fst r)) /\ snd r <= length F /\
        (indices (map totbins F) <> [] -> snd r = length F)) ls' rs' ->
      Forall2 (fun ss => under_key key (bin_labels_of (a :: F) ss)) (flat_map (fun j => map (cons j) (indices (map totbins F))) (seq i (length ls'))) (snd (fst (gather rs')))).
    { clear. intros ls' rs' i Hs R. revert i Hs. induction R as [|lb r ls' rs' (_ & H1 & _) R IH]; intros i Hs; [constructor|].
      cbn [length seq flat_map gather fst snd]. apply Forall2_app.
      - specialize (Hs 0 lb eq_refl). rewrite Nat.add_0_r in Hs. clear - H1 Hs. induction H1 as [|ss row l rows (q & -> & H1 & H2) H IH]; cbn [map]; constructor; auto.
        exists (lb :: q). split; [rewrite <- app_assoc; reflexivity|]. split; [constructor; auto|cbn; congruence].
      - apply IH. intros s l E. replace (S i + s) with (i + S s) by lia. apply Hs. exact E. }
    apply (G ls rs 0); auto.
  - apply max_bound. clear - R. induction R as [|? ? ? ? (_ & _ & X & _) R IH]; constructor; auto.
  - intros Hne. assert (Hls : ls <> []). { intros ->. apply Hne. cbn [indices]. rewrite <- Hl. reflexivity. }
    assert (Hi : indices (map totbins F) <> []). { intros X. apply Hne. cbn [indices]. rewrite X. apply flat_map_nil. auto. }
    apply (max_of_nonempty ls); auto. clear - R Hi. induction R as [|? ? ? ? (_ & _ & _ & X) R IH]; constructor; auto.
Qed.
Lemma index_fixed F : Forall axis_shown F -> Forall (fun a => is_fixed a = true) F -> forall key, exists rows n,
  index false F None key = Ok ([], rows, n) /\
  Forall2 (fun ss => under_key key (bin_labels_of F ss)) (indices (map totbins F)) rows /\ n <= length F /\ (indices (map totbins F) <> [] -> n = length F).
Proof.
  induction 1 as [|a F Ha HF IH]; intros Hfix key.
  - exists [key], 0. split; [reflexivity|]. split; [|auto]. cbn. constructor; [|constructor]. exists []. rewrite app_nil_r. split; auto. split; [constructor|auto].
  - inversion Hfix as [|? ? Hf Hfs]; subst. destruct (fixed_labels_ok a Ha Hf) as (ls & E & Hl & Hs).
    destruct (fixed_step false F a key ls (IH Hfs) Hl Hs) as (rs & Er & H1 & H2 & H3' & H3). cbn [index].
    replace (is_group a) with false by (destruct a; auto; discriminate). rewrite E. cbn [bind]. rewrite Er. cbn [bind].
    exists (snd (fst (gather rs))), (S (snd (gather rs))). rewrite H1. split; [reflexivity|]. split; [exact H2|]. split; [cbn [length]; lia|].
    cbn [map]. intros Hne. cbn [length]. rewrite H3; auto.
Qed.
Lemma index_array F (c : pv) : Forall axis_shown F -> Forall (fun a => is_fixed a = true) F -> forall key, exists rows n,
  index (no_axes F) F (Some c) key = Ok ([c], rows, n) /\
  Forall2 (fun ss => under_key key (bin_labels_of F ss)) (indices (map totbins F)) rows /\ n <= length F /\ (indices (map totbins F) <> [] -> n = length F).
Proof.
  intros HF Hfix key. destruct F as [|a F].
  - exists [key], 0. split; [reflexivity|]. split; [|auto]. cbn. constructor; [|constructor]. exists []. rewrite app_nil_r. split; auto. split; [constructor|auto].
  - cbn [no_axes]. inversion HF as [|? ? Ha HF']; subst. inversion Hfix as [|? ? Hf Hfs]; subst. destruct (fixed_labels_ok a Ha Hf) as (ls & E & Hl & Hs).
    destruct (fixed_step false F a key ls (index_fixed F HF' Hfs) Hl Hs) as (rs & Er & H1 & H2 & H3' & H3). cbn [index].
    replace (is_group a) with false by (destruct a; auto; discriminate). rewrite E. cbn [bind]. rewrite Er. cbn [bind].
    exists (snd (fst (gather rs))), (S (snd (gather rs))). rewrite H1. split; [reflexivity|]. split; [exact H2|]. split; [cbn [length]; lia|].
    cbn [map]. intros Hne. cbn [length]. rewrite H3; auto.
Qed.

Lemma group_label_ok a k : axis_fine a -> is_group a = true -> (exists v, value_fine a v /\ in_group a v k) ->
  exists l, group_label a k = Ok l /\ shows_group a k l.
Proof.
  intros Ha Hg (v & Hv & Hk). destruct Ha as [e|e w org nf cl ax M|e n l hh u o nf cl ax M Hn Hb|e mn mx u o ax M|e raw u o nf cl ax Hr M|e]; try discriminate.
  - eexists. split; reflexivity.
  - unfold mk_groupbin in M. destruct (nleb (Fin w) nzero) eqn:Ew; [discriminate|]. injection M as <-. cbn [group_label shows_group]. cbn [in_group] in Hk.
    assert (Hw : (0 < this w)%Q). { apply Qnot_le_lt. intros X. rewrite <- Bool.not_true_iff_false in Ew. apply Ew. unfold nleb. cbn. destruct (Qlt_le_dec (this w) 0) as [Y|Y].
      - rewrite (proj2 (qltb_iff _ _)); auto. - rewrite (proj2 (qeqb_iff _ _)); [apply orb_true_r|]. apply Qc_is_canon. qc_push. change (inject_Z 0) with 0%Q. lra. }
    destruct Hk as [(x & z & -> & -> & Hi)|(-> & Hnf & ->)].
    + rewrite pd_interval_ok.
      2:{ apply nleb_iff. left. cbn. qlra. }
      eexists. split; [reflexivity|]. intros y Hy. cbn [label_holds in_group]. split.
      * intros Hin. left. destruct y as [y| | |]; try (destruct Hy; discriminate).
        -- exists y, z. repeat split; auto; apply Hin.
        -- exfalso. destruct Hin as ([X|(_ & _ & X)] & _); [discriminate|congruence].
      * intros [(y' & z' & Ey & Ez & Hin)|(_ & _ & X)]; [|discriminate]. injection Ey as ->. apply (f_equal (fun k => match k with GNum y => y | _ => NaN end)) in Ez. cbv beta iota in Ez. rewrite Ez. exact Hin.
    + cbn [String.eqb]. eexists. split; [reflexivity|]. intros y Hy. cbn [label_holds in_group]. split.
      * intros ->. right. auto.
      * intros [(y' & z' & _ & X & _)|(X & _)]; [discriminate|congruence].
  - apply mk_bin_ok in M. destruct M as (-> & _). discriminate.
  - apply mk_intbin_ok in M. destruct M as (-> & _). discriminate.
  - apply mk_split_ok in M. destruct M as (-> & _). discriminate.
Qed.

(** ** The groups *)
Definition block_data (c : content) (ks : list gkey) : list Num := match block c ks with Some d => d | None => [] end.
Definition places_of (tots : list nat) (gs : list (list gkey)) : list place := flat_map (fun ks => map (pair ks) (indices tots)) gs.
Lemma keys_before_cons k ks ks' : keys_before ks ks' -> keys_before (k :: ks) (k :: ks').
Proof. intros (p & a & b & r & r' & -> & -> & H). exists (k :: p), a, b, r, r'. auto. Qed.
Lemma sorted_app {A} (R : A -> A -> Prop) l m : StronglySorted R l -> StronglySorted R m -> (forall x y, In x l -> In y m -> R x y) -> StronglySorted R (l ++ m).
Proof.
  induction 1 as [|x l Hs IH Hx]; intros Hm H; auto. cbn. constructor; [apply IH; auto; intros; apply H; auto; right; auto|].
  apply Forall_app. split; auto. apply Forall_forall. intros y Hy. apply H; auto. left. auto.
Qed.
Lemma sorted_map {A B} (R : A -> A -> Prop) (S' : B -> B -> Prop) (f : A -> B) l : (forall x y, R x y -> S' (f x) (f y)) -> StronglySorted R l -> StronglySorted S' (map f l).
Proof. intros H. induction 1 as [|x l Hs IH Hx]; cbn; constructor; auto. clear - H Hx. induction Hx; cbn; constructor; auto. Qed.
Lemma sub_assoc l k x p : assoc k l = Some x -> sub (CDict l) (k :: p) = sub x p.
Proof. intros E. cbn. rewrite E. reflexivity. Qed.
Lemma assoc_present {A} (l : list (gkey * A)) k : key_ok k -> In k (map fst l) -> exists x, assoc k l = Some x.
Proof.
  intros Hk. induction l as [|[k' x] l IH]; intros H; [contradiction|]. cbn. destruct (gkey_eqb k k') eqn:E; [eauto|].
  apply IH. destruct H as [<-|H]; auto. cbn in E. rewrite gkey_eqb_refl in E by auto. discriminate.
Qed.

Section Groups.
  Variables (L : layout) (sh : list nat) (g : list Num -> list Num) (F : list axis).
  Hypothesis HF : Forall axis_shown F.
  Hypothesis Hfix : Forall (fun a => is_fixed a = true) F.
  Let tots := map totbins F.
  Definition shows_place (G : list axis) (p : place) (row : list label) : Prop := describes G F p row.
  Definition indexed_ok (G : list axis) (c : content) (key : list label) (r : indexed) : Prop :=
    exists gs, fst (fst r) = map (fun ks => PArr sh (g (block_data c ks))) gs /\
      StronglySorted keys_before gs /\ (forall ks, In ks gs <-> block c ks <> None) /\
      Forall2 (fun p => under_key key (describes G F p)) (places_of tots gs) (snd (fst r)) /\
      snd r <= length (G ++ F) /\ (places_of tots gs <> [] -> snd r = length (G ++ F)).
  Lemma describes_cons a G k l p row : shows_group a k l -> describes G F p row -> describes (a :: G) F (k :: fst p, snd p) (l :: row).
  Proof.
    intros H (gl & fl & -> & H1 & H2 & H3 & H4). exists (l :: gl), fl. split; [reflexivity|]. cbn [fst snd combine]. split; [constructor; auto|]. split; [cbn; congruence|]. auto.
  Qed.
  (** One dict *)
  Lemma gather_groups a G key (l : list (gkey * content)) : Forall key_ok (map fst l) -> forall ks rs,
    StronglySorted (fun x y => gkey_ltb x y = true) ks ->
    Forall2 (fun k r => exists x lb, assoc k l = Some x /\ shows_group a k lb /\ indexed_ok G x (key ++ [lb]) r) ks rs ->
    exists gs, fst (fst (gather rs)) = map (fun p => PArr sh (g (block_data (CDict l) p))) gs /\
      StronglySorted keys_before gs /\ (forall p, In p gs <-> exists k p', p = k :: p' /\ In k ks /\ block (CDict l) p <> None) /\
      Forall2 (fun p => under_key key (describes (a :: G) F p)) (places_of tots gs) (snd (fst (gather rs))) /\
      snd (gather rs) <= length (G ++ F) /\ (places_of tots gs <> [] -> snd (gather rs) = length (G ++ F)).
  Proof.
    intros Hok ks rs Hs R. induction R as [|k r ks rs (x & lb & Ex & Hlb & gs & E1 & E2 & E3 & E4 & E5 & E6) R IH].
    - exists []. split; [reflexivity|]. split; [constructor|]. split; [|split; [apply Forall2_nil|split; [cbn; lia|intros X; contradiction X; reflexivity]]].
      intros p. split; [contradiction|]. intros (? & ? & _ & [] & _).
    - inversion Hs as [|? ? Hs' Hk]; subst. destruct (IH Hs') as (gs' & F1 & F2 & F3 & F4 & F5 & F6). clear IH.
      assert (EB : forall p, block (CDict l) (k :: p) = block x p) by (intros p; cbn; rewrite Ex; reflexivity).
      assert (EP : places_of tots (map (cons k) gs ++ gs') = map (fun p : place => (k :: fst p, snd p)) (places_of tots gs) ++ places_of tots gs').
      { unfold places_of. rewrite flat_map_app. f_equal. clear. induction gs as [|p gs IH]; auto. cbn [flat_map map]. rewrite map_app, IH, map_map. reflexivity. }
      exists (map (cons k) gs ++ gs'). split; [|split; [|split; [|split; [|split]]]].
      + change (fst (fst (gather (r :: rs)))) with (fst (fst r) ++ fst (fst (gather rs))). rewrite E1, F1, map_app, map_map. f_equal.
        apply map_ext. intros p. unfold block_data. rewrite EB. reflexivity.
      + apply sorted_app; auto.
        * apply (sorted_map keys_before); auto. intros; apply keys_before_cons; auto.
        * intros p q Hp Hq. apply in_map_iff in Hp. destruct Hp as (p' & <- & _). apply F3 in Hq. destruct Hq as (k' & q' & -> & Hk' & _).
          exists [], k, k', p', q'. split; auto. split; auto. rewrite Forall_forall in Hk. auto.
      + intros p. rewrite in_app_iff, in_map_iff, F3. split.
        * intros [(p' & <- & Hp)|(k' & p' & -> & Hk' & Hb)].
          -- exists k, p'. split; auto. split; [left; auto|]. rewrite EB. apply E3. auto.
          -- exists k', p'. split; auto. split; auto. right. auto.
        * intros (k' & p' & -> & [<-|Hk'] & Hb).
          -- left. exists p'. split; auto. apply E3. rewrite <- EB. auto.
          -- right. eauto.
      + rewrite EP. change (snd (fst (gather (r :: rs)))) with (snd (fst r) ++ snd (fst (gather rs))). apply Forall2_app; auto.
        clear - E4 Hlb. induction E4 as [|p row ps rows (q & -> & Hq) H IH]; cbn [map]; constructor; auto.
        exists (lb :: q). split; [rewrite <- app_assoc; reflexivity|]. apply describes_cons; auto.
      + change (snd (gather (r :: rs))) with (Nat.max (snd r) (snd (gather rs))). lia.
      + change (snd (gather (r :: rs))) with (Nat.max (snd r) (snd (gather rs))). rewrite EP. intros Hn.
        destruct (places_of tots gs) as [|p ps]; [|rewrite E6 by discriminate; lia]. destruct (places_of tots gs') as [|p ps]; [contradiction|]. rewrite F6 by discriminate. lia.
  Qed.

  Lemma index_groups G : Forall axis_fine G -> Forall (fun a => is_group a = true) G -> forall c key,
    content_ok L (length G) c -> comparable c -> real_groups G c ->
    exists r, index (no_axes F) (G ++ F) (Some (tmap sh g c)) key = Ok r /\ indexed_ok G c key r.
  Proof.
    induction 1 as [|a G Ha HG IH]; intros Hgr c key Hc Hcmp Hre.
    - destruct c as [|d|l]; try contradiction. cbn [tmap app]. destruct (index_array F (PArr sh (g d)) HF Hfix key) as (rows & n & E & H1 & H2 & H3).
      eexists. split; [exact E|]. exists [[]]. cbn [fst snd map app]. split; [reflexivity|]. split; [repeat constructor|]. split.
      { intros [|k ks]; cbn; split; auto; try congruence. intros [X|[]]; discriminate. }
      split; [|split; auto].
      + unfold places_of. cbn [flat_map]. rewrite app_nil_r. fold tots in H1. clear - H1. generalize dependent (indices tots). intros l0 H1. induction H1 as [|ss row l rows (q & -> & H1 & H2) H IH]; cbn [map]; constructor; auto.
        exists q. split; auto. exists [], q. split; auto. cbn. split; [apply Forall2_nil|auto].
      + unfold places_of. cbn [flat_map]. rewrite app_nil_r. intros Hn. apply H3. intros X. apply Hn. fold tots in X. rewrite X. reflexivity.
    - inversion Hgr as [|? ? Hg Hgs]; subst. destruct c as [|d|l]; try contradiction. cbn [length content_ok] in Hc. destruct Hc as (Hc & Hnd & Hok).
      assert (Hkeys : forall k, In k (map fst l) -> key_at (CDict l) [] k) by (intros k Hk; exists l; auto).
      assert (Hsame : forall x y, In x (map fst l) -> In y (map fst l) -> is_str x = is_str y) by (intros x y Hx Hy; apply (Hcmp []); auto).
      rewrite tmap_dict. cbn [app index]. rewrite Hg. replace (map fst (map (fun kv => (fst kv, tmap sh g (snd kv))) l)) with (map fst l) by (rewrite map_map; reflexivity). rewrite py_sorted_ok by auto. cbn [bind].
      pose proof (sort_keys_perm (map fst l)) as P.
      destruct (mapM_each (fun k => do c <- lookup k (map (fun kv => (fst kv, tmap sh g (snd kv))) l); do lb <- group_label a k; index (no_axes F) (G ++ F) (Some c) (key ++ [lb]))
        (fun k r => exists x lb, assoc k l = Some x /\ shows_group a k lb /\ indexed_ok G x (key ++ [lb]) r) (sort_keys (map fst l))) as (rs & E & R).
      { intros k Hk. apply (Permutation_in _ P) in Hk. assert (Hkk : key_ok k) by (rewrite Forall_forall in Hok; auto).
        destruct (assoc_present l k Hkk Hk) as (x & Ex). destruct (group_label_ok a k Ha Hg) as (lb & El & Sl).
        { apply (Hre [] k a); auto. }
        destruct (IH Hgs x (key ++ [lb])) as (r & Er & Hr).
        - rewrite Forall_forall in Hc. apply assoc_in in Ex. apply (Hc _ Ex).
        - intros p k1 k2 (l1 & S1 & I1) (l2 & S2 & I2). apply (Hcmp (k :: p)); [exists l1|exists l2]; rewrite (sub_assoc _ _ _ _ Ex); auto.
        - intros p k1 b (l1 & S1 & I1) Hn. apply (Hre (k :: p) k1 b); auto. exists l1. rewrite (sub_assoc _ _ _ _ Ex). auto.
        - exists r. unfold lookup. rewrite assoc_map, Ex. cbn [option_map bind]. rewrite El. cbn [bind]. split; auto. exists x, lb. auto. }
      rewrite E. cbn [bind]. eexists. split; [reflexivity|].
      destruct (gather_groups a G key l Hok (sort_keys (map fst l)) rs) as (gs & F1 & F2 & F3 & F4 & F5 & F6); auto.
      { apply sort_keys_sorted; auto. }
      exists gs. unfold deeper. cbn [fst snd]. split; [exact F1|]. split; [exact F2|]. split; [|split; [exact F4|split; [cbn [app length]; lia|]]].
      + intros p. rewrite F3. split; [intros (k & p' & -> & _ & H); auto|]. intros Hb. destruct p as [|k p]; [cbn in Hb; congruence|]. exists k, p. split; auto. split; auto.
        apply (Permutation_in _ (Permutation_sym P)). cbn in Hb. destruct (assoc k l) as [x|] eqn:Ex; [|congruence]. apply assoc_in in Ex. apply (in_map fst) in Ex. exact Ex.
      + intros Hn. cbn [app length]. rewrite F6; auto.
  Qed.
End Groups.

(** ** The frame *)
Lemma totbins_pos a : axis_shown a -> is_fixed a = true -> 0 < totbins a.
Proof.
  intros [Ha| ->] Hf; [|cbn; lia].
  destruct Ha as [e|e w org nf cl ax M|e n l hh u o nf cl ax M Hn Hb|e mn mx u o ax M|e raw u o nf cl ax Hr M|e]; try discriminate.
  - unfold mk_groupbin in M. destruct (nleb (Fin w) nzero); [discriminate|]. injection M as <-. discriminate.
  - apply mk_bin_ok in M. destruct M as (-> & _). cbn. lia.
  - apply mk_intbin_ok in M. destruct M as (-> & M). cbn. lia.
  - unfold mk_split in M. destruct raw; [discriminate|]. destruct (Axis.has_dup _); [discriminate|]. destruct (Nat.eqb_spec (length (sort_num (n :: raw)) - 1 + b2n u + b2n o + b2n nf) 0) as [E|E]; [discriminate|].
    injection M as <-. set (q := length (sort_num (n :: raw)) - 1) in E. change (0 < q + b2n u + b2n o + b2n nf). clearbody q. lia.
  - cbn. lia.
Qed.
Lemma indices_sorted sh : StronglySorted slots_before (indices sh).
Proof.
  induction sh as [|n sh IH]; cbn [indices]; [repeat constructor|].
  assert (G : forall m i, StronglySorted slots_before (flat_map (fun i => map (cons i) (indices sh)) (seq i m))).
  { induction m as [|m IHm]; intros i; [constructor|]. cbn [seq flat_map]. apply sorted_app; auto.
    - apply (sorted_map slots_before); auto. intros x y (p & a & b & r & r' & -> & -> & H). exists (i :: p), a, b, r, r'. auto.
    - intros x y Hx Hy. apply in_map_iff in Hx. destruct Hx as (x' & <- & _). apply in_flat_map in Hy. destruct Hy as (j & Hj & Hy). apply in_map_iff in Hy. destruct Hy as (y' & <- & _).
      apply in_seq in Hj. exists [], i, j, x', y'. split; auto. split; auto. lia. }
  apply G.
Qed.
Lemma places_sorted tots gs : StronglySorted keys_before gs -> StronglySorted before (places_of tots gs).
Proof.
  induction 1 as [|ks gs Hs IH Hk]; [constructor|]. unfold places_of. cbn [flat_map]. apply sorted_app; auto.
  - apply (sorted_map slots_before); [|apply indices_sorted]. intros x y H. right. auto.
  - intros x y Hx Hy. apply in_map_iff in Hx. destruct Hx as (ss & <- & _). unfold places_of in Hy. apply in_flat_map in Hy. destruct Hy as (ks' & Hks & Hy).
    apply in_map_iff in Hy. destruct Hy as (ss' & <- & _). left. rewrite Forall_forall in Hk. auto.
Qed.
Lemma places_in tots gs ks ss : In (ks, ss) (places_of tots gs) <-> In ks gs /\ Forall2 lt ss tots.
Proof.
  unfold places_of. rewrite in_flat_map. split.
  - intros (x & Hx & H). apply in_map_iff in H. destruct H as (y & E & Hy). injection E as -> ->. split; auto. apply indices_in. auto.
  - intros (H1 & H2). exists ks. split; auto. apply in_map. apply indices_in. auto.
Qed.
Lemma places_length tots gs : length (places_of tots gs) = length gs * prodn tots.
Proof.
  induction gs as [|x gs IH]; auto. change (places_of tots (x :: gs)) with (map (pair x) (indices tots) ++ places_of tots gs).
  rewrite app_length, map_length, IH, indices_length. cbn [length]. unfold prod, prodn. lia.
Qed.
Lemma ravel_indices sh : map (ravel sh) (indices sh) = seq 0 (prodn sh).
Proof.
  apply nth_ext with (d := 0) (d' := 0).
  - rewrite map_length, seq_length, indices_length. reflexivity.
  - intros p Hp. rewrite map_length, indices_length in Hp. rewrite seq_nth by exact Hp. rewrite nth_indep with (d' := ravel sh []) by (rewrite map_length, indices_length; exact Hp).
    rewrite map_nth. destruct (ravel_surj sh p Hp) as (i & Hi & <-). rewrite nth_indices; auto.
Qed.
Definition chunks (k n : nat) (flat : list Num) : list (list Num) := map (fun r => map (fun j => nth (r * k + j) flat nzero) (seq 0 k)) (seq 0 n).
Lemma chunks_app k n m d e : length d = n * k -> chunks k (n + m) (d ++ e) = chunks k n d ++ chunks k m e.
Proof.
  intros Hd. unfold chunks. rewrite seq_app, map_app. f_equal.
  - apply map_ext_in. intros r Hr. apply in_seq in Hr. apply map_ext_in. intros j Hj. apply in_seq in Hj. apply app_nth1. rewrite Hd. nia.
  - cbn [plus].
    transitivity (map (fun r => map (fun j => nth ((n + r) * k + j) (d ++ e) nzero) (seq 0 k)) (seq 0 m)).
    + clear Hd. revert n. induction m as [|m IH]; intros n; auto. cbn [seq map]. f_equal; [rewrite Nat.add_0_r; auto|]. rewrite IH. rewrite <- seq_shift, map_map.
      apply map_ext. intros r. apply map_ext. intros j. do 2 f_equal. lia.
    + apply map_ext. intros r. apply map_ext_in. intros j Hj. apply in_seq in Hj. rewrite app_nth2 by (rewrite Hd; nia). f_equal. rewrite Hd. nia.
Qed.
Lemma chunks_block tots k d : chunks k (prodn tots) d = map (fun ss => map (fun j => aget (tots ++ [k]) d (ss ++ [j])) (seq 0 k)) (indices tots).
Proof.
  unfold chunks. rewrite <- ravel_indices, map_map. apply map_ext_in. intros ss Hs. apply indices_in in Hs. apply map_ext. intros j.
  unfold aget. rewrite ravel_last; auto. eapply Forall2_length; eauto.
Qed.
Lemma names_all {A} (f : axis -> A) (g : A) (l : list axis) : forall i n, i + length l <= n ->
  map (fun p => if Nat.ltb (fst p) n then f (snd p) else g) (combine (seq i (length l)) l) = map f l.
Proof.
  induction l as [|a l IH]; intros i n Hn; auto. cbn [length seq combine map fst snd]. cbn [length] in Hn. rewrite (proj2 (Nat.ltb_lt i n)) by lia. f_equal. apply IH. lia.
Qed.
Lemma to_frame_ok G F c g (cols : list string) r : Forall axis_shown F -> Forall (fun a => is_fixed a = true) F -> G ++ F <> [] ->
  let tots := map totbins F in let k := length cols in let sh := tots ++ [k] in
  (forall ks d, block c ks = Some d -> length (g d) = prodn tots * k) -> indexed_ok sh g F G c [] r ->
  exists Fm, to_frame (G ++ F) cols r = Ok Fm /\ f_cols Fm = cols /\
    lists_places G F (fun ks => block c ks <> None) tots (fun p => map (fun j => aget sh (g (block_data c (fst p))) (snd p ++ [j])) (seq 0 k)) Fm.
Proof.
  intros HF Hfix Hne tots k sh Hg (gs & E1 & E2 & E3 & E4 & E5 & E6). destruct r as [[arrays keys] n]. cbn [fst snd] in *. fold tots in E4, E6.
  assert (HD : Forall2 (describes G F) (places_of tots gs) keys).
  { clear - E4. induction E4 as [|p row ps rows (q & -> & H) F' IH]; constructor; auto. }
  assert (Hlen : length keys = length gs * prodn tots). { rewrite <- places_length. symmetry. eapply Forall2_length; eauto. }
  assert (Hpos : 0 < prodn tots).
  { unfold tots. clear - HF Hfix. induction HF as [|a F Ha HF IH]; [cbn; lia|]. inversion Hfix; subst. cbn [map]. unfold prodn. cbn [fold_right]. fold (prodn (map totbins F)).
    pose proof (totbins_pos a Ha H1). specialize (IH H2). nia. }
  assert (Hin : forall ks ss, In (ks, ss) (places_of tots gs) <-> block c ks <> None /\ Forall2 lt ss tots) by (intros; rewrite places_in, E3; reflexivity).
  set (names := map (fun p => if Nat.ltb (fst p) n then Some (axis_expr (snd p)) else None) (combine (seq 0 (length (G ++ F))) (G ++ F))).
  assert (HN : places_of tots gs <> [] -> names = map (fun a => Some (axis_expr a)) (G ++ F)).
  { intros X. unfold names. apply (names_all (fun a => Some (axis_expr a)) None). rewrite (E6 X). lia. }
  unfold to_frame. destruct (G ++ F) as [|a0 rest] eqn:EG; [congruence|]. fold names. fold k. rewrite <- EG in *.
  destruct gs as [|g0 gs'].
  - subst arrays. cbn [map]. eexists. split; [reflexivity|]. cbn [f_cols]. split; auto. exists []. cbn [f_index f_data f_names].
    cbn [places_of flat_map] in HD. inversion HD; subst keys. split; [|split; [constructor|split; [constructor|split; [reflexivity|congruence]]]]. exact Hin.
  - set (gs := g0 :: gs') in *. assert (Harr : exists x y, arrays = x :: y) by (subst arrays; cbn [gs map]; eauto).
    assert (Hflat : forall l, incl l gs -> length (flat_map flat_array (map (fun ks => PArr sh (g (block_data c ks))) l)) = length l * prodn tots * k /\
      chunks k (length l * prodn tots) (flat_map flat_array (map (fun ks => PArr sh (g (block_data c ks))) l)) =
      map (fun p => map (fun j => aget sh (g (block_data c (fst p))) (snd p ++ [j])) (seq 0 k)) (places_of tots l)).
    { induction l as [|ks l IH]; intros Hi; [split; reflexivity|]. destruct IH as (I1 & I2); [intros x Hx; apply Hi; right; auto|].
      assert (Hb : length (g (block_data c ks)) = prodn tots * k).
      { unfold block_data. assert (block c ks <> None) by (apply E3, Hi; left; auto). destruct (block c ks) as [d|] eqn:Ed; [|congruence]. eapply Hg; eauto. }
      cbn [map flat_map flat_array]. split.
      - rewrite app_length, I1, Hb. cbn [length]. lia.
      - change (places_of tots (ks :: l)) with (map (pair ks) (indices tots) ++ places_of tots l). cbn [length]. replace (S (length l) * prodn tots) with (prodn tots + length l * prodn tots) by lia.
        rewrite chunks_app by auto. rewrite map_app, I2, map_map. f_equal. apply chunks_block. }
    destruct (Hflat gs (incl_refl _)) as (L1 & L2). rewrite <- E1 in L1, L2. destruct Harr as (x & y & Ea). rewrite Ea. rewrite <- Ea.
    rewrite Hlen, L1. rewrite Nat.eqb_refl. rewrite (proj2 (Nat.eqb_neq _ 0)) by (cbn [gs length]; nia). cbn [orb negb].
    eexists. split; [reflexivity|]. cbn [f_cols]. split; auto. exists (places_of tots gs). cbn [f_index f_data f_names].
    split; [exact Hin|]. split; [apply places_sorted; auto|]. split; [exact HD|]. split; [exact L2|exact HN].
Qed.
