(** Projection preserves totals and commutes with filling. *)
From Coq Require Import String Permutation.
From Verif Require Import Base Num NumFacts Axis Calc Content Fill FillSpec FillProofs FillProofs2 FillProofs3 FillMain
  HistAlg AlgSpec HistAlgProofs HistAlgMain Nd NdProofs Proj ProjSpec ProjProofs ProjMain ProjMain2.
Local Open Scope list_scope.

(** ** Paths *)
Lemma path_ok L n : forall c p, content_ok L n c -> In p (paths n c) -> length p = n /\ Forall key_ok p.
Proof.
  induction n as [|n IH]; intros c p Hc Hp; destruct c as [|d|l]; try contradiction.
  - cbn in Hp. destruct Hp as [<-|[]]. split; auto.
  - apply in_paths_dict in Hp. destruct Hp as (kv & q & Hi & Hq & ->). destruct Hc as (Hc & _ & Hk).
    rewrite Forall_forall in Hc, Hk. destruct (IH (snd kv) q (Hc kv Hi) Hq) as (H1 & H2). split; [cbn; lia|].
    constructor; auto. apply Hk. apply in_map; auto.
Qed.
Lemma keys_same_eq a : forall b, keys_same a b = true <-> a = b /\ Forall key_ok a.
Proof.
  induction a as [|x a IH]; intros [|y b]; cbn [keys_same]; try (split; [discriminate|intros (H & _); discriminate]).
  - split; auto.
  - rewrite andb_true_iff, IH, gkey_eqb_iff. split.
    + intros ((-> & H) & -> & H'). auto.
    + intros (E & H). inversion E; subst. inversion H; subst. auto.
Qed.
Lemma select_forall {A} (P : A -> Prop) k : forall l, Forall P l -> Forall P (select k l).
Proof. induction k as [|b k IH]; intros l H; [constructor|]. destruct H; cbn [select]; [constructor|]. destruct b; auto. Qed.

(** ** Totals *)
Lemma map_ravel_indices sh : map (ravel sh) (indices sh) = seq 0 (prod sh).
Proof.
  apply (nth_ext _ _ 0 0); [rewrite map_length, indices_length, seq_length; auto|].
  intros i Hi. rewrite map_length, indices_length in Hi. destruct (ravel_surj sh i Hi) as (ss & Hs & <-).
  rewrite seq_nth by auto. rewrite nth_indep with (d' := ravel sh []) by (rewrite map_length, indices_length; auto).
  rewrite map_nth, nth_indices; auto.
Qed.
Lemma block_total_cells L j c ks : block_total L j c ks = nsum (map (fun ss => cell L c ks ss j) (indices (l_tots L))).
Proof.
  unfold block_total. change (l_rows L) with (prod (l_tots L)). rewrite <- map_ravel_indices, map_map. f_equal.
Qed.
Lemma total_cells L n j c : content_ok L n c ->
  total L n j c = nsum (map (fun p => nsum (map (fun ss => cell L c p ss j) (indices (l_tots L)))) (paths n c)).
Proof. intros H. rewrite (total_paths L j n c H). f_equal. apply map_ext. intros p. apply block_total_cells. Qed.

Lemma projected_total keepg keepf L x y j : length keepf = length (l_tots L) -> content_ok L (length keepg) x ->
  projected keepg keepf L (length keepg) x y -> j < l_last L ->
  total (layout_keep keepf L) (trues keepg) j y = total L (length keepg) j x.
Proof.
  intros Hf Hx Hy Hj. destruct (Hy) as (Oy & _ & By). rewrite (total_cells _ _ _ y Oy), (total_cells _ _ _ x Hx).
  transitivity (nsum (map (fun ks => nsum (map (fun p => nsum (map (fun ss => cell L x p ss j) (indices (l_tots L))))
     (filter (fun p => keys_same (select keepg p) ks) (paths (length keepg) x)))) (paths (trues keepg) y))).
  - f_equal. apply map_ext. intros ks.
    transitivity (nsum (map (fun ss => nsum (map (fun p => nsum (map (fun ss' => cell L x p ss' j) (slots_over keepf (l_tots L) ss)))
        (keys_over keepg (paths (length keepg) x) ks))) (indices (l_tots (layout_keep keepf L))))).
    { f_equal. apply map_ext_in. intros ss Hs. apply indices_in in Hs. apply projected_cell; auto. }
    rewrite nsum_swap. unfold keys_over. f_equal. apply map_ext. intros p.
    cbn [l_tots layout_keep]. unfold slots_over.
    rewrite <- (filter_all (fun _ => true) (indices (select keepf (l_tots L)))) by (apply Forall_forall; auto).
    rewrite (nsum_classes (fun ss' => cell L x p ss' j) (select keepf) (fun _ => true)).
    + f_equal. f_equal. apply filter_all. apply Forall_forall; auto.
    + apply indices_nodup.
    + intros ss Hs. apply indices_in. apply indices_in in Hs. apply select_lt; auto.
  - rewrite (nsum_cells (fun ks p => keys_same (select keepg p) ks) (fun _ => true)).
    + f_equal. f_equal. apply filter_all. apply Forall_forall; auto.
    + eapply paths_nodup; eauto.
    + discriminate.
    + intros p Hp _. destruct (path_ok _ _ _ _ Hx Hp) as (_ & Hk).
      assert (E : keys_same (select keepg p) (select keepg p) = true) by (apply keys_same_eq; auto using select_forall).
      exists (select keepg p). split; auto. apply (paths_spec _ _ y _ Oy). apply By. exists p. apply in_keys_over. auto.
    + intros p ks ks' H H' _ _. apply keys_same_eq in H, H'. destruct H, H'. congruence.
Qed.

(** ** Rows *)
Lemma keys_match_eq ks : forall rk, keys_match ks rk = true <-> rk = map Some ks /\ Forall key_ok ks.
Proof.
  induction ks as [|k ks IH]; intros [|[k'|] rk]; cbn [keys_match map]; try (split; [discriminate|intros (H & _); discriminate]).
  - split; auto.
  - rewrite andb_true_iff, IH, gkey_eqb_iff. split.
    + intros ((-> & H) & -> & H'). auto.
    + intros (E & H). inversion E; subst. inversion H; subst. auto.
Qed.
Lemma slots_match_eq ss : forall rs, slots_match ss rs = true <-> rs = map (fun s => Some (Z.of_nat s)) ss.
Proof.
  induction ss as [|k ks IH]; intros [|[k'|] rk]; cbn [slots_match map]; try (split; discriminate).
  - split; auto.
  - rewrite andb_true_iff, IH, Z.eqb_eq. split; [intros (-> & ->); auto|]. intros E; inversion E; auto.
Qed.
Lemma select_map {A B} (f : A -> B) k : forall l, select k (map f l) = map f (select k l).
Proof. induction k as [|b k IH]; intros [|x l]; cbn [select map]; auto. destruct b; cbn [map]; congruence. Qed.
Lemma all_some {A} k : forall (l : list (option A)), length k = length l ->
  forallb (fun o => negb (is_none o)) (select (map negb k) l) = true -> (exists m, select k l = map Some m) ->
  exists m, l = map Some m.
Proof.
  induction k as [|b k IH]; intros [|x l] Hl H1 H2; cbn [length] in Hl; try lia; [exists []; auto|].
  cbn [map select] in *. destruct b; cbn [negb] in *.
  - destruct H2 as ([|y m] & H2); cbn [map] in H2; inversion H2; subst.
    destruct (IH l) as (m' & ->); eauto; try lia. exists (y :: m'). auto.
  - cbn [forallb] in H1. apply andb_prop in H1. destruct H1 as (H0 & H1). destruct (IH l) as (m' & ->); eauto; try lia.
    destruct x as [a|]; [exists (a :: m'); auto|discriminate].
Qed.
Lemma removed_some {A} k (m : list A) : forallb (fun o => negb (is_none o)) (select k (map Some m)) = true.
Proof. rewrite select_map. apply forallb_forall. intros o Ho. apply in_map_iff in Ho. destruct Ho as (x & <- & _). reflexivity. Qed.
Lemma some_inj {A} (l m : list A) : map Some l = map Some m -> l = m.
Proof. revert m. induction l as [|x l IH]; intros [|y m] H; cbn [map] in H; inversion H; auto. f_equal; auto. Qed.

(** A row is in one of the cells over [ks] and [ss] exactly when its projection is in that cell. *)
Lemma row_over keepg keepf L ng r ks ss : length keepg = ng -> length keepf = length (l_tots L) -> row_ok L ng r ->
  removed_keep keepg keepf r && in_cell ks ss (proj_row keepg keepf r) = true <->
  exists p ss', in_cell p ss' r = true /\ keys_same (select keepg p) ks = true /\ in_shape L ss' /\ select keepf ss' = ss.
Proof.
  intros Hg Hf (Lk & Hk & Hs & _). assert (Ls : length (l_tots L) = length (r_slots r)) by (eapply Forall2_length; eauto).
  unfold removed_keep, in_cell, proj_row; cbn [r_keys r_slots]. rewrite !andb_true_iff. split.
  - intros ((H1 & H2) & H3 & H4). apply keys_match_eq in H3. destruct H3 as (H3 & H3'). apply slots_match_eq in H4.
    destruct (all_some keepg (r_keys r)) as (p & Ep); try congruence; [eexists; eauto|].
    destruct (all_some keepf (r_slots r)) as (zs & Ez); try congruence.
    { exists (map Z.of_nat ss). rewrite map_map. auto. }
    assert (Hz : exists ss', r_slots r = map (fun s => Some (Z.of_nat s)) ss' /\ in_shape L ss').
    { rewrite Ez in *. clear - Hs. unfold in_shape. revert zs Hs. generalize (l_tots L). induction l as [|t l IH]; intros zs H; destruct zs as [|z zs]; inversion H; subst.
      - exists []. split; auto.
      - destruct (IH zs) as (ss' & E & F); auto. exists (Z.to_nat z :: ss'). cbn [map]. cbn [slot_ok] in *. split; [|constructor; auto; lia].
        rewrite Z2Nat.id by lia. f_equal. auto. }
    destruct Hz as (ss' & Es & Fs). exists p, ss'. rewrite Ep, Es in *. rewrite select_map in H3. rewrite select_map in H4.
    apply some_inj in H3. split; [apply andb_true_intro; split|split; [|split]]; auto.
    + apply keys_match_eq. split; auto. apply Forall_forall. intros k Hin. apply Hk. apply in_map; auto.
    + apply slots_match_eq. auto.
    + apply keys_same_eq. rewrite H3. auto.
    + clear - H4. revert H4. generalize (select keepf ss'). intros l. revert ss. induction l as [|x l IH]; intros [|y m] H; cbn [map] in H; inversion H; auto.
      f_equal; [lia|auto].
  - intros (p & ss' & H & Hp & Hss & Es). apply andb_prop in H. destruct H as (H1 & H2).
    apply keys_match_eq in H1. destruct H1 as (H1 & _). apply slots_match_eq in H2. apply keys_same_eq in Hp. destruct Hp as (Hp & Hp').
    rewrite H1, H2. rewrite !select_map. rewrite Hp, Es. split; [split|split].
    + rewrite <- select_map. apply removed_some.
    + rewrite <- select_map. rewrite <- (map_map Z.of_nat Some). apply removed_some.
    + apply keys_match_eq. split; auto. congruence.
    + apply slots_match_eq. auto.
Qed.

Lemma in_cell_unique p ss p' ss' r : in_cell p ss r = true -> in_cell p' ss' r = true -> p = p' /\ ss = ss'.
Proof.
  unfold in_cell. rewrite !andb_true_iff. intros (H1 & H2) (H3 & H4).
  apply keys_match_eq in H1, H3. apply slots_match_eq in H2, H4. destruct H1 as (H1 & _), H3 as (H3 & _).
  split; [apply some_inj; congruence|]. rewrite H2 in H4. clear - H4. revert ss' H4. induction ss as [|x l IH]; intros [|y m] H; cbn [map] in H; inversion H; auto.
  f_equal; [lia|auto].
Qed.
Lemma in_slots_over keepf tots ss ss' : In ss' (slots_over keepf tots ss) <-> Forall2 lt ss' tots /\ select keepf ss' = ss.
Proof. unfold slots_over. rewrite filter_In, indices_in, idx_eqb_eq. reflexivity. Qed.
Lemma nodup_prod {A B} (l : list A) (m : list B) : NoDup l -> NoDup m -> NoDup (list_prod l m).
Proof.
  intros Hl Hm. induction Hl as [|x l Hx Hl IH]; cbn [list_prod]; [constructor|]. apply nodup_app; auto.
  - apply FinFun.Injective_map_NoDup; auto. intros a b E. congruence.
  - intros [a b] Ha Hb. apply in_map_iff in Ha. destruct Ha as (z & E & _). inversion E; subst. apply in_prod_iff in Hb. tauto.
Qed.
Lemma nsum_prod {A B} (F : A -> B -> Num) l m :
  nsum (map (fun a => nsum (map (F a) m)) l) = nsum (map (fun ab => F (fst ab) (snd ab)) (list_prod l m)).
Proof.
  induction l as [|a l IH]; cbn [list_prod map]; auto. rewrite nsum_cons, map_app, nsum_app, IH. f_equal. rewrite map_map. reflexivity.
Qed.

(** ** Projection commutes with filling *)
Lemma seen_keys ng rows r p : In r rows -> length p = ng -> r_keys r = map Some p ->
  Forall2 (fun k j => exists r, In r rows /\ nth j (r_keys r) None = Some k) p (seq 0 ng).
Proof.
  intros Hr Hl Hk.
  assert (G : forall q i, (forall j, j < length q -> nth (i + j) (r_keys r) None = nth j (map Some q) None) ->
    Forall2 (fun k j => exists r, In r rows /\ nth j (r_keys r) None = Some k) q (seq i (length q))).
  { induction q as [|k q IH]; intros i H; cbn [length seq]; constructor.
    - exists r. split; auto. specialize (H 0). rewrite Nat.add_0_r in H. rewrite H by (cbn; lia). reflexivity.
    - apply IH. intros j Hj. specialize (H (S j)). rewrite <- plus_n_Sm in H. cbn [map nth length] in H. apply H. lia. }
  rewrite <- Hl. apply G. intros j _. rewrite Hk. reflexivity.
Qed.

Definition proj_of (keepg keepf : list bool) (L : layout) (x y : content) : Prop :=
  x = CNone /\ y = CNone \/ content_ok L (length keepg) x /\ projected keepg keepf L (length keepg) x y.

Lemma proj_of_cell keepg keepf L x y P ks ss j : length keepf = length (l_tots L) -> proj_of keepg keepf L x y ->
  lists_blocks x P -> in_shape (layout_keep keepf L) ss -> j < l_last L ->
  cell (layout_keep keepf L) y ks ss j =
  nsum (map (fun p => nsum (map (fun ss' => cell L x p ss' j) (slots_over keepf (l_tots L) ss))) (keys_over keepg P ks)).
Proof.
  intros Hf [(-> & ->)|(Hx & Hy)] Hl Hs Hj.
  - destruct P as [|p P]; [unfold cell; rewrite block_none; reflexivity|]. exfalso. apply (proj2 Hl p); [left; auto|apply block_none].
  - rewrite (projected_cell keepg keepf L (length keepg) x y); auto. apply nsum_perm, Permutation_map, filter_perm. symmetry. eapply lists_perm; eauto.
Qed.
Lemma proj_of_ok keepg keepf L x y : proj_of keepg keepf L x y -> hist_ok (layout_keep keepf L) (trues keepg) y.
Proof. intros [(_ & ->)|(_ & H & _)]; [left|right]; auto. Qed.
Lemma or_iff_compat2 (A B C D : Prop) : (A <-> B) -> (C <-> D) -> (A \/ C <-> B \/ D).
Proof. tauto. Qed.
Lemma Forall2_impl' {A B} (R S : A -> B -> Prop) l m : (forall a b, R a b -> S a b) -> Forall2 R l m -> Forall2 S l m.
Proof. intros H. induction 1; constructor; auto. Qed.
Definition gkeys_dec := list_eq_dec gkey_dec.

Lemma select_in {A} k : forall (l : list A) x, In x (select k l) -> In x l.
Proof. induction k as [|b k IH]; intros [|y l] x H; cbn [select] in H; try contradiction. destruct b; [destruct H as [->|H]; [left; auto|]|]; right; auto. Qed.
Lemma select_length {A} k : forall (l : list A), length k = length l -> length (select k l) = trues k.
Proof.
  unfold trues. induction k as [|b k IH]; intros [|x l] H; cbn [length] in H; try lia; auto. cbn [select filter].
  destruct b; cbn [length]; rewrite IH; auto.
Qed.
Lemma select_forall2 {A B} (R : A -> B -> Prop) k : forall l m, Forall2 R l m -> Forall2 R (select k l) (select k m).
Proof. induction k as [|b k IH]; intros l m H; [constructor|]. destruct H; cbn [select]; [constructor|]. destruct b; auto. Qed.

Lemma proj_rows_ok keepg keepf L rows : length keepf = length (l_tots L) -> Forall (row_ok L (length keepg)) rows ->
  Forall (row_ok (layout_keep keepf L) (trues keepg)) (map (proj_row keepg keepf) (filter (removed_keep keepg keepf) rows)).
Proof.
  intros Hf H. apply Forall_map, Forall_filter. eapply Forall_impl; [|exact H]. intros r (H1 & H2 & H3 & H4).
  split; [apply select_length; auto|]. split; [|split; [|exact H4]].
  - cbn. intros k Hk. apply H2. eapply select_in; eauto.
  - cbn. apply select_forall2. auto.
Qed.
Lemma proj_pre keepg keepf L m rows c0 y0 : length keepf = length (l_tots L) -> fill_pre L (length keepg) m rows c0 ->
  layout_ok (layout_keep keepf L) -> proj_of keepg keepf L c0 y0 ->
  fill_pre (layout_keep keepf L) (trues keepg) m (map (proj_row keepg keepf) (filter (removed_keep keepg keepf) rows)) y0.
Proof.
  intros Hf (HL & Hm & Hr & Hc & Hp) HL' Hy. split; auto. split; [exact Hm|]. split; [apply proj_rows_ok; auto|]. split; [apply (proj_of_ok _ _ _ _ _ Hy)|].
  destruct Hp as [Hp|Hp]; [left; exact Hp|right]. apply Forall_map, Forall_filter. eapply Forall_impl; [|exact Hp].
  intros r Hu Hi. apply Hu. cbn in Hi. eapply select_in; eauto.
Qed.
Lemma column_keep keepf L kd : column_of (layout_keep keepf L) kd = column_of L kd.
Proof. destruct kd; reflexivity. Qed.

Lemma project_fill keepg keepf L m rows c0 y0 c y : length keepf = length (l_tots L) ->
  fill_pre L (length keepg) m rows c0 -> layout_ok (layout_keep keepf L) -> proj_of keepg keepf L c0 y0 ->
  fill_rows L (length keepg) m rows c0 = (c, None) -> projected keepg keepf L (length keepg) c y ->
  exists y', fill_rows (layout_keep keepf L) (trues keepg) m
      (map (proj_row keepg keepf) (filter (removed_keep keepg keepf) rows)) y0 = (y', None) /\
    same_cells (layout_keep keepf L) y y' /\
    (forallb (fun b : bool => b) keepg = true -> forallb (removed_keep keepg keepf) rows = true -> same_content y y').
Proof.
  intros Hf Hpre HL' Hy0 Ec Hy. pose proof (proj_pre _ _ _ _ _ _ _ Hf Hpre HL' Hy0) as Hpre'.
  destruct (fill_ok _ _ _ _ _ Hpre) as (c1 & E1 & Oc & Vc & Bc). rewrite Ec in E1. inversion E1; subst c1. clear E1.
  destruct (fill_ok _ _ _ _ _ Hpre') as (y' & Ey' & Oy' & Vy & By).
  exists y'. split; auto. destruct (Hy) as (Oy & _ & BBy).
  assert (SC : same_cells (layout_keep keepf L) y y').
  { apply (same_cells_intro _ (trues keepg)); auto. intros ks ss kd Hs Hk. rewrite Vy by auto.
    assert (Hk' : has_column L kd) by (destruct kd; exact Hk). pose proof (column_lt L kd Hk') as Hj.
    rewrite column_keep. rewrite (projected_cell keepg keepf L (length keepg) c y) by auto.
    set (KS := keys_over keepg (paths (length keepg) c) ks). set (SS := slots_over keepf (l_tots L) ss).
    transitivity (nadd (nsum (map (fun p => nsum (map (fun ss' => cell L c0 p ss' (column_of L kd)) SS)) KS))
      (nsum (map (fun p => nsum (map (fun ss' => nsum (map (row_adds m kd) (filter (in_cell p ss') rows))) SS)) KS))).
    { rewrite <- nsum_map_add. f_equal. apply map_ext. intros p. rewrite <- nsum_map_add. f_equal. apply map_ext_in. intros ss' Hss'.
      apply in_slots_over in Hss'. apply Vc; auto. apply Hss'. }
    f_equal.
    - destruct Hy0 as [(-> & ->)|(Hc0 & Hp0)].
      + unfold cell at 2. rewrite block_none. apply nsum_zero. intros z Hz. apply in_map_iff in Hz. destruct Hz as (p & <- & _).
        apply nsum_zero. intros z Hz. apply in_map_iff in Hz. destruct Hz as (s & <- & _). unfold cell. rewrite block_none. reflexivity.
      + rewrite (projected_cell keepg keepf L (length keepg) c0 y0) by auto. fold SS. symmetry. apply (nsum_incl _ gkeys_dec).
        * apply NoDup_filter. eapply paths_nodup; eauto.
        * apply NoDup_filter. eapply paths_nodup; eauto.
        * intros p Hp. apply in_keys_over in Hp. apply in_keys_over. split; [|tauto]. apply (paths_spec L _ c p Oc). apply Bc. left.
          destruct Hp as (Hp & _). apply (paths_spec L _ c0 p Hc0) in Hp. destruct c0; cbn [prefill]; auto. rewrite block_none in Hp. congruence.
        * intros p Hp Hn. apply nsum_zero. intros z Hz. apply in_map_iff in Hz. destruct Hz as (s & <- & _). unfold cell.
          destruct (block c0 p) eqn:Eb; auto. exfalso. apply Hn. apply in_keys_over. apply in_keys_over in Hp. split; [|tauto].
          apply (paths_spec L _ c0 p Hc0). congruence.
    - rewrite nsum_prod.
      transitivity (nsum (map (row_adds m kd) (filter (fun r => removed_keep keepg keepf r && in_cell ks ss (proj_row keepg keepf r)) rows))).
      + destruct Hpre as (_ & _ & Hr & _ & _). rewrite Forall_forall in Hr.
        apply (nsum_cells (fun ps r => in_cell (fst ps) (snd ps) r)).
        * apply nodup_prod; apply NoDup_filter; [eapply paths_nodup; eauto|apply indices_nodup].
        * intros r Hin Hkeep [p s] Hps. apply in_prod_iff in Hps. destruct Hps as (Hp & Hps). apply in_keys_over in Hp. apply in_slots_over in Hps.
          destruct (in_cell (fst (p, s)) (snd (p, s)) r) eqn:Ei; auto. cbn [fst snd] in Ei.
          rewrite (proj2 (row_over keepg keepf L (length keepg) r ks ss eq_refl Hf (Hr r Hin))) in Hkeep; [discriminate|].
          exists p, s. tauto.
        * intros r Hin Hkeep. apply (row_over keepg keepf L (length keepg) r ks ss eq_refl Hf (Hr r Hin)) in Hkeep.
          destruct Hkeep as (p & s & H1 & H2 & H3 & H4). exists (p, s). split; auto. apply in_prod_iff. split; [|apply in_slots_over; auto].
          apply in_keys_over. split; auto. apply (paths_spec L _ c p Oc). apply Bc. right.
          unfold in_cell in H1. apply andb_prop in H1. destruct H1 as (H1 & _). apply keys_match_eq in H1. destruct H1 as (H1 & _).
          apply (seen_keys _ _ r); auto. destruct (Hr r Hin) as (Hl & _). rewrite H1, map_length in Hl. auto.
        * intros r [p s] [p' s'] H H' _ _. destruct (in_cell_unique _ _ _ _ _ H H'). cbn [fst snd] in *. congruence.
      + clear. induction rows as [|r rows IH]; cbn [filter map]; auto.
        destruct (removed_keep keepg keepf r); cbn [andb filter map]; auto.
        destruct (in_cell ks ss (proj_row keepg keepf r)); cbn [map]; auto. rewrite !nsum_cons, IH. f_equal. }
  split; auto. intros Hall Hrows. apply (same_content_intro (layout_keep keepf L) (trues keepg)); auto.
  assert (Tg : trues keepg = length keepg). { unfold trues. rewrite filter_all; auto. apply Forall_forall. intros b Hb. rewrite forallb_forall in Hall. auto. }
  assert (Sel : forall {A} (l : list A), length l = length keepg -> select keepg l = l) by (intros; apply select_all; auto).
  assert (BB : forall x z, content_ok L (length keepg) x -> projected keepg keepf L (length keepg) x z -> forall ks, block z ks <> None <-> block x ks <> None).
  { intros x z Hx (_ & _ & H) ks. rewrite H, <- (paths_spec L _ x ks Hx). split.
    - intros (p & Hp). apply in_keys_over in Hp. destruct Hp as (Hp & Hp'). apply keys_same_eq in Hp'. destruct (path_ok _ _ _ _ Hx Hp) as (Hl & _).
      rewrite Sel in Hp' by auto. destruct Hp' as (<- & _). auto.
    - intros Hp. destruct (path_ok _ _ _ _ Hx Hp) as (Hl & Hk). exists ks. apply in_keys_over. split; auto. rewrite Sel by auto. apply keys_same_eq. auto. }
  intros ks. rewrite (BB c y Oc Hy ks), Bc, By. rewrite Tg.
  rewrite (filter_all (removed_keep keepg keepf) rows) by (apply Forall_forall; intros r Hr; rewrite forallb_forall in Hrows; auto).
  apply or_iff_compat2.
  - destruct Hy0 as [(-> & ->)|(Hc0 & Hp0)].
    + cbn [prefill]. destruct (Nat.eqb (length keepg) 0); [|reflexivity]. destruct ks; cbn [block]; split; congruence.
    + assert (P0 : prefill L (length keepg) c0 = c0) by (destruct c0; auto; destruct (length keepg); contradiction).
      assert (P1 : prefill (layout_keep keepf L) (length keepg) y0 = y0).
      { destruct Hp0 as (Hp0 & _). destruct y0; auto. destruct (trues keepg); contradiction. }
      rewrite P0, P1. symmetry. apply BB; auto.
  - destruct Hpre as (_ & _ & Hr & _ & _). rewrite Forall_forall in Hr.
    split; apply Forall2_impl'; intros k j (r & Hin & Hj).
    + exists (proj_row keepg keepf r). split; [apply in_map; auto|]. cbn. rewrite Sel by (apply Hr; auto). auto.
    + apply in_map_iff in Hin. destruct Hin as (r' & <- & Hin). exists r'. split; auto. cbn in Hj. rewrite Sel in Hj by (apply Hr; auto). auto.
Qed.
