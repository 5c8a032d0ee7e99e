(** Changing the bins of a histogram: if every new cell is a sum of old cells and every row goes where the
    cell it was in goes, then changing the bins and filling can be swapped. *)
From Coq Require Import String Permutation.
From Verif Require Import Base Num NumFacts Axis Calc Content Fill FillSpec FillProofs FillProofs2 FillProofs3 FillMain
  HistAlg AlgSpec HistAlgProofs HistAlgMain Nd NdProofs Proj ProjSpec ProjProofs ProjMain ProjMain2 ProjFill ProjLaws ProjDrop.
Local Open Scope list_scope.

Section Remap.
  Variables (L L' : layout) (ng : nat).
  Variable f : list Num -> list Num.
  Variable pre : list nat -> list (list nat).
  (** The data: how each of them is seen before and after, and whether it is still filled. *)
  Variable D : Type.
  Variables old new : D -> row.
  Variable keep : D -> bool.
  Variable good : D -> Prop.
  Hypothesis Hprof : l_nprof L' = l_nprof L.
  Hypothesis Hwt : l_weighted L' = l_weighted L.
  Hypothesis Hlen : forall d, length d = l_size L -> length (f d) = l_size L'.
  Hypothesis Hcell : forall d ss j, length d = l_size L -> in_shape L' ss -> j < l_last L ->
    nth (ravel (l_tots L') ss * l_last L + j) (f d) nzero = nsum (map (fun s => nth (ravel (l_tots L) s * l_last L + j) d nzero) (pre ss)).
  Hypothesis Hpre : forall ss, in_shape L' ss -> NoDup (pre ss) /\ Forall (in_shape L) (pre ss).
  Hypothesis Hrow : forall r, good r -> row_ok L ng (old r) /\ row_ok L' ng (new r) /\ r_keys (new r) = r_keys (old r) /\
    r_prof (new r) = r_prof (old r) /\ r_w (new r) = r_w (old r) /\ r_w2 (new r) = r_w2 (old r).
  Hypothesis Hslots : forall r ss, good r -> in_shape L' ss ->
    keep r && slots_match ss (r_slots (new r)) = existsb (fun s => slots_match s (r_slots (old r))) (pre ss).
  Hypothesis Hunm : forall r, good r -> keep r = true -> unmasked (old r) -> unmasked (new r).

  Lemma remap_last : l_last L' = l_last L.
  Proof. unfold l_last. rewrite Hprof, Hwt. reflexivity. Qed.
  Lemma remap_column kd : column_of L' kd = column_of L kd.
  Proof. destruct kd; cbn; rewrite ?Hprof; reflexivity. Qed.
  Lemma remap_has kd : has_column L' kd <-> has_column L kd.
  Proof. destruct kd; cbn; rewrite ?Hprof, ?Hwt; reflexivity. Qed.
  Lemma remap_cell c ks ss j : hist_ok L ng c -> in_shape L' ss -> j < l_last L ->
    cell L' (cmap f c) ks ss j = nsum (map (fun s => cell L c ks s j) (pre ss)).
  Proof.
    intros Hc Hs Hj. unfold cell. rewrite block_cmap, remap_last. destruct (block c ks) as [d|] eqn:E; cbn [option_map].
    - apply Hcell; auto. destruct Hc as [->|Hc]; [rewrite block_none in E; discriminate|]. eapply block_length; eauto.
    - symmetry. apply nsum_zero. intros z Hz. apply in_map_iff in Hz. destruct Hz as (s & <- & _). reflexivity.
  Qed.
  Lemma remap_ok c : hist_ok L ng c -> hist_ok L' ng (cmap f c).
  Proof. intros [->|H]; [left; auto|right]. eapply cmap_ok; eauto. Qed.
  Lemma remap_pre m rows c : Forall good rows -> fill_pre L ng m (map old rows) c -> layout_ok L' -> fill_pre L' ng m (map new (filter keep rows)) (cmap f c).
  Proof.
    intros Hg (HL & Hm & Hr & Hc & Hp) HL'. split; auto. split; [unfold mode_ok in *; congruence|]. split.
    - apply Forall_map, Forall_filter. eapply Forall_impl; [|exact Hg]. intros r H. apply Hrow; auto.
    - split; [apply remap_ok; auto|]. destruct Hp as [Hp|Hp]; [left; congruence|right]. apply Forall_map. apply Forall_forall. intros r Hi.
      apply filter_In in Hi. destruct Hi as (Hi & Hk). rewrite Forall_forall in Hg, Hp. apply Hunm; auto. apply Hp, in_map; auto.
  Qed.
  Lemma remap_fill_pre m rows c0 c : Forall good rows -> fill_pre L ng m (map old rows) c0 -> fill_pre L' ng m (map new (filter keep rows)) (cmap f c0) ->
    fill_rows L ng m (map old rows) c0 = (c, None) ->
    exists y, fill_rows L' ng m (map new (filter keep rows)) (cmap f c0) = (y, None) /\ same_cells L' (cmap f c) y /\
      (forallb keep rows = true -> same_content (cmap f c) y).
  Proof.
    intros Hr HP HP' Ec. destruct (fill_ok _ _ _ _ _ HP) as (c1 & E1 & Oc & Vc & Bc).
    rewrite Ec in E1. inversion E1; subst c1. clear E1. destruct (fill_ok _ _ _ _ _ HP') as (y & Ey & Oy & Vy & By). exists y. split; auto.
    assert (Oc' : content_ok L' ng (cmap f c)) by (eapply cmap_ok; eauto). destruct HP as (_ & _ & _ & Hc0 & _). rewrite Forall_forall in Hr.
    assert (SC : same_cells L' (cmap f c) y).
    { apply (same_cells_intro L' ng); auto. intros ks ss kd Hs Hk. rewrite Vy by auto. rewrite remap_column. apply (proj1 (remap_has kd)) in Hk. pose proof (column_lt L kd Hk) as Hj.
      rewrite !remap_cell by (auto; right; auto). destruct (Hpre ss Hs) as (Nd & Fs). rewrite Forall_forall in Fs.
      transitivity (nadd (nsum (map (fun s => cell L c0 ks s (column_of L kd)) (pre ss))) (nsum (map (fun s => nsum (map (fun r => row_adds m kd (old r)) (filter (fun r => in_cell ks s (old r)) rows))) (pre ss)))).
      { rewrite <- nsum_map_add. f_equal. apply map_ext_in. intros s Hss. rewrite Vc, filter_map_swap, map_map by auto. reflexivity. }
      f_equal. transitivity (nsum (map (fun r => row_adds m kd (old r)) (filter (fun r => keep r && in_cell ks ss (new r)) rows))).
      - apply (nsum_cells (fun s r => in_cell ks s (old r))); auto.
        + intros r Hin E s Hss. destruct (in_cell ks s (old r)) eqn:Ei; auto. apply andb_prop in Ei. destruct Ei as (Ei1 & Ei2).
          assert (M : keep r && slots_match ss (r_slots (new r)) = true) by (rewrite Hslots; auto; apply existsb_exists; eauto).
          apply andb_prop in M. destruct M as (Ek & M). rewrite Ek in E. cbn [andb] in E. unfold in_cell in E. rewrite M in E.
          destruct (Hrow r (Hr r Hin)) as (_ & _ & Ek2 & _). rewrite Ek2, Ei1 in E. discriminate.
        + intros r Hin E. apply andb_prop in E. destruct E as (Ek & E). unfold in_cell in E. apply andb_prop in E. destruct E as (E1 & E2).
          assert (M := Hslots r ss (Hr r Hin) Hs). rewrite Ek, E2 in M. symmetry in M.
          apply existsb_exists in M. destruct M as (s & H1 & H2). exists s. split; auto. unfold in_cell. rewrite H2. destruct (Hrow r (Hr r Hin)) as (_ & _ & E & _). rewrite E in E1. rewrite E1. reflexivity.
        + intros r s s' H H' _ _. eapply in_cell_unique; eauto.
      - clear - Hr Hrow. induction rows as [|r rows IH]; cbn [filter map]; auto. assert (IH' := IH (fun r H => Hr r (or_intror H))).
        destruct (keep r); cbn [andb filter map]; auto. destruct (in_cell ks ss (new r)); cbn [map]; auto. rewrite !nsum_cons, IH'. f_equal.
        destruct (Hrow r (Hr r (or_introl eq_refl))) as (_ & _ & _ & E1 & E2 & E3). destruct kd, m; cbn; rewrite ?E1, ?E2, ?E3; reflexivity. }
    split; auto. intros Hall. apply (same_content_intro L' ng); auto. intros ks. rewrite block_cmap.
    assert (E : option_map f (block c ks) <> None <-> block c ks <> None) by (destruct (block c ks); cbn; split; congruence). rewrite E, Bc, By.
    rewrite (filter_all keep rows) by (apply Forall_forall; intros r Hi; rewrite forallb_forall in Hall; auto). apply or_iff_compat2.
    - destruct Hc0 as [->|Hc0].
      + cbn [cmap prefill]. destruct (Nat.eqb ng 0); [|reflexivity]. destruct ks; cbn [block]; split; congruence.
      + assert (P0 : prefill L ng c0 = c0) by (destruct c0; auto; destruct ng; contradiction).
        assert (P1 : prefill L' ng (cmap f c0) = cmap f c0) by (destruct c0; auto; destruct ng; contradiction).
        rewrite P0, P1, block_cmap. destruct (block c0 ks); cbn; split; congruence.
    - split; apply Forall2_impl'; intros k j (r & Hin & Hj).
      + apply in_map_iff in Hin. destruct Hin as (r' & <- & Hin). exists (new r'). split; [apply in_map; auto|]. destruct (Hrow r' (Hr r' Hin)) as (_ & _ & -> & _). auto.
      + apply in_map_iff in Hin. destruct Hin as (r' & <- & Hin). exists (old r'). split; [apply in_map; auto|]. destruct (Hrow r' (Hr r' Hin)) as (_ & _ & E' & _). rewrite E' in Hj. auto.
  Qed.
  Lemma remap_fill m rows c0 c : Forall good rows -> fill_pre L ng m (map old rows) c0 -> layout_ok L' -> fill_rows L ng m (map old rows) c0 = (c, None) ->
    exists y, fill_rows L' ng m (map new (filter keep rows)) (cmap f c0) = (y, None) /\ same_cells L' (cmap f c) y /\
      (forallb keep rows = true -> same_content (cmap f c) y).
  Proof. intros Hr HP HL' Ec. apply remap_fill_pre with (c0 := c0); auto. apply remap_pre; auto. Qed.
End Remap.
