(** The data of a plot: the group axes *)
From Coq Require Import String Sorted Permutation Lia.
From Verif Require Import Base Num NumFacts Axis AxisSpec Calc Content Fill FillSpec FillProofs FillProofs2 FillProofs3 FillMain Tree Order Expr InstrSpec Elem HistFill HistSpec KeySpec HistAlg AlgSpec HistAlgProofs HistAlgMain
  Nd NdProofs Proj ProjSpec ProjProofs Select Table TableSpec TableProofs Pandas PandasSpec PandasProofs Vega VegaSpec VegaProofs.
Local Open Scope list_scope.
Local Open Scope nat_scope.

Definition gkey_d (a : axis) (k : gkey) : dkey :=
  match a, k with
  | AGroupbin _ w _ _ cl, GNum n => DBin (KIv n (nadd n w) cl (negb cl))
  | _, _ => DGroup k
  end.
Definition gtexts (G : list axis) (ks : list gkey) : list vcell := map (fun p => VText (text_of (gkey_d (fst p) (snd p)))) (combine G ks).

Lemma group_as_bin a : is_group a = true -> as_bin a = a.
Proof. destruct a; try discriminate; reflexivity. Qed.
Lemma mapM_pairing {A B C} (f : B -> res C) (R : A -> B -> Prop) (S : A -> C -> Prop) l m :
  Forall2 R l m -> (forall x y, In x l -> R x y -> exists z, f y = Ok z /\ S x z) -> exists zs : list C, mapM f m = Ok zs /\ Forall2 S l zs.
Proof.
  induction 1 as [|x y l m Hxy F IH]; intros H; [exists []; split; [reflexivity|constructor]|].
  destruct (H x y) as (z & E & Hz); [left; auto|auto|]. destruct IH as (zs & Es & Fs); [intros; apply H; auto; right; auto|].
  exists (z :: zs). cbn [mapM]. rewrite E. cbn [bind]. rewrite Es. split; [reflexivity|constructor; auto].
Qed.
Lemma items_group a (sh : list nat) (g : list Num -> list Num) (l : list (gkey * content)) : is_group a = true ->
  NoDup (map fst l) -> Forall key_ok (map fst l) -> (forall x y, In x (map fst l) -> In y (map fst l) -> is_str x = is_str y) ->
  (forall e w org nf cl k, a = AGroupbin e w org nf cl -> In k (map fst l) -> exists x, k = GNum x) ->
  exists ps, items a (PDict (map (fun kv => (fst kv, tmap sh g (snd kv))) l)) = Ok ps /\
    Forall2 (fun k p => exists x, assoc k l = Some x /\ p = (gkey_d a k, tmap sh g x)) (sort_keys (map fst l)) ps.
Proof.
  intros Hg Hnd Hok Hsame Hnum.
  assert (E : items a (PDict (map (fun kv => (fst kv, tmap sh g (snd kv))) l)) =
    do ks <- py_sorted (map fst l);
      mapM (fun k => do x <- lookup k (map (fun kv => (fst kv, tmap sh g (snd kv))) l);
                     match a with
                     | AGroupbin _ w _ _ cl => match k with GNum n => Ok (DBin (KIv n (nadd n w) cl (negb cl)), x) | GStr _ => Err TypeError end
                     | _ => Ok (DGroup k, x)
                     end) ks).
  { replace (map fst l) with (map fst (map (fun kv => (fst kv, tmap sh g (snd kv))) l)) by (rewrite map_map; reflexivity). destruct a; try discriminate; reflexivity. }
  rewrite E, py_sorted_ok by auto. cbn [bind]. apply mapM_each. intros k Hk. apply (Permutation_in _ (sort_keys_perm (map fst l))) in Hk.
  assert (Hkk : key_ok k) by (rewrite Forall_forall in Hok; auto).
  destruct (assoc_present l k Hkk Hk) as (x & Ex). unfold lookup. rewrite assoc_map, Ex. cbn [option_map bind].
  destruct a; try discriminate; cbn [gkey_d].
  - eexists. split; [reflexivity|]. exists x. auto.
  - destruct (Hnum _ _ _ _ _ k eq_refl Hk) as (n & ->). eexists. split; [reflexivity|]. exists x. auto.
Qed.

Section Groups.
  Variables (l : last1d) (lastj : nat) (L : layout) (sh : list nat) (g : list Num -> list Num) (F : list axis) (j0 : nat).
  Hypothesis Hg : forall d, length (g d) = prodn sh.
  Definition run (row : list vcell) (d : list Num) : out := match recurse l lastj j0 F (PArr sh d) row false with Ok o => o | Err _ => out_none end.
  Hypothesis Hrun : forall row d, length d = prodn sh -> recurse l lastj j0 F (PArr sh d) row false = Ok (run row d).

  Definition group_out (G : list axis) (c : content) (row : list vcell) (o : out) (gs : list (list gkey)) : Prop :=
    StronglySorted keys_before gs /\ (forall ks, In ks gs <-> block c ks <> None) /\ Forall (fun ks => length ks = length G) gs /\
    w_rows o = flat_map (fun ks => w_rows (run (row ++ gtexts G ks) (g (block_data c ks)))) gs /\
    w_shifts o = flat_map (fun ks => w_shifts (run (row ++ gtexts G ks) (g (block_data c ks)))) gs.

  Lemma join_groups a G row (lc : list (gkey * content)) : forall ks os,
    StronglySorted (fun x y => gkey_ltb x y = true) ks ->
    Forall2 (fun k o => exists x gs, assoc k lc = Some x /\ group_out G x (row ++ [VText (text_of (gkey_d a k))]) o gs) ks os ->
    exists gs, StronglySorted keys_before gs /\ (forall p, In p gs <-> exists k p', p = k :: p' /\ In k ks /\ block (CDict lc) p <> None) /\
      Forall (fun ks => length ks = length (a :: G)) gs /\
      w_rows (outs os) = flat_map (fun ks => w_rows (run (row ++ gtexts (a :: G) ks) (g (block_data (CDict lc) ks)))) gs /\
      w_shifts (outs os) = flat_map (fun ks => w_shifts (run (row ++ gtexts (a :: G) ks) (g (block_data (CDict lc) ks)))) gs.
  Proof.
    intros ks os Hs R. induction R as [|k o ks os (x & gs & Ex & E1 & E2 & E3 & E4 & E5) R IH].
    - exists []. split; [constructor|]. split; [|split; [constructor|split; reflexivity]]. intros p. split; [contradiction|]. intros (? & ? & _ & [] & _).
    - inversion Hs as [|? ? Hs' Hk]; subst. destruct (IH Hs') as (gs' & F1 & F2 & F3 & F4 & F5). clear IH.
      assert (EB : forall p, block (CDict lc) (k :: p) = block x p) by (intros p; cbn; rewrite Ex; reflexivity).
      exists (map (cons k) gs ++ gs'). split; [|split; [|split; [|split]]].
      + apply sorted_app; auto.
        * apply (sorted_map keys_before); auto. intros; apply keys_before_cons; auto.
        * intros p q Hp Hq. apply in_map_iff in Hp. destruct Hp as (p' & <- & _). apply F2 in Hq. destruct Hq as (k' & q' & -> & Hk' & _).
          exists [], k, k', p', q'. split; auto. split; auto. rewrite Forall_forall in Hk. auto.
      + intros p. rewrite in_app_iff, in_map_iff, F2. split.
        * intros [(p' & <- & Hp)|(k' & p' & -> & Hk' & Hb)].
          -- exists k, p'. split; auto. split; [left; auto|]. rewrite EB. apply E2. auto.
          -- exists k', p'. split; auto. split; auto. right. auto.
        * intros (k' & p' & -> & [<-|Hk'] & Hb).
          -- left. exists p'. split; auto. apply E2. rewrite <- EB. auto.
          -- right. eauto.
      + apply Forall_app. split; auto. apply Forall_map. eapply Forall_impl; [|exact E3]. cbn. intros; lia.
      + change (outs (o :: os)) with (out_app o (outs os)). cbn [out_app w_rows]. rewrite E4, F4, flat_map_app, flat_map_map. f_equal. apply flat_map_ext. intros p.
        unfold block_data. rewrite EB. rewrite <- app_assoc. reflexivity.
      + change (outs (o :: os)) with (out_app o (outs os)). cbn [out_app w_shifts]. rewrite E5, F5, flat_map_app, flat_map_map. f_equal. apply flat_map_ext. intros p.
        unfold block_data. rewrite EB. rewrite <- app_assoc. reflexivity.
  Qed.

  Lemma recurse_groups G : Forall (fun a => is_group a = true) G -> forall j row c, j + length G = j0 -> (quantitative l = true -> j0 <= lastj) ->
    content_ok L (length G) c -> comparable c -> number_keys G c ->
    exists o gs, recurse l lastj j (G ++ F) (tmap sh g c) row false = Ok o /\ group_out G c row o gs.
  Proof.
    induction 1 as [|a G Ha HG IH]; intros j row c Hj HQ Hc Hcmp Hnk.
    - destruct c as [|d|lc]; try contradiction. cbn [tmap app length] in *. rewrite Nat.add_0_r in Hj.
      exists (run row (g d)), [[]]. split; [rewrite Hj; apply Hrun; auto|]. split; [repeat constructor|]. split; [|split; [repeat constructor|]].
      + intros [|k ks]; cbn; split; auto; try congruence. intros [X|[]]; discriminate.
      + cbn [flat_map]. unfold gtexts. cbn [combine map block_data block]. rewrite !app_nil_r. auto.
    - destruct c as [|d|lc]; try contradiction. cbn [length content_ok] in Hc. destruct Hc as (Hc & Hnd & Hok).
      assert (Hkeys : forall k, In k (map fst lc) -> key_at (CDict lc) [] k) by (intros k Hk; exists lc; auto).
      assert (Hsame : forall x y, In x (map fst lc) -> In y (map fst lc) -> is_str x = is_str y) by (intros x y Hx Hy; apply (Hcmp []); auto).
      rewrite tmap_dict. cbn [app recurse]. rewrite group_as_bin by auto.
      destruct (items_group a sh g lc Ha Hnd Hok Hsame) as (ps & E & R).
      { intros e w org nf cl k -> Hk. apply (Hnk [] k e w org nf cl); auto. }
      assert (Ek : keys_of a (PDict (map (fun kv => (fst kv, tmap sh g (snd kv))) lc)) = Ok (map fst ps)).
      { transitivity (rmap (map fst) (items a (PDict (map (fun kv => (fst kv, tmap sh g (snd kv))) lc)))); [destruct a; try discriminate; reflexivity|]. rewrite E. reflexivity. }
      rewrite Ek, E. cbn [bind].
      assert (Ej : Nat.eqb j lastj && quantitative l = false).
      { destruct (quantitative l); [|apply andb_false_r]. rewrite andb_true_r. apply Nat.eqb_neq. specialize (HQ eq_refl). cbn [length] in Hj. lia. }
      match goal with |- context [mapM ?f ps] => destruct (mapM_pairing f _
        (fun k o => exists x gs, assoc k lc = Some x /\ group_out G x (row ++ [VText (text_of (gkey_d a k))]) o gs) _ _ R) as (os & Em & Fo) end.
      { intros k p Hk (x & Ex & ->). destruct (IH (S j) (row ++ [VText (text_of (gkey_d a k))]) x) as (o & gs & Er & Ho).
        - cbn [length] in Hj. lia.
        - auto.
        - rewrite Forall_forall in Hc. apply assoc_in in Ex. apply (Hc _ Ex).
        - intros p k1 k2 (l1 & S1 & I1) (l2 & S2 & I2). apply (Hcmp (k :: p)); [exists l1|exists l2]; rewrite (sub_assoc _ _ _ _ Ex); auto.
        - intros p k1 e w org nf cl (l1 & S1 & I1) Hn. apply (Hnk (k :: p) k1 e w org nf cl); auto. exists l1. rewrite (sub_assoc _ _ _ _ Ex). auto.
        - exists o. split; [|exists x, gs; auto]. destruct (gkey_d a k) as [?|[]]; cbn beta iota; try rewrite Ej; exact Er. }
      rewrite Em. cbn [bind]. destruct (join_groups a G row lc (sort_keys (map fst lc)) os) as (gs & F1 & F2 & F3 & F4 & F5); auto.
      { apply sort_keys_sorted; auto. }
      eexists _, gs. split; [reflexivity|]. split; [exact F1|]. split; [|split; [exact F3|split; [exact F4|exact F5]]].
      intros p. rewrite F2. split; [intros (k & p' & -> & _ & H); auto|]. intros Hb. destruct p as [|k p]; [cbn in Hb; congruence|]. exists k, p. split; auto. split; auto.
      apply (Permutation_in _ (Permutation_sym (sort_keys_perm (map fst lc)))). cbn in Hb. destruct (assoc k lc) as [x|] eqn:Ex; [|congruence]. apply assoc_in in Ex. apply (in_map fst) in Ex. exact Ex.
  Qed.
End Groups.
