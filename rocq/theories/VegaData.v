(** The data of a plot: all rows *)
From Coq Require Import String Sorted Permutation Lia.
From Verif Require Import Base Num NumFacts Axis AxisSpec AxisProofs AxisMain Calc Content Fill FillSpec FillProofs FillProofs2 FillProofs3 FillMain
  Tree Order Expr ExprFacts InstrSpec Elem HistFill HistSpec KeySpec HistAlg AlgSpec HistAlgProofs HistAlgMain CompareProofs
  Nd NdProofs Proj ProjSpec ProjProofs ProjMain Select Table TableSpec TableProofs Pandas PandasSpec PandasProofs PandasMain Vega VegaSpec VegaProofs VegaGroups VegaAxis VegaMain.
Local Open Scope list_scope.
Local Open Scope nat_scope.

Lemma flat_map_filter {A B} (b : A -> bool) (f : A -> B) (v : B -> bool) l :
  flat_map (fun x => filter v (if b x then [f x] else [])) l = filter v (map f (filter b l)).
Proof. induction l as [|x l IH]; auto. cbn [flat_map filter]. destruct (b x); cbn [map filter]; [|exact IH]. destruct (v (f x)); cbn [app]; rewrite IH; reflexivity. Qed.
Lemma filter_map_comm {A B} (f : A -> B) (v : B -> bool) (w : A -> bool) l : (forall x, v (f x) = w x) -> map f (filter w l) = filter v (map f l).
Proof. intros H. induction l as [|x l IH]; auto. cbn [filter map]. rewrite H. destruct (w x); cbn [map]; rewrite IH; reflexivity. Qed.
Lemma perm_filter {A} (v : A -> bool) l m : Permutation l m -> Permutation (filter v l) (filter v m).
Proof.
  induction 1 as [|x l m P IH|x y l|l m n P1 IH1 P2 IH2]; auto; cbn [filter].
  - destruct (v x); auto.
  - destruct (v x), (v y); auto. apply perm_swap.
  - etransitivity; eauto.
Qed.
Lemma forall2_map_r {A B} (R : A -> B -> Prop) (f : A -> B) l : (forall x, In x l -> R x (f x)) -> Forall2 R l (map f l).
Proof. induction l as [|x l IH]; intros H; constructor; [apply H; left; auto|apply IH; intros; apply H; right; auto]. Qed.

Section Rows.
  Variables (h : hobj) (l : last1d) (id : option string) (T : pv) (k : nat) (g : list Num -> list Num) (numbers : place -> list Num) (j : nat).
  Let G := o_group h.
  Let F := o_fixed h.
  Let tots := tots_of F.
  Hypothesis Hok : hobj_ok h.
  Hypothesis HG : Forall axis_fine G.
  Hypothesis HF : Forall axis_fine F.
  Hypothesis Hcmp : comparable (o_content h).
  Hypothesis Hre : real_groups G (o_content h).
  Hypothesis Hnk : number_keys G (o_content h).
  Hypothesis Hk : 0 < k.
  Hypothesis HT : T = tmap (tots ++ [k]) g (started h).
  Hypothesis Hg : forall d, length (g d) = prodn (tots ++ [k]).
  Hypothesis Hrow : forall ks ss, has_group h ks -> Forall2 lt ss tots -> bin_row T ks ss = Some (numbers (ks, ss)).
  Hypothesis Hj : nth_error (G ++ F) j = Some (c_axis l).

  Definition make (S : list (Num * Num)) (row : list vcell) : datum :=
    {| d_id := id; d_row := row; d_centre := if c_error l && is_baseline (c_kind l) then option_map (shift S) (nth_error row j) else None |}.
  Definition vrow (row : list vcell) : bool :=
    negb (c_log l) || match nth_error row (length (G ++ F)) with Some (VNumber y) => nltb nzero y | _ => false end.

  Lemma fixed_is : Forall (fun a => is_fixed a = true) F.
  Proof. apply Hok. Qed.
  Lemma groups_are : Forall (fun a => is_group a = true) G.
  Proof. apply Hok. Qed.
  Lemma all_listed : Forall listed F.
  Proof. pose proof fixed_is as H. rewrite Forall_forall in *. intros a Ha. apply fine_listed; auto. Qed.
  Lemma kept_filter row ns : length row = length (G ++ F) -> ns <> [] -> kept l row ns = filter vrow [row ++ map VNumber ns].
  Proof.
    intros Hl Hn. destruct ns as [|y ns]; [contradiction|]. unfold kept, keeps, vrow. cbn [filter map]. rewrite nth_error_app2, Hl, Nat.sub_diag by lia. cbn [nth_error].
    rewrite orb_comm. destruct (negb (c_log l) || nltb nzero y); reflexivity.
  Qed.
  Lemma number_row ks ss : has_group h ks -> Forall2 lt ss tots -> nums k tots (g (block_data (started h) ks)) ss = numbers (ks, ss).
  Proof.
    intros Hgk Hs. specialize (Hrow ks ss Hgk Hs). rewrite HT in Hrow. unfold bin_row in Hrow. rewrite table_block_tmap in Hrow. unfold block_data. apply started_group in Hgk; auto.
    destruct (block (started h) ks) as [d|]; [|congruence]. cbn [option_map] in Hrow. rewrite last_last in Hrow. injection Hrow as <-. reflexivity.
  Qed.
  Lemma nums_ne d ss : nums k tots d ss <> [].
  Proof. unfold nums. destruct k; [lia|]. discriminate. Qed.
  Lemma started_numbers : number_keys G (started h).
  Proof. intros p x e w org nf cl Hp Hn. apply (Hnk p x e w org nf cl); auto. apply started_key; auto. Qed.
  Lemma keys_named ks : has_group h ks -> length ks = length G -> keys_fine G ks.
  Proof.
    intros H Hl. apply started_group in H; auto. apply (groups_fine G (started h)); auto; [apply groups_are|apply started_real; auto|apply started_numbers].
  Qed.
  Lemma places_fine gs ks ss : StronglySorted keys_before gs -> (forall p, In p gs <-> block (started h) p <> None) -> Forall (fun p => length p = length G) gs ->
    In (ks, ss) (places_of tots gs) -> has_group h ks /\ keys_fine G ks /\ Forall2 lt ss tots.
  Proof.
    intros _ Hgs Hl Hin. apply places_in in Hin. destruct Hin as (H1 & H2). rewrite Forall_forall in Hl. pose proof (Hl ks H1). apply Hgs in H1. apply started_group in H1; auto. split; auto. split; auto. apply keys_named; auto.
  Qed.
  Lemma places_all gs : StronglySorted keys_before gs -> (forall p, In p gs <-> block (started h) p <> None) -> all_places (has_group h) (map totbins F) (places_of tots gs).
  Proof.
    intros H1 H2. split; [|apply places_sorted; auto]. intros ks ss. rewrite places_in, H2, started_group by auto. reflexivity.
  Qed.

  (** ** Categories *)
  Lemma category_rows : quantitative l = false ->
    exists o, recurse l j 0 (G ++ F) T [] false = Ok o /\ category_data G F id l j numbers (has_group h) (map (make (w_shifts o)) (w_rows o)).
  Proof.
    intros HQ.
    assert (Hplain : forall row d, length d = prodn (tots ++ [k]) -> exists o, recurse l j (length G) F (PArr (tots ++ [k]) d) row false = Ok o /\ w_shifts o = [] /\
      w_rows o = flat_map (fun ss => kept l (row ++ texts F ss) (nums k tots d ss)) (indices tots)).
    { intros row d Hd. apply (fixed_plain l j k Hk F all_listed (length G) d row false); auto. congruence. }
    destruct (recurse_groups l j (o_layout h) (tots ++ [k]) g F (length G) Hg) with (G := G) (j := 0) (row := @nil vcell) (c := started h) as (o & gs & E & H1 & H2 & H3 & H4 & H5).
    - intros row d Hd. unfold run. destruct (Hplain row d Hd) as (o & -> & _). reflexivity.
    - apply groups_are.
    - reflexivity.
    - congruence.
    - apply started_ok; auto.
    - apply started_comparable; auto.
    - apply started_numbers.
    - exists o. rewrite HT. split; [exact E|].
      assert (Hruns : forall row d, length d = prodn (tots ++ [k]) -> w_shifts (run l j (tots ++ [k]) F (length G) row d) = [] /\
        w_rows (run l j (tots ++ [k]) F (length G) row d) = flat_map (fun ss => kept l (row ++ texts F ss) (nums k tots d ss)) (indices tots)).
      { intros row d Hd. unfold run. destruct (Hplain row d Hd) as (o' & -> & X & Y). auto. }
      assert (ES : w_shifts o = []).
      { rewrite H5. clear - Hruns Hg. induction gs as [|x gs IH]; auto. cbn [flat_map]. rewrite IH. destruct (Hruns ([] ++ gtexts G x) (g (block_data (started h) x)) (Hg _)) as (-> & _). reflexivity. }
      rewrite ES. set (crow := fun p : place => (gtexts G (fst p) ++ texts F (snd p)) ++ map VNumber (numbers p)).
      set (P := places_of tots gs).
      assert (ER : w_rows o = filter vrow (map crow P)).
      { rewrite H4. transitivity (flat_map (fun p : place => filter vrow (if (fun _ => true) p then [crow p] else [])) P).
        - unfold P, places_of. rewrite flat_map_flat_map. apply flat_map_ext_in. intros ks Hks. destruct (Hruns ([] ++ gtexts G ks) (g (block_data (started h) ks)) (Hg _)) as (_ & ->).
          rewrite flat_map_map. apply flat_map_ext_in. intros ss Hss. apply in_indices in Hss.
          assert (Hp : In (ks, ss) (places_of tots gs)) by (apply places_in; auto).
          destruct (places_fine gs ks ss H1 H2 H3 Hp) as (X1 & X2 & X3). cbn [app]. rewrite kept_filter; [|rewrite !app_length, gtexts_length, texts_length; auto; apply X2|apply nums_ne].
          rewrite number_row by auto. reflexivity.
        - etransitivity; [apply (flat_map_filter (fun _ => true) crow vrow P)|]. f_equal. f_equal. clear. induction P as [|x P IH]; auto. cbn [filter]. rewrite IH. reflexivity. }
      exists P, (map (make []) (map crow P)). split; [apply places_all; auto|]. split.
      + rewrite map_map. apply forall2_map_r. intros [ks ss] Hp. destruct (places_fine gs ks ss H1 H2 H3 Hp) as (X1 & X2 & X3).
        exists (gtexts G ks ++ texts F ss). split; [reflexivity|]. split; [reflexivity|]. split; [apply cells_text; auto; apply fixed_is|].
        unfold make, crow. cbn [d_centre fst snd]. destruct (c_error l && is_baseline (c_kind l)); auto.
        assert (Hjl : j < length (gtexts G ks ++ texts F ss)).
        { rewrite app_length, gtexts_length, texts_length; auto; [|apply X2]. rewrite <- app_length. apply nth_error_Some. congruence. }
        rewrite nth_error_app1 by auto. destruct (nth_error (gtexts G ks ++ texts F ss) j) as [[t|x]|] eqn:En; reflexivity.
      + rewrite ER. apply filter_map_comm. reflexivity.
  Qed.

  (** ** Positions *)
  Variable q : nat.
  Hypothesis Hjq : j = length G + q.
  Let a := c_axis l.
  Hypothesis Hwide : c_error l && is_baseline (c_kind l) = true -> first_bin_wide a.
  Lemma numerical_rows : quantitative l = true ->
    exists o, recurse l j 0 (G ++ F) T [] false = Ok o /\ numerical_data G F id l q a numbers (has_group h) (map (make (w_shifts o)) (w_rows o)).
  Proof.
    intros HQ. assert (Hnum : is_number_axis a = true) by (unfold quantitative in HQ; apply andb_true_iff in HQ; tauto).
    assert (Hq : nth_error F q = Some a).
    { rewrite nth_error_app2 in Hj by lia. unfold a. rewrite <- Hj. f_equal. lia. }
    assert (Ha : axis_fine a) by (rewrite Forall_forall in HF; apply HF; eapply nth_error_In; eauto).
    assert (HqF : q < length F) by (apply nth_error_Some; congruence).
    pose proof (fixed_plotted l j k Hk F all_listed) as HP.
    assert (Hplain : forall row d, length d = prodn (tots ++ [k]) -> exists o, recurse l j (length G) F (PArr (tots ++ [k]) d) row false = Ok o /\ shifts_ok l a q F o /\
      Permutation (w_rows o) (flat_map (bins l k a q F row d) (indices tots) ++ flat_map (lows l a q F row) (indices tots) ++ flat_map (highs l a q F row) (indices tots))).
    { intros row d Hd. apply HP; auto. }
    destruct (recurse_groups l j (o_layout h) (tots ++ [k]) g F (length G) Hg) with (G := G) (j := 0) (row := @nil vcell) (c := started h) as (o & gs & E & H1 & H2 & H3 & H4 & H5).
    - intros row d Hd. unfold run. destruct (Hplain row d Hd) as (o & -> & _). reflexivity.
    - apply groups_are.
    - reflexivity.
    - intros _. lia.
    - apply started_ok; auto.
    - apply started_comparable; auto.
    - apply started_numbers.
    - exists o. rewrite HT. split; [exact E|].
      set (rn := run l j (tots ++ [k]) F (length G)) in *.
      assert (Hruns : forall row d, length d = prodn (tots ++ [k]) -> shifts_ok l a q F (rn row d) /\
        Permutation (w_rows (rn row d)) (flat_map (bins l k a q F row d) (indices tots) ++ flat_map (lows l a q F row) (indices tots) ++ flat_map (highs l a q F row) (indices tots))).
      { intros row d Hd. unfold rn, run. destruct (Hplain row d Hd) as (o' & -> & X & Y). auto. }
      clear HP Hplain E. cbn [app] in H4, H5. set (P := places_of tots gs).
      (* the three kinds of rows *)
      set (brow := fun p : place => (gtexts G (fst p) ++ pcells q (ipos l a (slot q p)) F (snd p)) ++ map VNumber (numbers p)).
      set (lrow := fun p : place => (gtexts G (fst p) ++ pcells q (lo_of a (slot q p)) F (snd p)) ++ map VNumber (zeros2 l)).
      set (hrow := fun p : place => (gtexts G (fst p) ++ pcells q (hi_of a (slot q p)) F (snd p)) ++ map VNumber (zeros2 l)).
      set (bl := fun p => is_baseline (c_kind l) && is_first q a p). set (bh := fun p => is_baseline (c_kind l) && is_last q a p).
      assert (Eends : forall s, iends a s = bin_ends a s) by (intros s; apply iends_eq; auto).
      assert (Efirst : forall p, first_slot a (slot q p) = is_first q a p).
      { intros p. unfold first_slot, is_first, drawn, ends. rewrite Eends, ends_low by auto. destruct (bin_ends a (slot q p)) as [[]|]; reflexivity. }
      assert (Elast : forall p, last_slot a (slot q p) = is_last q a p).
      { intros p. unfold last_slot, is_last, drawn, ends. rewrite Eends, ends_high by auto. destruct (bin_ends a (slot q p)) as [[]|]; reflexivity. }
      assert (Eat : forall p, lo_of a (slot q p) = fst (ends q a p) /\ hi_of a (slot q p) = snd (ends q a p) /\ ipos l a (slot q p) = at_position l q a p).
      { intros p. assert (X : lo_of a (slot q p) = fst (ends q a p) /\ hi_of a (slot q p) = snd (ends q a p)).
        { unfold lo_of, hi_of, ends. rewrite Eends. destruct (bin_ends a (slot q p)) as [[]|]; auto. }
        destruct X as (X & Y). split; auto. split; auto. unfold ipos, at_position. rewrite Efirst, X, Y, ends_low, ends_high by auto. reflexivity. }
      assert (HPin : forall p, In p P -> keys_fine G (fst p) /\ Forall2 lt (snd p) tots /\ has_group h (fst p)).
      { intros [ks ss] Hp. destruct (places_fine gs ks ss H1 H2 H3 Hp) as (X1 & X2 & X3). auto. }
      assert (Hlen : forall p x, In p P -> length (gtexts G (fst p) ++ pcells q x F (snd p)) = length (G ++ F)).
      { intros p x Hp. destruct (HPin p Hp) as (X & Y & _). rewrite !app_length, gtexts_length, pcells_length; auto. apply X. }
      assert (ER : Permutation (w_rows o) (filter vrow (map brow (filter (drawn q a) P) ++ map lrow (filter bl P) ++ map hrow (filter bh P)))).
      { rewrite H4. etransitivity; [apply perm_flat_map; intros ks _; apply (Hruns (gtexts G ks) (g (block_data (started h) ks)) (Hg _))|].
        etransitivity; [apply (perm_three (fun ks => flat_map (bins l k a q F (gtexts G ks) (g (block_data (started h) ks))) (indices tots))
          (fun ks => flat_map (lows l a q F (gtexts G ks)) (indices tots)) (fun ks => flat_map (highs l a q F (gtexts G ks)) (indices tots)))|].
        assert (Ej : forall f : list gkey -> list nat -> list (list vcell), flat_map (fun ks => flat_map (f ks) (indices tots)) gs = flat_map (fun p : place => f (fst p) (snd p)) P).
        { intros f. unfold P, places_of. rewrite flat_map_flat_map. apply flat_map_ext. intros ks. rewrite flat_map_map. reflexivity. }
        rewrite (Ej (fun ks => bins l k a q F (gtexts G ks) (g (block_data (started h) ks)))), (Ej (fun ks => lows l a q F (gtexts G ks))), (Ej (fun ks => highs l a q F (gtexts G ks))). rewrite !filter_app. rewrite <- !flat_map_filter.
        assert (Ez : zeros2 l <> []) by (unfold zeros2; destruct (c_error l); discriminate).
        apply Permutation_refl'. f_equal; [|f_equal]; apply flat_map_ext_in; intros p Hp; destruct (HPin p Hp) as (X1 & X2 & X3).
        - unfold bins. change (nth q (snd p) 0) with (slot q p). rewrite Eends. unfold drawn. destruct (bin_ends a (slot q p)) as [e|]; [|reflexivity].
          fold tots. rewrite kept_filter by (auto; apply nums_ne). rewrite number_row by auto. unfold brow. destruct p; reflexivity.
        - unfold lows, bl. change (nth q (snd p) 0) with (slot q p). rewrite Efirst. destruct (is_baseline (c_kind l) && is_first q a p); [|reflexivity]. rewrite kept_filter by auto. reflexivity.
        - unfold highs, bh. change (nth q (snd p) 0) with (slot q p). rewrite Elast. destruct (is_baseline (c_kind l) && is_last q a p); [|reflexivity]. rewrite kept_filter by auto. reflexivity. }
      (* the shifts *)
      set (S := w_shifts o).
      assert (HS1 : found l a S).
      { intros x y Hin. unfold S in Hin. rewrite H5 in Hin. apply in_flat_map in Hin. destruct Hin as (ks & _ & Hin). destruct (Hruns (gtexts G ks) (g (block_data (started h) ks)) (Hg _)) as ((X & _) & _).
        destruct (X x y Hin) as (_ & s & _ & X1 & X2 & X3). exists s. auto. }
      assert (HS2 : c_error l && is_baseline (c_kind l) = true -> forall p, In p P -> drawn q a p = true -> In (ipos l a (slot q p), middle (lo_of a (slot q p)) (hi_of a (slot q p))) S).
      { intros Hb [ks ss] Hp Hd. unfold S. rewrite H5. apply in_flat_map. unfold P in Hp. apply places_in in Hp. destruct Hp as (Hks & Hss). exists ks. split; auto.
        destruct (Hruns (gtexts G ks) (g (block_data (started h) ks)) (Hg _)) as ((_ & X) & _). apply (X Hb ss); [apply in_indices; auto|]. change (nth q ss 0) with (slot q (ks, ss)). rewrite Eends.
        unfold drawn in Hd. destruct (bin_ends a (slot q (ks, ss))); [discriminate|discriminate]. }
      assert (Hdr : forall p, drawn q a p = true -> iends a (slot q p) <> None).
      { intros p. rewrite Eends. unfold drawn. destruct (bin_ends a (slot q p)); discriminate. }
      assert (Hnthj : forall p x ns, In p P -> nth_error ((gtexts G (fst p) ++ pcells q x F (snd p)) ++ map VNumber ns) j = Some (VNumber x)).
      { intros p x ns Hp. destruct (HPin p Hp) as (X1 & X2 & _). rewrite nth_error_app1 by (rewrite Hlen by auto; apply nth_error_Some; congruence).
        rewrite nth_error_app2; rewrite gtexts_length by apply X1; [|lia]. replace (j - length G) with q by lia. rewrite pcells_nth, Nat.eqb_refl by auto. reflexivity. }
      assert (Hsay : forall p x c ns, In p P -> (c_error l && is_baseline (c_kind l) = true -> shift S (VNumber x) = VNumber c) ->
        says G F id (Some (q, x)) (error_bar l c) ns p (make S ((gtexts G (fst p) ++ pcells q x F (snd p)) ++ map VNumber ns))).
      { intros p x c ns Hp Hs. destruct (HPin p Hp) as (X1 & X2 & _). eexists. split; [reflexivity|]. split; [reflexivity|]. split.
        - destruct p as [ks ss]. apply cells_number; auto. apply fixed_is.
        - unfold make, error_bar. cbn [d_centre]. rewrite Hnthj by auto. destruct (c_error l && is_baseline (c_kind l)); [|reflexivity]. cbn [option_map]. rewrite Hs by auto. reflexivity. }
      exists P, (map (make S) (map brow (filter (drawn q a) P))), (map (make S) (map lrow (filter bl P))), (map (make S) (map hrow (filter bh P))).
      split; [apply places_all; auto|]. split; [|split].
      + rewrite map_map. apply forall2_map_r. intros p Hp. apply filter_In in Hp. destruct Hp as (Hp & Hd). destruct (Eat p) as (E1 & E2 & E3). unfold bin_datum. rewrite <- E1, <- E2, <- E3.
        apply Hsay; auto. intros Hb. pose proof Hb as Hb'. apply andb_true_iff in Hb'. apply shift_bin; auto; tauto.
      + destruct (is_baseline (c_kind l)) eqn:EB.
        * unfold bl, bh. try rewrite EB. cbn [andb]. rewrite !map_map. split.
          -- apply forall2_map_r. intros p Hp. apply filter_In in Hp. destruct Hp as (Hp & Hd). destruct (Eat p) as (E1 & E2 & E3). unfold low_datum. rewrite <- E1. apply Hsay; auto.
             intros Hb. try rewrite EB in Hb. apply (shift_end l a Ha Hnum EB); auto. left. rewrite E1. unfold is_first in Hd. apply andb_true_iff in Hd. apply neqb_eq, Hd.
          -- apply forall2_map_r. intros p Hp. apply filter_In in Hp. destruct Hp as (Hp & Hd). destruct (Eat p) as (E1 & E2 & E3). unfold high_datum. rewrite <- E2. apply Hsay; auto.
             intros Hb. try rewrite EB in Hb. apply (shift_end l a Ha Hnum EB); auto. right. rewrite E2. unfold is_last in Hd. apply andb_true_iff in Hd. apply neqb_eq, Hd.
        * assert (X : forall P' : list place, filter (fun _ => false) P' = []) by (induction P'; auto). unfold bl, bh. try rewrite EB. cbn [andb]. rewrite !X. auto.
      + etransitivity; [apply Permutation_map; exact ER|]. rewrite <- !map_app. apply Permutation_refl'. apply filter_map_comm. reflexivity.
  Qed.
End Rows.

Section Data.
  Variables (sqrt : Num -> Num) (bin_width : nat -> Num -> Num -> Num).
  Lemma index_of_in x : forall l, In x l -> nan_free_axis x -> exists i, index_of x l = Some i /\ nth_error l i = Some x.
  Proof.
    induction l as [|y t IH]; intros Hin Hn; [contradiction|]. cbn [index_of]. destruct (axis_eqb y x) eqn:E.
    - apply axis_eqb_eq in E. subst. exists 0. auto.
    - destruct Hin as [->|Hin]; [rewrite axis_eqb_refl in E by auto; discriminate|]. destruct (IH Hin Hn) as (i & -> & Hi). exists (S i). auto.
  Qed.
  Lemma projected_axis h g axes x : project (view h) axes = Ok (view g) -> hobj_ok h -> In x axes -> In x (o_group g ++ o_fixed g) /\ nan_free_axis x.
  Proof.
    unfold project. intros E Hok Hx. destruct (negb (all_in axes (o_group (p_head (view h)) ++ o_fixed (p_head (view h))))) eqn:Ea; [discriminate|].
    apply negb_false_iff in Ea. unfold all_in in Ea. rewrite forallb_forall in Ea. specialize (Ea x Hx). apply existsb_exists in Ea. destruct Ea as (y & Hy & Ey). apply axis_eqb_iff in Ey. destruct Ey as (<- & Hn). split; auto.
    change (p_head (view h)) with (with_content h CNone) in *. cbn [o_group o_fixed with_content] in *.
    assert (Ehd : p_head (view g) = rebuild (with_content h CNone) (filter (fun x => axis_in x axes) (o_group h ++ o_fixed h) ++ o_prof h)).
    { match type of E with context [match ?c with PNone => _ | _ => _ end] => destruct c eqn:Ec end; try (destruct (projcontent _ _ _) as [c'|] eqn:Ep; [|discriminate E]; cbn [bind] in E); pose proof (f_equal (fun r => match r with Ok x => p_head x | Err _ => with_content h CNone end) E) as E1; cbn [p_head] in E1; symmetry; exact E1. }
    change (p_head (view g)) with (with_content g CNone) in Ehd.
    assert (E1 := f_equal o_group Ehd). assert (E2 := f_equal o_fixed Ehd). cbn [o_group o_fixed with_content rebuild] in E1, E2. rewrite E1, E2.
    assert (Hin : In x (filter (fun x => axis_in x axes) (o_group h ++ o_fixed h) ++ o_prof h)).
    { apply in_or_app. left. apply filter_In. split; auto. apply existsb_exists. exists x. split; auto. apply axis_eqb_refl; auto. }
    destruct Hok as (HG & HF & _). rewrite Forall_forall in HG, HF. apply in_or_app. apply in_app_or in Hy. destruct Hy as [Hy|Hy]; [left|right]; apply filter_In; auto.
  Qed.
  (** The data, when the rows of the table are [numbers]. *)
  Lemma data1d_rows h g p id T gf numbers : let l := p1_last p in
    let o := {| t_count := no_profile (c_profile l); t_effcount := false; t_error := c_error l; t_normalized := c_normalized l; t_recarray := false |} in
    let k := length (table_columns o (profiles (c_profile l))) in
    hobj_ok h -> project (view h) (map ch_axis (p1_chain p) ++ [c_axis l]) = Ok (view g) ->
    hobj_ok g -> Forall axis_fine (o_group g) -> Forall axis_fine (o_fixed g) ->
    comparable (o_content g) -> real_groups (o_group g) (o_content g) -> number_keys (o_group g) (o_content g) ->
    (quantitative l = true -> c_error l && is_baseline (c_kind l) = true -> first_bin_wide (c_axis l)) ->
    table sqrt bin_width (view g) o (profiles (c_profile l)) = Ok (T, table_columns o (profiles (c_profile l))) ->
    T = tmap (l_tots (o_layout g) ++ [k]) gf (started g) -> (forall d, length (gf d) = prodn (l_tots (o_layout g)) * k) ->
    (forall ks ss, has_group g ks -> in_shape (o_layout g) ss -> bin_row T ks ss = Some (numbers (ks, ss))) ->
    exists data domains, data1d sqrt bin_width (view h) p id = Ok (o_group g ++ o_fixed g, data, domains) /\
      if quantitative l
      then exists q, nth_error (o_fixed g) q = Some (c_axis l) /\ numerical_data (o_group g) (o_fixed g) id l q (c_axis l) numbers (has_group g) data
      else exists j, nth_error (o_group g ++ o_fixed g) j = Some (c_axis l) /\ category_data (o_group g) (o_fixed g) id l j numbers (has_group g) data.
  Proof.
    intros l o k Hokh EP Hok HG HF Hcmp Hre Hnk Hw ET ETm Hgf Hrow. unfold data1d. fold l. rewrite EP. cbn [bind]. fold o.
    rewrite ET. cbn [bind fst]. change (o_group (p_head (view g))) with (o_group g). change (o_fixed (p_head (view g))) with (o_fixed g).
    destruct (projected_axis h g (map ch_axis (p1_chain p) ++ [c_axis l]) (c_axis l) EP Hokh) as (Hin & Hnan); [apply in_or_app; right; left; auto|].
    destruct (index_of_in _ _ Hin Hnan) as (j & Ej & Hj). unfold position. rewrite Ej. cbn [bind].
    assert (Hk : 0 < k).
    { unfold k, table_columns, o. cbn [t_count t_effcount t_error]. destruct (c_profile l); cbn [no_profile profiles]; destruct (c_error l); cbn; lia. }
    assert (Hg : forall d, length (gf d) = prodn (tots_of (o_fixed g) ++ [k])).
    { intros d. rewrite Hgf, prod_app1. reflexivity. }
    assert (Hrow' : forall ks ss, has_group g ks -> Forall2 lt ss (tots_of (o_fixed g)) -> bin_row T ks ss = Some (numbers (ks, ss))).
    { intros ks ss H1 H2. apply Hrow; auto. }
    destruct (quantitative l) eqn:HQ.
    - assert (Hjg : length (o_group g) <= j).
      { destruct (Nat.le_gt_cases (length (o_group g)) j) as [X|X]; auto. exfalso. rewrite nth_error_app1 in Hj by auto. apply nth_error_In in Hj. destruct Hok as (HGg & _). rewrite Forall_forall in HGg. specialize (HGg _ Hj).
        unfold quantitative in HQ. destruct (c_axis l); discriminate. }
      destruct (numerical_rows g l id T k gf numbers j Hok HG HF Hcmp Hre Hnk Hk ETm Hg Hrow' Hj (j - length (o_group g)) ltac:(lia) (Hw eq_refl) HQ) as (r & Er & Hd).
      rewrite Er. cbn [bind]. eexists _, _. split; [reflexivity|]. exists (j - length (o_group g)). split; [|exact Hd]. rewrite nth_error_app2 in Hj by auto. auto.
    - destruct (category_rows g l id T k gf numbers j Hok HG HF Hcmp Hre Hnk Hk ETm Hg Hrow' Hj HQ) as (r & Er & Hd).
      rewrite Er. cbn [bind]. eexists _, _. split; [reflexivity|]. exists j. split; auto.
  Qed.
  Lemma data1d_ok h g p id is : hobj_ok h -> project (view h) (map ch_axis (p1_chain p) ++ [c_axis (p1_last p)]) = Ok (view g) ->
    hobj_ok g -> Forall axis_fine (o_group g) -> Forall axis_fine (o_fixed g) ->
    comparable (o_content g) -> real_groups (o_group g) (o_content g) -> number_keys (o_group g) (o_content g) ->
    Forall2 (profile_number g) (profiles (c_profile (p1_last p))) is -> c_normalized (p1_last p) = false ->
    (quantitative (p1_last p) = true -> c_error (p1_last p) && is_baseline (c_kind (p1_last p)) = true -> first_bin_wide (c_axis (p1_last p))) ->
    let l := p1_last p in
    let numbers := fun pl : place => expected_row sqrt g (fst pl) (snd pl) (no_profile (c_profile l)) false (c_error l) is in
    exists data domains, data1d sqrt bin_width (view h) p id = Ok (o_group g ++ o_fixed g, data, domains) /\
      if quantitative l
      then exists q, nth_error (o_fixed g) q = Some (c_axis l) /\ numerical_data (o_group g) (o_fixed g) id l q (c_axis l) numbers (has_group g) data
      else exists j, nth_error (o_group g ++ o_fixed g) j = Some (c_axis l) /\ category_data (o_group g) (o_fixed g) id l j numbers (has_group g) data.
  Proof.
    intros Hokh EP Hok HG HF Hcmp Hre Hnk HPr Hn Hw l numbers.
    destruct (table_ok_shape sqrt bin_width g {| t_count := no_profile (c_profile l); t_effcount := false; t_error := c_error l; t_normalized := c_normalized l; t_recarray := false |}
      (profiles (c_profile l)) is Hok HPr Hn ltac:(discriminate)) as (T & ET & (gf & ETm & Hgf) & _ & Hrow).
    apply (data1d_rows h g p id T gf numbers); auto.
  Qed.
End Data.
