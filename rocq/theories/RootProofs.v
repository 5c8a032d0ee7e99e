(** The bins of ROOT histograms. *)
From Coq Require Import String Permutation.
From Verif Require Import Base Num NumFacts Axis AxisSpec AxisProofs AxisProofs2 AxisMain Calc Content Fill FillSpec FillProofs FillProofs2 FillProofs3 FillMain
  Tree Order Expr InstrSpec Elem HistFill HistSpec KeySpec HistAlg AlgSpec HistAlgProofs HistAlgMain CompareProofs
  Nd NdProofs Proj ProjSpec ProjProofs ProjMain ProjMain2 Select Table TableSpec TableProofs Root RootSpec.
Local Open Scope list_scope.

(** ** The keys of a bin axis and ROOT's bins *)
Section Bins.
  Variables (n : nat) (l h : Qc).
  Hypothesis Hn : 0 < n.
  Hypothesis Hlh : (this l < this h)%Q.
  Lemma root_edge_eq i : root_edge n (Fin l) (Fin h) i = i2x n (Fin l) (Fin h) i.
  Proof.
    unfold root_edge, i2x. destruct (nmul _ _) as [q| | |]; cbn [nadd]; auto. f_equal. qc_eq.
  Qed.
  Lemma same_under cl : same_bin n (Fin l) (Fin h) cl 0 (KIv NInf (Fin l) true (negb cl)).
  Proof.
    intros v Hv Hc. unfold in_root_bin. cbn [contains]. unfold in_interval. split.
    - intros (_ & [H|(H & -> & _)]); [left; auto|]. destruct cl; [discriminate|]. destruct Hc as [Hc|Hc]; [discriminate|]. exfalso. apply Hc. exists 0. split; [lia|].
      rewrite root_edge_eq, i2x_edge, edge_0 by auto. reflexivity.
    - intros [(_ & H)|[(X & _)|(X & _)]]; try lia. split; [|left; auto]. destruct v; auto; try (left; reflexivity); try congruence; right; repeat split; discriminate.
  Qed.
  Lemma same_over cl : same_bin n (Fin l) (Fin h) cl (n + 1) (KIv (Fin h) PInf cl true).
  Proof.
    intros v Hv Hc. unfold in_root_bin. cbn [contains]. unfold in_interval. split.
    - intros ([H|(-> & -> & _)] & _); right; right; split; auto; apply nleb_iff; auto.
    - intros [(X & _)|[(X & _)|(_ & H)]]; try lia. apply nleb_iff in H. split.
      + destruct H as [H|H]; auto. destruct cl; [right; destruct H as (<- & _); repeat split; discriminate|]. exfalso. destruct Hc as [Hc|Hc]; [discriminate|]. apply Hc. exists n. split; auto.
        rewrite root_edge_eq, i2x_edge, edge_n by auto. symmetry. apply H.
      + destruct v; auto; try (left; reflexivity); try congruence; first [right; repeat split; discriminate|destruct H as [H|(H & _)]; discriminate].
  Qed.
  Lemma same_mid cl i : i < n -> same_bin n (Fin l) (Fin h) cl (i + 1) (KIv (i2x n (Fin l) (Fin h) i) (i2x n (Fin l) (Fin h) (i + 1)) cl (negb cl)).
  Proof.
    intros Hi v Hv Hc. unfold in_root_bin. cbn [contains]. unfold in_interval.
    assert (E1 : root_edge n (Fin l) (Fin h) (i + 1 - 1) = i2x n (Fin l) (Fin h) i) by (rewrite root_edge_eq; f_equal; lia).
    rewrite E1, root_edge_eq. split.
    - intros (H1 & H2). right; left. split; [lia|]. split; [apply nleb_iff; destruct H1 as [H1|(_ & -> & H1)]; auto; right; split; auto; rewrite i2x_edge by auto; reflexivity|].
      destruct H2 as [H2|(H2 & -> & _)]; auto.
 destruct cl; [discriminate|]. exfalso. destruct Hc as [Hc|Hc]; [discriminate|]. apply Hc. exists (i + 1). split; [lia|]. rewrite root_edge_eq. auto.
    - intros [(X & _)|[(_ & H1 & H2)|(X & _)]]; try lia. split; auto. apply nleb_iff in H1. destruct H1 as [H1|(H1 & H3)]; auto.
      destruct cl; [right; auto|]. exfalso. destruct Hc as [Hc|Hc]; [discriminate|]. apply Hc. exists i. split; [lia|]. rewrite root_edge_eq. auto.
  Qed.
End Bins.

(** ** The arrays *)
Definition root_slot (n : nat) (u o : bool) (i : nat) : option nat :=
  if Nat.eqb i 0 then (if u then Some 0 else None)
  else if Nat.leb i n then Some (b2n u + (i - 1))
  else if o then Some (b2n u + n) else None.
Definition at_slot (f : nat -> Num) (x : option nat) : Num := match x with Some s => f s | None => nzero end.
Lemma removelast_length {A} (l : list A) : length (removelast l) = length l - 1.
Proof. induction l as [|x [|y l] IH]; auto. cbn [removelast length] in *. rewrite IH. cbn. lia. Qed.
Lemma removelast_nth {A} (l : list A) d : forall i, i < length l - 1 -> nth i (removelast l) d = nth i l d.
Proof.
  induction l as [|x [|y l] IH]; intros i Hi; cbn [length] in Hi; try lia. destruct i as [|i]; auto. change (removelast (x :: y :: l)) with (x :: removelast (y :: l)). cbn [nth].
  apply IH. cbn [length]. lia.
Qed.
Lemma root_array_ok n u o nf f : 0 < n ->
  root_array n u o nf (map f (seq 0 (n + b2n u + b2n o + b2n nf))) = Ok (map (fun i => at_slot f (root_slot n u o i)) (seq 0 (n + 2))).
Proof.
  intros Hn. unfold root_array. set (col := map f (seq 0 (n + b2n u + b2n o + b2n nf))).
  assert (Lc : length col = n + b2n u + b2n o + b2n nf) by (unfold col; rewrite map_length, seq_length; auto).
  set (src := if nf then removelast col else col).
  assert (Ls : length src = n + b2n u + b2n o). { unfold src. destruct nf; [rewrite removelast_length|]; rewrite Lc; cbn [b2n]; lia. }
  assert (Hs : forall i, i < n + b2n u + b2n o -> nth i src nzero = f i).
  { intros i Hi. unfold src. destruct nf; [rewrite removelast_nth by (rewrite Lc; cbn [b2n]; lia)|]; unfold col;
      rewrite nth_indep with (d' := f 0) by (rewrite map_length, seq_length; lia); rewrite map_nth, seq_nth by lia; reflexivity. }
  unfold assign_slice. rewrite Ls. replace (Nat.eqb _ _) with true by (symmetry; apply Nat.eqb_eq; destruct u, o; cbn [b2n]; lia).
  f_equal. apply map_ext_in. intros i Hi. apply in_seq in Hi. unfold root_slot, at_slot.
  destruct (Nat.eqb_spec i 0) as [->|Hi0].
  - destruct u; cbn [Nat.leb andb]; [|reflexivity]. replace (Nat.ltb _ _) with true by (symmetry; apply Nat.ltb_lt; destruct o; lia). rewrite Hs by (cbn [b2n]; lia). reflexivity.
  - replace (Nat.leb (if u then 0 else 1) i) with true by (symmetry; apply Nat.leb_le; destruct u; lia). cbn [andb].
    destruct (Nat.leb_spec i n).
    + replace (Nat.ltb _ _) with true by (symmetry; apply Nat.ltb_lt; destruct o; lia). rewrite Hs by (destruct u; cbn [b2n]; lia). f_equal. destruct u; cbn [b2n]; lia.
    + destruct o.
      * replace (Nat.ltb _ _) with true by (symmetry; apply Nat.ltb_lt; lia). rewrite Hs by (destruct u; cbn [b2n]; lia). f_equal. destruct u; cbn [b2n]; lia.
      * replace (Nat.ltb _ _) with false by (symmetry; apply Nat.ltb_ge; lia). reflexivity.
Qed.
Lemma slots_shown e n l h u o nf cl f : 0 < n -> (this l < this h)%Q ->
  root_shows (ABin e n (Fin l) (Fin h) u o nf cl) f (map (fun i => at_slot f (root_slot n u o i)) (seq 0 (n + 2))).
Proof.
  intros Hn Hlh. cbn [root_shows]. rewrite map_length, seq_length. split; auto.
  assert (Hnth : forall i, i < n + 2 -> nth i (map (fun i => at_slot f (root_slot n u o i)) (seq 0 (n + 2))) nzero = at_slot f (root_slot n u o i)).
  { intros i Hi. rewrite nth_indep with (d' := at_slot f (root_slot n u o 0)) by (rewrite map_length, seq_length; auto).
    rewrite (map_nth (fun i => at_slot f (root_slot n u o i))), seq_nth by auto. reflexivity. }
  split; [|split].
  - intros s k Hk Hkn. cbn [keys] in Hk. unfold keys_bin in Hk.
    assert (Hu : forall {A} (x : A), length (if u then [x] else []) = b2n u) by (intros; destruct u; auto).
    destruct (Nat.ltb_spec s (b2n u)) as [H|H].
    + destruct u; cbn [b2n] in H; [|lia]. assert (s = 0) by lia. subst s. cbn in Hk. inversion Hk; subst k. exists 0. split; [lia|]. split; [apply same_under; auto|]. rewrite Hnth by lia. reflexivity.
    + rewrite nth_error_app2 in Hk by (rewrite Hu; auto). rewrite Hu in Hk. destruct (Nat.ltb_spec (s - b2n u) n) as [H1|H1].
      * rewrite nth_error_app1 in Hk by (rewrite map_length, seq_length; auto).
        assert (E : nth_error (seq 0 n) (s - b2n u) = Some (s - b2n u)). { rewrite nth_error_nth' with (d := 0) by (rewrite seq_length; auto). rewrite seq_nth by auto. reflexivity. }
        rewrite (map_nth_error _ _ _ E) in Hk. inversion Hk; subst k. exists (s - b2n u + 1). split; [lia|]. split; [apply same_mid; auto|]. rewrite Hnth by lia.
        unfold root_slot. destruct (Nat.eqb_spec (s - b2n u + 1) 0); [lia|]. destruct (Nat.leb_spec (s - b2n u + 1) n); [|lia]. cbn [at_slot]. f_equal. lia.
      * rewrite nth_error_app2 in Hk by (rewrite map_length, seq_length; auto). rewrite map_length, seq_length in Hk.
        destruct o.
        -- destruct (s - b2n u - n) as [|j] eqn:Ej; cbn [app nth_error] in Hk.
           ++ inversion Hk; subst k. exists (n + 1). split; [lia|]. split; [apply same_over; auto|]. rewrite Hnth by lia. unfold root_slot. destruct (Nat.eqb_spec (n + 1) 0); [lia|].
              destruct (Nat.leb_spec (n + 1) n); [lia|]. cbn [at_slot]. f_equal. lia.
           ++ destruct nf; [|destruct j; discriminate]. destruct j as [|[|j]]; cbn in Hk; try discriminate. congruence.
        -- cbn [app] in Hk. destruct nf; [|destruct (s - b2n u - n); discriminate]. destruct (s - b2n u - n) as [|[|j]]; cbn in Hk; try discriminate. congruence.
  - intros ->. rewrite Hnth by lia. reflexivity.
  - intros ->. rewrite Hnth by lia. unfold root_slot. destruct (Nat.eqb_spec (n + 1) 0); [lia|]. destruct (Nat.leb_spec (n + 1) n); [lia|]. reflexivity.
Qed.

(** ** The columns of a table with one axis *)
Lemma field_rows g0 G k (row : nat -> list Num) T N : o_group g0 = [] -> hobj_ok g0 -> 0 < k -> T = tmap [N; k] G (started g0) -> (forall d, length (G d) = N * k) ->
  (forall s, s < N -> bin_row T [] [s] = Some (row s)) -> forall j, j < k -> field T k j = Ok (map (fun s => nth j (row s) nzero) (seq 0 N)).
Proof.
  intros Hg Hok Hk -> HG Hrow j Hj. pose proof (started_ok g0 Hok) as Hc. rewrite Hg in Hc. destruct (started g0) as [|d|]; try contradiction. cbn [tmap field].
  replace (Nat.ltb j k) with true by (symmetry; apply Nat.ltb_lt; auto). rewrite HG, Nat.div_mul by lia. f_equal. apply map_ext_in. intros s Hs. apply in_seq in Hs.
  assert (E := Hrow s ltac:(lia)). unfold bin_row in E. cbn [tmap table_block last] in E. assert (E2 := f_equal (fun o => match o with Some x => x | None => [] end) E). cbn beta iota in E2. rewrite <- E2.
  rewrite (nth_indep (map _ _) nzero (aget [N; k] (G d) ([s] ++ [0]))) by (rewrite map_length, seq_length; auto).
  rewrite (map_nth (fun j => aget [N; k] (G d) ([s] ++ [j]))), seq_nth by auto. unfold aget. f_equal. cbn. lia.
Qed.

(** ** The projection to one axis *)
Section One.
  Variables (e : string) (n : nat) (l hi : Qc) (u o nf cl : bool).
  Hypothesis Hn : 0 < n.
  Hypothesis Hlh : (this l < this hi)%Q.
  Let a := ABin e n (Fin l) (Fin hi) u o nf cl.
  Lemma a_refl : axis_eqb a a = true.
  Proof. apply axis_eqb_refl. unfold a. cbn. repeat split; discriminate. Qed.
  Lemma a_in x : axis_in x [a] = true <-> x = a.
  Proof.
    unfold axis_in. cbn [existsb]. rewrite orb_false_r. split; [intros H; apply axis_eqb_eq in H; auto|intros ->; apply a_refl].
  Qed.
  Lemma filter_one L : NoDup L -> In a L -> filter (fun x => axis_in x [a]) L = [a].
  Proof.
    induction 1 as [|x L Hx HL IH]; intros HI; [destruct HI|]. cbn [filter]. destruct (axis_in x [a]) eqn:E.
    - apply a_in in E. subst x. f_equal. clear IH HI HL. induction L as [|y L IH]; auto. cbn [filter]. destruct (axis_in y [a]) eqn:E; [apply a_in in E; subst; exfalso; apply Hx; left; auto|].
      apply IH. intros X. apply Hx. right. auto.
    - destruct HI as [->|HI]; auto. assert (X : axis_in a [a] = true) by (apply a_in; auto). congruence.
  Qed.
  Lemma no_groups h : hobj_ok h -> filter (fun x => axis_in x [a]) (o_group h) = [] /\ keep_of [a] (o_group h) = repeat false (length (o_group h)).
  Proof.
    intros (HG & _). unfold keep_of. induction HG as [|x L Hx HL (IH1 & IH2)]; auto. cbn [filter map length repeat].
    assert (E : axis_in x [a] = false). { destruct (axis_in x [a]) eqn:E; auto. apply a_in in E. subst x. discriminate. }
    rewrite E, IH2. auto.
  Qed.
  Lemma select_none {A} (p : list A) : forall m, select (repeat false m) p = [].
  Proof. induction p as [|x p IH]; intros [|m]; auto. cbn [repeat select]. apply IH. Qed.
  Lemma keys_over_none m P : keys_over (repeat false m) P [] = P.
  Proof. unfold keys_over. induction P as [|p P IH]; auto. cbn [filter]. rewrite select_none. cbn [keys_same]. rewrite IH. auto. Qed.
  Lemma keep_length_axes h : length (keep_of [a] (o_fixed h)) = length (o_fixed h).
  Proof. apply map_length. Qed.

  Lemma project_one h P : hobj_ok h -> NoDup (o_fixed h) -> In a (o_fixed h) -> lists_blocks (o_content h) P -> power_groups (keep_of [a] (o_group h)) (o_content h) ->
    exists g, project (view h) [a] = Ok (view g) /\ hobj_ok g /\ o_group g = [] /\ o_fixed g = [a] /\ o_prof g = o_prof h /\ weighted g = weighted h /\
      l_tots (o_layout g) = [totbins a] /\ (forall s kd, s < totbins a -> has_column (o_layout h) kd -> hcell g [] [s] kd = summed h a P s kd).
  Proof.
    intros Hok Hnd Hin HP Hpow. assert (Hall : all_in [a] (o_group h ++ o_fixed h) = true).
    { unfold all_in. cbn [forallb]. rewrite andb_true_r. unfold axis_in. apply existsb_exists. exists a. split; [apply in_or_app; auto|apply a_refl]. }
    destruct (project_cells h [a] Hok Hall Hpow) as (c & H). cbn zeta in H. destruct H as (Hp & Hg & Hcell & _). exists (proj_head h [a] c).
    split; auto. split; auto. assert (EG : o_group (proj_head h [a] c) = []) by (cbn; apply (no_groups h Hok)). assert (EF : o_fixed (proj_head h [a] c) = [a]) by (cbn; apply filter_one; auto).
    split; auto. split; auto. split; auto. split; auto.
    assert (ET : l_tots (o_layout (proj_head h [a] c)) = [totbins a]) by (change (l_tots (o_layout (proj_head h [a] c))) with (map totbins (o_fixed (proj_head h [a] c))); rewrite EF; auto).
    split; auto. intros s kd Hs Hk. rewrite (Hcell P [] [s] kd HP).
    - unfold summed. destruct (no_groups h Hok) as (_ & ->). rewrite keys_over_none. reflexivity.
    - unfold in_shape. rewrite ET. repeat constructor. auto.
    - destruct kd; auto.
  Qed.
  Lemma one_group g : hobj_ok g -> o_group g = [] -> has_group g [].
  Proof.
    intros (_ & _ & _ & [H|H]) E; [right; auto|]. rewrite E in H. left. unfold has_block. destruct (o_content g); cbn in *; try contradiction. discriminate.
  Qed.

  Variables (sqrt : Num -> Num) (bin_width : nat -> Num -> Num -> Num).
  Lemma all_chosen h L : In a (o_fixed h) -> all_in L (o_prof h) = true -> all_in (a :: L) (o_group h ++ o_fixed h ++ o_prof h) = true.
  Proof.
    intros Ha HL. unfold all_in in *. cbn [forallb]. apply andb_true_iff. split.
    - apply existsb_exists. exists a. split; [|apply a_refl]. apply in_or_app. right. apply in_or_app. auto.
    - apply forallb_forall. intros x Hx. rewrite forallb_forall in HL. specialize (HL x Hx). apply existsb_exists in HL. destruct HL as (y & Hy & E). apply existsb_exists. exists y. split; auto.
      apply in_or_app. right. apply in_or_app. auto.
  Qed.
  (** The columns of the table of the projected histogram. *)
  Lemma table_one g op profs is : hobj_ok g -> o_group g = [] -> l_tots (o_layout g) = [totbins a] -> Forall2 (profile_number g) profs is -> t_normalized op = false ->
    table_columns op profs <> [] -> has_dup (table_columns op profs) = false ->
    exists T, table sqrt bin_width (view g) op profs = Ok (T, table_columns op profs) /\
      forall j, j < length (table_columns op profs) -> field T (length (table_columns op profs)) j = Ok (map (fun s => nth j (expected_row sqrt g [] [s] (t_count op) (t_effcount op) (t_error op) is) nzero) (seq 0 (totbins a))).
  Proof.
    intros Hok Hg HT HP Hno Hne Hd. destruct (table_ok_shape sqrt bin_width g op profs is Hok HP Hno (fun _ => conj Hne Hd)) as (T & E & (G & HG & HL) & _ & Hrow).
    exists T. split; auto. rewrite HT in HG, HL. apply field_rows with (g0 := g) (G := G); auto.
    - destruct (table_columns op profs); [congruence|cbn; lia].
    - intros d. rewrite HL. cbn. lia.
    - intros s Hs. apply Hrow; [apply one_group; auto|]. unfold in_shape. rewrite HT. repeat constructor. auto.
  Qed.

  Definition tot_bin : totbins a = n + b2n u + b2n o + b2n nf := eq_refl.
  Lemma array_ok f : root_array n u o nf (map f (seq 0 (totbins a))) = Ok (map (fun i => at_slot f (root_slot n u o i)) (seq 0 (n + 2))).
  Proof. rewrite tot_bin. apply root_array_ok. auto. Qed.
  Lemma column_ext (f g : nat -> Num) : (forall s, s < totbins a -> f s = g s) -> map f (seq 0 (totbins a)) = map g (seq 0 (totbins a)).
  Proof. intros H. apply map_ext_in. intros s Hs. apply in_seq in Hs. apply H. lia. Qed.

  Theorem root_counts h P : hobj_ok h -> NoDup (o_fixed h) -> In a (o_fixed h) -> lists_blocks (o_content h) P -> power_groups (keep_of [a] (o_group h)) (o_content h) ->
    exists t, root sqrt bin_width (view h) [a] = Ok (TH1D t) /\ r_bins t = n /\ r_low t = Fin l /\ r_high t = Fin hi /\
      root_shows a (fun s => summed h a P s SumW) (r_content t) /\ r_total t = nsum (r_content t) /\
      match r_errors t with
      | Some x => weighted h = true /\ root_shows a (fun s => sqrt (summed h a P s SumW2)) x
      | None => weighted h = false
      end.
  Proof.
    intros Hok Hnd Hin HP Hpow. destruct (project_one h P Hok Hnd Hin HP Hpow) as (g & Ep & Hg & EG & EF & EP & EW & ET & Hc).
    destruct (table_one g (root_opts (weighted h)) [] [] Hg EG ET (Forall2_nil _) eq_refl) as (T & Et & Hf); [discriminate|destruct (weighted h); reflexivity|].
    unfold root. cbn zeta. change (o_group (p_head (view h))) with (o_group h). change (o_fixed (p_head (view h))) with (o_fixed h). change (o_prof (p_head (view h))) with (o_prof h).
    change (l_weighted (o_layout (p_head (view h)))) with (weighted h). rewrite (all_chosen h [] Hin eq_refl). cbn [negb split_profile is_profile bind fst snd a]. fold a. rewrite Ep. cbn [bind].
    rewrite Et. cbn [bind fst snd is_groupby is_groupbin a]. fold a. unfold make_th1, named_field. cbn [root_range a bind]. fold a.
    assert (E0 : field T (length (table_columns (root_opts (weighted h)) [])) 0 = Ok (map (fun s => summed h a P s SumW) (seq 0 (totbins a)))).
    { rewrite Hf by (cbn; lia). f_equal. apply column_ext. intros s Hs. cbn [expected_row root_opts t_count t_effcount t_error app nth]. unfold entries. apply Hc; auto. exact I. }
    destruct (weighted h) eqn:W.
    - assert (E1 : field T (length (table_columns (root_opts true) [])) 1 = Ok (map (fun s => sqrt (summed h a P s SumW2)) (seq 0 (totbins a)))).
      { rewrite Hf by (cbn; lia). f_equal. apply column_ext. intros s Hs. cbn [expected_row root_opts t_count t_effcount t_error app nth]. unfold entries_error. rewrite EW. f_equal.
        apply Hc; auto. }
      change (name_index "count()" (table_columns (root_opts true) [])) with (Some 0). cbn iota. rewrite E0. cbn [bind]. rewrite array_ok. cbn [bind].
      change (name_index "err(count())" (table_columns (root_opts true) [])) with (Some 1). cbn iota. rewrite E1. cbn [bind]. rewrite array_ok. cbn [bind].
      eexists. split; [reflexivity|]. cbn [r_bins r_low r_high r_content r_total r_errors]. repeat (split; [reflexivity|]). split; [apply slots_shown; auto|]. split; [reflexivity|].
      split; auto. apply slots_shown; auto.
    - change (name_index "count()" (table_columns (root_opts false) [])) with (Some 0). cbn iota. rewrite E0. cbn [bind]. rewrite array_ok. cbn [bind].
      change (name_index "err(count())" (table_columns (root_opts false) [])) with (@None nat). cbn [bind].
      eexists. split; [reflexivity|]. cbn [r_bins r_low r_high r_content r_total r_errors]. repeat (split; [reflexivity|]). split; [apply slots_shown; auto|]. split; reflexivity.
  Qed.

  Lemma zip_maps f (x y : nat -> Num) L : zip2 f (map x L) (map y L) = map (fun i => f (x i) (y i)) L.
  Proof. unfold zip2. induction L as [|i L IH]; auto. cbn [map combine]. rewrite IH. reflexivity. Qed.
  Lemma nth_map_seq (f : nat -> Num) N i : i < N -> nth i (map f (seq 0 N)) nzero = f i.
  Proof.
    intros Hi. rewrite nth_indep with (d' := f 0) by (rewrite map_length, seq_length; auto). rewrite map_nth, seq_nth by auto. reflexivity.
  Qed.
  Lemma profile_run h P p i : hobj_ok h -> NoDup (o_fixed h) -> In a (o_fixed h) -> lists_blocks (o_content h) P -> power_groups (keep_of [a] (o_group h)) (o_content h) ->
    profile_number h p i -> has_dup (table_columns (root_opts true) [p]) = false ->
    let fn := fun j => at_slot (fun s => summed h a P s SumW) (root_slot n u o j) in
    let fm := fun j => at_slot (summed_mean h a P i) (root_slot n u o j) in
    let fe := fun j => at_slot (summed_error sqrt h a P i) (root_slot n u o j) in
    root sqrt bin_width (view h) [a; p] = Ok (TProfile {| q_bins := n; q_lower := Fin l; q_upper := Fin hi;
      q_total := nsum (map fn (seq 0 (n + 2))); q_entries := map fn (seq 0 (n + 2)); q_content := map (fun j => nmul (fm j) (fn j)) (seq 0 (n + 2));
      q_errors := map (fun j => sqrt (nmul (nadd (nmul (nmul (fe j) (fe j)) (fn j)) (nmul (fm j) (fm j))) (fn j))) (seq 0 (n + 2)) |}).
  Proof.
    intros Hok Hnd Hin HP Hpow Hp Hd fn fm fe. destruct (project_one h P Hok Hnd Hin HP Hpow) as (g & Ep & Hg & EG & EF & EP & EW & ET & Hc).
    assert (Hpg : profile_number g p i) by (unfold profile_number; rewrite EP; auto).
    destruct (table_one g (root_opts true) [p] [i] Hg EG ET (Forall2_cons _ _ Hpg (Forall2_nil _)) eq_refl) as (T & Et & Hf); [discriminate|auto|].
    assert (Hpi : i < length (o_prof h)) by (apply nth_error_Some; rewrite (proj1 Hp); discriminate).
    assert (Hpp : is_profile p = true). { destruct Hok as (_ & _ & H & _). rewrite Forall_forall in H. apply H. eapply nth_error_In. apply Hp. }
    assert (Hpa : all_in [p] (o_prof h) = true).
    { unfold all_in. cbn [forallb]. rewrite andb_true_r. unfold axis_in. apply existsb_exists. exists p. split; [eapply nth_error_In; apply Hp|]. apply axis_eqb_refl. destruct p; try discriminate. exact I. }
    unfold root. cbn zeta. change (o_group (p_head (view h))) with (o_group h). change (o_fixed (p_head (view h))) with (o_fixed h). change (o_prof (p_head (view h))) with (o_prof h).
    rewrite (all_chosen h [p] Hin Hpa). cbn [negb split_profile]. rewrite Hpp. cbn [is_profile bind fst snd a]. fold a. rewrite Ep. cbn [bind].
    rewrite Et. cbn [bind fst snd is_groupby is_groupbin a]. fold a. unfold make_tprofile. cbn [root_range a bind]. fold a.
    assert (Hcol : forall j f, j < 4 -> (forall s, s < totbins a -> nth j (expected_row sqrt g [] [s] true false true [i]) nzero = f s) ->
              field T (length (table_columns (root_opts true) [p])) j = Ok (map f (seq 0 (totbins a)))).
    { intros j f Hj H. rewrite Hf by exact Hj. f_equal. apply column_ext. exact H. }
    assert (Hne : forall s, s < totbins a -> entries g [] [s] = summed h a P s SumW) by (intros s Hs; unfold entries; apply Hc; auto; exact I).
    rewrite (Hcol 0 (fun s => summed h a P s SumW)); [|lia|intros s Hs; cbn [expected_row app nth]; auto]. cbn [bind]. rewrite array_ok. cbn [bind].
    rewrite (Hcol 2 (summed_mean h a P i)); [|lia|]. 2: { intros s Hs. cbn [expected_row app nth flat_map]. unfold if_entries, summed_mean, mean. rewrite Hne by auto. rewrite Hc by auto. reflexivity. }
    cbn [bind]. rewrite array_ok. cbn [bind].
    rewrite (Hcol 3 (summed_error sqrt h a P i)); [|lia|].
    2: { intros s Hs. cbn [expected_row app nth flat_map]. unfold if_entries, summed_error, mean_error, mean_square, mean, effective, summed_effective. rewrite EW, Hne by auto. rewrite !Hc by auto.
      destruct (weighted h) eqn:W; [rewrite Hc by auto|]; reflexivity. }
    cbn [bind]. rewrite array_ok. cbn [bind]. rewrite !zip_maps, map_map. reflexivity.
  Qed.

  Lemma mean_back (m : Num) (q : Qc) : ((this q <= 0)%Q -> m = nzero) ->
    (if neqb (Fin q) nzero then nzero else ndiv (nmul m (Fin q)) (Fin q)) = m.
  Proof.
    intros H. unfold neqb, nzero. destruct (qeqb q qc0) eqn:E.
    - apply qeqb_iff in E. rewrite H; auto. rewrite E. apply Qle_refl.
    - apply qeqb_false in E. assert (Hq : ~ (this q == 0)%Q) by (intros X; apply E; apply Qc_is_canon; exact X).
      destruct (Qlt_le_dec 0 (this q)) as [Hp|Hp].
      + assert (Hs : ninf_sign q = PInf) by (destruct (ninf_sign_cases q) as [[_ X]|[[X _]|[X _]]]; [exact X|lra|congruence]).
        assert (E1 : qltb q qc0 = false). { destruct (qltb q qc0) eqn:X; auto. apply qltb_iff in X. change (this qc0) with 0%Q in X. lra. }
        apply qeqb_false in E.
        destruct m as [m| | |]; cbn [nmul ndiv]; rewrite ?Hs; cbn [nneg ndiv]; rewrite ?E, ?E1; auto. f_equal. qc_eq.
      + rewrite H by auto. apply qeqb_false in E. unfold nzero. cbn [nmul ndiv]. rewrite E. f_equal. qc_eq.
  Qed.
  Lemma error_back (m e0 : Num) (q : Qc) (r : Num) : ((this q <= 0)%Q -> m = nzero /\ e0 = nzero) -> isfin m = true -> isfin e0 = true ->
    nmul r r = nmul (nadd (nmul (nmul e0 e0) (Fin q)) (nmul m m)) (Fin q) ->
    (if neqb (Fin q) nzero then nzero else ndiv (nabs (nsub (ndiv (nmul r r) (Fin q)) (nmul m m))) (Fin q)) = nmul e0 e0.
  Proof.
    intros H Hm He ->. destruct m as [m| | |]; try discriminate. destruct e0 as [x| | |]; try discriminate. unfold neqb, nzero in *. destruct (qeqb q qc0) eqn:E.
    - apply qeqb_iff in E. destruct H as (_ & H); [rewrite E; apply Qle_refl|]. rewrite H. cbn [nmul]. f_equal.
    - pose proof E as E'. apply qeqb_false in E. assert (Hq : ~ (this q == 0)%Q) by (intros X; apply E; apply Qc_is_canon; exact X).
      cbn [nmul nadd ndiv nsub nneg]. rewrite E'. cbn [nadd nsub nneg]. unfold nabs, nzero. cbn [nltb].
      set (y := ((x * x * q + m * m) * q / q + - (m * m))%Qc). assert (Hy : (this y == this x * this x * this q)%Q) by (unfold y; qc_push; field; auto).
      destruct (Qlt_le_dec 0 (this q)) as [Hp|Hp].
      + assert (X : qltb y qc0 = false). { destruct (qltb y qc0) eqn:X; auto. apply qltb_iff in X. rewrite Hy in X. change (this qc0) with 0%Q in X. exfalso. assert (0 <= this x * this x)%Q by nra. nra. }
        rewrite X. cbn [ndiv]. rewrite E'. f_equal. apply Qc_ext. qc_push. rewrite Hy. field. auto.
      + destruct (H Hp) as (H1 & H2). assert (X1 := f_equal (fun k => match k with Fin k => k | _ => qc0 end) H1). assert (X2 := f_equal (fun k => match k with Fin k => k | _ => qc0 end) H2). cbn beta iota in X1, X2.
        assert (Hz : (this y == 0)%Q) by (rewrite Hy, X2; change (this qc0) with 0%Q; ring).
        assert (X : qltb y qc0 = false). { destruct (qltb y qc0) eqn:X; auto. apply qltb_iff in X. rewrite Hz in X. change (this qc0) with 0%Q in X. lra. }
        rewrite X. cbn [ndiv]. rewrite E'. f_equal. apply Qc_ext. qc_push. rewrite Hz, X2. change (this qc0) with 0%Q. field. auto.
  Qed.
  Theorem root_profile h P p i : hobj_ok h -> NoDup (o_fixed h) -> In a (o_fixed h) -> lists_blocks (o_content h) P -> power_groups (keep_of [a] (o_group h)) (o_content h) ->
    profile_number h p i -> has_dup (table_columns (root_opts true) [p]) = false ->
    (forall s, s < totbins a -> exists c, summed h a P s SumW = Fin c) ->
    exists t, root sqrt bin_width (view h) [a; p] = Ok (TProfile t) /\ q_bins t = n /\ q_lower t = Fin l /\ q_upper t = Fin hi /\
      root_shows a (fun s => summed h a P s SumW) (q_entries t) /\ q_total t = nsum (q_entries t) /\
      root_shows a (summed_mean h a P i) (map (prof_mean t) (seq 0 (n + 2))) /\
      ((forall s, s < totbins a -> isfin (summed_mean h a P i s) = true /\ isfin (summed_error sqrt h a P i s) = true /\ exact_root sqrt (summed_root sqrt h a P i s)) ->
       root_shows a (fun s => nmul (summed_error sqrt h a P i s) (summed_error sqrt h a P i s)) (map (prof_error2 t) (seq 0 (n + 2)))).
  Proof.
    intros Hok Hnd Hin HP Hpow Hp Hd Hfin. eexists. split; [apply (profile_run h P p i); auto|]. cbn [q_bins q_lower q_upper q_entries q_total]. repeat (split; [reflexivity|]).
    split; [apply slots_shown; auto|]. split; auto.
    assert (Hslot : forall j s, j < n + 2 -> root_slot n u o j = Some s -> s < totbins a).
    { intros j s Hj Es. unfold root_slot in Es. cbn [totbins a]. destruct (Nat.eqb_spec j 0), u, o; try discriminate; cbn [b2n] in *; destruct (Nat.leb_spec j n); inversion Es; lia. }
    assert (Hneg : forall s c, summed h a P s SumW = Fin c -> (this c <= 0)%Q -> nltb nzero (summed h a P s SumW) = false).
    { intros s c E Hle. rewrite E. unfold nzero. cbn [nltb]. destruct (qltb qc0 c) eqn:X; auto. apply qltb_iff in X. change (this qc0) with 0%Q in X. lra. }
    assert (Hmean : forall t, q_entries t = map (fun j => at_slot (fun s => summed h a P s SumW) (root_slot n u o j)) (seq 0 (n + 2)) ->
              q_content t = map (fun j => nmul (at_slot (summed_mean h a P i) (root_slot n u o j)) (at_slot (fun s => summed h a P s SumW) (root_slot n u o j))) (seq 0 (n + 2)) ->
              forall j, j < n + 2 -> prof_mean t j = at_slot (summed_mean h a P i) (root_slot n u o j)).
    { intros t E1 E2 j Hj. unfold prof_mean. rewrite E1, E2. rewrite !nth_map_seq by lia.
      destruct (root_slot n u o j) as [s|] eqn:Es; cbn [at_slot]; [|reflexivity].
      destruct (Hfin s (Hslot j s Hj Es)) as (c & Hc). rewrite Hc. apply mean_back. intros Hle. unfold summed_mean. rewrite (Hneg s c Hc Hle). reflexivity. }
    split.
    - match goal with |- root_shows _ _ ?x => assert (E : x = map (fun j => at_slot (summed_mean h a P i) (root_slot n u o j)) (seq 0 (n + 2))) end.
      { apply map_ext_in. intros j Hj. apply in_seq in Hj. apply Hmean; auto. lia. }
      rewrite E. apply slots_shown; auto.
    - intros Hf2.
      match goal with |- root_shows _ ?f ?x => assert (E : x = map (fun j => at_slot f (root_slot n u o j)) (seq 0 (n + 2))) end.
      { apply map_ext_in. intros j Hj. apply in_seq in Hj. unfold prof_error2. rewrite Hmean by (auto; lia). cbn [q_entries q_errors]. rewrite !nth_map_seq by lia.
        destruct (root_slot n u o j) as [s|] eqn:Es; cbn [at_slot]; [|reflexivity].
        assert (Hs := Hslot j s ltac:(lia) Es). destruct (Hfin s Hs) as (c & Hc). destruct (Hf2 s Hs) as (Hm & He & Hsq).
        assert (Hz : (this c <= 0)%Q -> summed_mean h a P i s = nzero /\ summed_error sqrt h a P i s = nzero).
        { intros Hle. unfold summed_mean, summed_error. rewrite (Hneg s c Hc Hle). auto. }
        unfold exact_root, summed_root in Hsq. rewrite Hc in *. apply error_back; auto. }
      rewrite E. apply slots_shown; auto.
  Qed.
End One.
