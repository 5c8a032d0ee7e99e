(** Properties of filling: C06, C09-C15. *)
From Coq Require Import String Permutation.
From Verif Require Import Base Num NumFacts Axis Calc Content Fill FillSpec FillProofs FillProofs2 FillProofs3 FillMain.

(** ** A concrete histogram: one groupby axis, two fixed axes (3 and 2 bins), one profile, weighted. *)
Definition exL : layout := {| l_tots := [3; 2]; l_nprof := 1; l_weighted := true |}.
Definition exrow (k : string) (i j : Z) (x w : Z) : row :=
  {| r_keys := [Some (GStr k)]; r_slots := [Some i; Some j]; r_prof := [(nz x, nz (x * x))];
     r_w := nz w; r_w2 := nz (w * w) |}.
Definition exrows : list row :=
  [exrow "a" 0 1 5 2; exrow "b" 2 0 (-1) 3; exrow "a" 0 1 7 1; exrow "a" 1 1 4 1].
Ltac row_ok_tac :=
  repeat match goal with
  | |- Forall _ [] => constructor
  | |- Forall _ (_ :: _) => constructor
  | |- Forall2 _ [] [] => constructor
  | |- Forall2 _ (_ :: _) (_ :: _) => constructor
  | |- row_ok _ _ _ => split; [reflexivity|split; [|split; [|reflexivity]]]
  | |- slot_ok _ _ => simpl; lia
  | |- forall k, In (Some k) _ -> key_ok k => simpl; intros k Hk; repeat (destruct Hk as [Hk|Hk]; [inversion Hk; unfold key_ok; discriminate|]); destruct Hk
  | |- unmasked _ => unfold unmasked; simpl; intros Hun; repeat (destruct Hun as [Hun|Hun]; [discriminate|]); exact Hun
  end.
Example ex_pre : fill_pre exL 1 ExprWeight exrows CNone.
Proof.
  split; [unfold layout_ok; simpl; lia|]. split; [reflexivity|]. split; [unfold exrows; row_ok_tac; simpl; row_ok_tac|].
  split; [left; reflexivity|]. right. unfold exrows. row_ok_tac.
Qed.
Example ex_fill_cell :
  cell exL (fst (fill_rows exL 1 ExprWeight exrows CNone)) [GStr "a"] [0; 1] (column_of exL (SumWX 0)) = nz 17 /\
  cell exL (fst (fill_rows exL 1 ExprWeight exrows CNone)) [GStr "a"] [0; 1] (column_of exL SumW) = nz 3 /\
  cell exL (fst (fill_rows exL 1 ExprWeight exrows CNone)) [GStr "b"] [2; 0] (column_of exL SumW2) = nz 9 /\
  cell exL (fst (fill_rows exL 1 ExprWeight exrows CNone)) [GStr "b"] [0; 1] (column_of exL SumW) = nz 0.
Proof. vm_compute. repeat split; f_equal; apply Qc_is_canon; reflexivity. Qed.

(** ** C06: groups are exactly the distinct values, over any history of fills. *)
Theorem C06_groups_are_the_distinct_values L m chunks c :
  fill_pre L 1 m (concat chunks) c -> chunks <> [] ->
  exists c', fill_all L 1 m chunks c = (c', None) /\
    forall k, block c' [k] <> None <-> block c [k] <> None \/ exists r, In r (concat chunks) /\ r_keys r = [Some k].
Proof. exact (c06_groups L m chunks c). Qed.
Print Assumptions C06_groups_are_the_distinct_values.

(** ... and each group receives exactly the rows with that value: the cells of group [k] grow by
    the sums over the rows whose key equals [k] (and whose slots are the cell's). *)
Theorem C06_each_row_in_exactly_its_group L m rows c :
  fill_pre L 1 m rows c ->
  exists c', fill_rows L 1 m rows c = (c', None) /\
    forall k ss kd, in_shape L ss -> has_column L kd ->
      cell L c' [k] ss (column_of L kd) =
      nadd (cell L c [k] ss (column_of L kd))
           (nsum (map (row_adds m kd)
              (filter (fun r => match r_keys r with
                                | [Some k'] => gkey_eqb k k' && slots_match ss (r_slots r)
                                | _ => false end) rows))).
Proof.
  intros H. destruct (c10_fill L 1 m rows c H) as [c' [E [_ V]]]. exists c'. split; auto.
  intros k ss kd Hs Hk. rewrite V by auto. do 3 f_equal. apply filter_ext. intros r. unfold in_cell.
  destruct (r_keys r) as [|[k'|] [|? ?]]; simpl; rewrite ?andb_true_r, ?andb_false_r; auto.
Qed.
Print Assumptions C06_each_row_in_exactly_its_group.

(** ** C09: the flat index is in the array, and determines the slot of every axis. *)
Theorem C09_flat_index_is_injective L ng m rows col :
  layout_ok L -> Forall (row_ok L ng) rows ->
  flat_indexes (combine (l_tots L) (d_fixed (dest_of L ng m rows))) = Ok (Some col) ->
  length col = length rows /\
  forall i r o, nth_error rows i = Some r -> nth_error col i = Some o ->
    (o = None <-> In None (r_slots r)) /\
    (forall z, o = Some z -> (0 <= z < Z.of_nat (l_rows L))%Z) /\
    (forall j r' o', nth_error rows j = Some r' -> nth_error col j = Some o' -> o <> None -> o' <> None ->
       (o = o' <-> r_slots r = r_slots r')).
Proof.
  intros HL Hr E. rewrite Forall_forall in Hr. unfold layout_ok in HL. change (l_rows L) with (prod (l_tots L)) in *.
  assert (E' : flat_indexes (combine (l_tots L) (d_fixed (dest_of L ng m rows))) =
    Ok (match l_tots L with [] => None | _ => Some (map (fun r => flat_row (l_tots L) (r_slots r)) rows) end)).
  { apply flat_indexes_rows. intros r H; symmetry; eapply Forall2_length; apply (Hr r H). }
  rewrite E' in E.
  assert (Ec : col = map (fun r => flat_row (l_tots L) (r_slots r)) rows) by (destruct (l_tots L); congruence).
  subst col. split; [apply map_length|].
  intros i r o Hi Ho. rewrite nth_error_map, Hi in Ho. simpl in Ho. inversion Ho; subst o.
  assert (Hs : Forall2 slot_ok (l_tots L) (r_slots r)) by (apply (Hr r); eapply nth_error_In; eauto).
  split; [apply flat_row_none; auto|]. split; [intros z Hz; eapply flat_row_range; eauto|].
  intros j r' o' Hj Ho' Hn Hn'. rewrite nth_error_map, Hj in Ho'. simpl in Ho'. inversion Ho'; subst o'.
  assert (Hs' : Forall2 slot_ok (l_tots L) (r_slots r')) by (apply (Hr r'); eapply nth_error_In; eauto).
  split; [|intros ->; auto]. intros Ef.
  destruct (slots_cases _ _ Hs) as [N|[ss [Es Hss]]]; [exfalso; apply Hn; apply flat_row_none; auto|].
  destruct (slots_cases _ _ Hs') as [N|[ss' [Es' Hss']]]; [exfalso; apply Hn'; apply flat_row_none; auto|].
  rewrite Es, Es' in *. rewrite !flat_row_some in Ef by auto. inversion Ef as [Er]. apply Nat2Z.inj in Er.
  rewrite (ravel_inj ss ss' (l_tots L)); auto.
Qed.
Print Assumptions C09_flat_index_is_injective.
Example C09_example :
  flat_indexes (combine (l_tots exL) (d_fixed (dest_of exL 1 ExprWeight exrows))) = Ok (Some [Some 1; Some 4; Some 1; Some 3]%Z).
Proof. reflexivity. Qed.

(** ** C10: each cell grows by exactly the sums of its rows; every other cell is unchanged (the sum
    over no rows is zero). *)
Theorem C10_fill_adds_exactly_the_row_sums L ng m rows c :
  fill_pre L ng m rows c ->
  exists c', fill_rows L ng m rows c = (c', None) /\ content_ok L ng c' /\
    forall ks ss kd, in_shape L ss -> has_column L kd ->
       cell L c' ks ss (column_of L kd) =
       nadd (cell L c ks ss (column_of L kd))
            (nsum (map (row_adds m kd) (filter (in_cell ks ss) rows))).
Proof. exact (c10_fill L ng m rows c). Qed.
Print Assumptions C10_fill_adds_exactly_the_row_sums.

Theorem C10_unweighted_counts_rows L ng rows :
  l_weighted L = false -> fill_pre L ng Unweighted rows CNone ->
  exists c', fill_rows L ng Unweighted rows CNone = (c', None) /\
    forall ks ss, in_shape L ss ->
      cell L c' ks ss (column_of L SumW) = nnat (length (filter (in_cell ks ss) rows)).
Proof. exact (c10_counts L ng rows). Qed.
Print Assumptions C10_unweighted_counts_rows.

(** Which blocks exist after a fill: those that existed, and the products of the keys seen on each
    group axis (also the products that no row has). *)
Theorem C10_blocks_after_fill L ng m rows c :
  fill_pre L ng m rows c ->
  exists c', fill_rows L ng m rows c = (c', None) /\
    forall ks, length ks = ng ->
      (block c' ks <> None <->
       block (prefill L ng c) ks <> None \/
       forall j, j < ng -> exists r k, In r rows /\ nth_error ks j = Some k /\ nth j (r_keys r) None = Some k).
Proof. exact (c10_blocks L ng m rows c). Qed.
Print Assumptions C10_blocks_after_fill.

(** The restriction to unmasked rows is needed: with a profile, one row outside the binning makes
    the fill raise (two rows, axis without overflow). *)
Definition maskL (w : bool) : layout := {| l_tots := [2]; l_nprof := 1; l_weighted := w |}.
Definition maskrow (o : option Z) : row :=
  {| r_keys := []; r_slots := [o]; r_prof := [(nz 1, nz 1)]; r_w := nz 1; r_w2 := nz 1 |}.
Theorem C10_dropped_row_with_profile_refuted :
  exists rows, Forall (row_ok (maskL false) 0) rows /\
    snd (fill_rows (maskL false) 0 Unweighted rows CNone) = Some ValueError /\
    snd (fill_rows (maskL true) 0 ExprWeight rows CNone) = Some ValueError.
Proof.
  exists [maskrow (Some 0%Z); maskrow None; maskrow (Some 1%Z)]. split; [row_ok_tac; simpl; row_ok_tac; simpl; auto|].
  split; vm_compute; reflexivity.
Qed.
Print Assumptions C10_dropped_row_with_profile_refuted.

(** A fixed axis whose expression is a function of constants only has no column: every bin of the
    axis then grows by the number of rows, silently. *)
Theorem C10_missing_axis_column_refuted :
  exists L d c', d_fixed d = [None] /\
    postfill L 5 d (prefill L 0 CNone) = (c', None) /\
    cell L c' [] [0] (column_of L SumW) = nz 5 /\ cell L c' [] [1] (column_of L SumW) = nz 5.
Proof.
  exists {| l_tots := [2]; l_nprof := 0; l_weighted := false |},
         {| d_group := []; d_fixed := [None]; d_prof := []; d_weight := WNone |}.
  eexists. split; [reflexivity|]. split; [reflexivity|].
  vm_compute. split; f_equal; apply Qc_is_canon; reflexivity.
Qed.
Print Assumptions C10_missing_axis_column_refuted.

(** ** C11: the total grows by the rows that no axis drops. *)
Theorem C11_total_grows_by_kept_rows L ng m rows c kd :
  fill_pre L ng m rows c -> has_column L kd ->
  exists c', fill_rows L ng m rows c = (c', None) /\
    total L ng (column_of L kd) c' =
    nadd (total L ng (column_of L kd) c) (nsum (map (row_adds m kd) (filter kept rows))).
Proof. exact (c11_total L ng m rows c kd). Qed.
Print Assumptions C11_total_grows_by_kept_rows.

Theorem C11_no_row_lost_or_counted_twice L ng rows c :
  fill_pre L ng Unweighted rows c ->
  exists c', fill_rows L ng Unweighted rows c = (c', None) /\
    total L ng (column_of L SumW) c' = nadd (total L ng (column_of L SumW) c) (nnat (length (filter kept rows))) /\
    (Forall (fun r => kept r = true) rows ->
     total L ng (column_of L SumW) c' = nadd (total L ng (column_of L SumW) c) (nnat (length rows))).
Proof.
  intros H. destruct (c11_total L ng Unweighted rows c SumW H I) as [c' [E T]].
  exists c'. cbn [row_adds row_weight] in T. rewrite nsum_map_one in T. split; auto. split; auto.
  intros Hk. rewrite T. rewrite filter_all; auto. apply Forall_forall. auto.
Qed.
Print Assumptions C11_no_row_lost_or_counted_twice.
Example C11_example : total exL 1 (column_of exL SumW) (fst (fill_rows exL 1 ExprWeight exrows CNone)) = nz 7.
Proof. vm_compute. f_equal; apply Qc_is_canon; reflexivity. Qed.

(** ** C12: NaN weights count as zero. *)
Theorem C12_nan_weight_rows_contribute_nothing L ng rows c :
  fill_pre L ng ExprWeight rows c ->
  (forall r, In r rows -> r_w r = NaN -> finite_profiles r) ->
  exists c1 c2, fill_rows L ng ExprWeight rows c = (c1, None) /\
    fill_rows L ng ExprWeight (filter (fun r => negb (isnan (r_w r))) rows) c = (c2, None) /\ same_cells L c1 c2.
Proof. exact (c12_nan L ng rows c). Qed.
Print Assumptions C12_nan_weight_rows_contribute_nothing.
Definition nanrow (x : Num) : row :=
  {| r_keys := []; r_slots := [Some 0%Z]; r_prof := [(x, nmul x x)]; r_w := NaN; r_w2 := NaN |}.
Example C12_example : fill_pre (maskL true) 0 ExprWeight [nanrow (nz 3); maskrow (Some 1%Z)] CNone /\
  finite_profiles (nanrow (nz 3)).
Proof.
  split; [|repeat constructor]. split; [unfold layout_ok; simpl; lia|]. split; [reflexivity|].
  split; [row_ok_tac; simpl; row_ok_tac|]. split; [left; auto|right; row_ok_tac].
Qed.
(** Without finiteness it fails: zero times infinity is NaN. *)
Theorem C12_infinite_profile_refuted :
  exists rows c', fill_pre (maskL true) 0 ExprWeight rows CNone /\
    Forall (fun r => r_w r = NaN) rows /\
    fill_rows (maskL true) 0 ExprWeight rows CNone = (c', None) /\
    cell (maskL true) c' [] [0] (column_of (maskL true) (SumWX 0)) = NaN.
Proof.
  exists [nanrow PInf]. eexists. split.
  { split; [unfold layout_ok; simpl; lia|]. split; [reflexivity|].
    split; [row_ok_tac; simpl; row_ok_tac|]. split; [left; auto|right; row_ok_tac]. }
  split; [repeat constructor|]. split; vm_compute; reflexivity.
Qed.
Print Assumptions C12_infinite_profile_refuted.

(** ** C13: a filter is a 0/1 weight. *)
Theorem C13_filter_selects_rows L ng keep rows c :
  fill_pre L ng ExprWeight rows c ->
  (forall r, In r rows -> r_w2 r = nmul (r_w r) (r_w r)) ->
  (forall r, In r rows -> keep r = false -> finite_profiles r) ->
  exists c1 c2, fill_rows L ng ExprWeight (map (filtered keep) rows) c = (c1, None) /\
    fill_rows L ng ExprWeight (filter keep rows) c = (c2, None) /\ same_cells L c1 c2.
Proof. exact (c13_filter L ng keep rows c). Qed.
Print Assumptions C13_filter_selects_rows.

Theorem C13_filter_without_weight L ng keep rows :
  fill_pre L ng ExprWeight rows CNone ->
  (forall r, In r rows -> keep r = false -> finite_profiles r) ->
  exists c1 c2, fill_rows L ng ExprWeight (map (filtered1 keep) rows) CNone = (c1, None) /\
    fill_rows (unweighted L) ng Unweighted (filter keep rows) CNone = (c2, None) /\
    forall ks ss kd, in_shape L ss -> has_column L kd ->
      cell L c1 ks ss (column_of L kd) =
      match kd with
      | SumW2 => cell (unweighted L) c2 ks ss (column_of (unweighted L) SumW)
      | _ => cell (unweighted L) c2 ks ss (column_of (unweighted L) kd)
      end.
Proof. exact (c13_filter_unweighted L ng keep rows). Qed.
Print Assumptions C13_filter_without_weight.
Example C13_example : fill_pre exL 1 ExprWeight exrows CNone /\
  (forall r, In r exrows -> r_w2 r = nmul (r_w r) (r_w r)) /\ (forall r, In r exrows -> finite_profiles r).
Proof.
  split; [exact ex_pre|].
  split; intros r Hr; simpl in Hr; repeat (destruct Hr as [<-|Hr]; [|]); try tauto; try (repeat constructor; fail);
  simpl; unfold nz; f_equal; apply Qc_is_canon; reflexivity.
Qed.
(** A rejected row with a NaN profile value still spoils the profile sums. *)
Theorem C13_nan_profile_refuted :
  exists rows c', fill_pre (maskL true) 0 ExprWeight rows CNone /\
    fill_rows (maskL true) 0 ExprWeight (map (filtered1 (fun _ => false)) rows) CNone = (c', None) /\
    cell (maskL true) c' [] [0] (column_of (maskL true) (SumWX 0)) = NaN.
Proof.
  exists [nanrow NaN]. eexists. split.
  { split; [unfold layout_ok; simpl; lia|]. split; [reflexivity|].
    split; [row_ok_tac; simpl; row_ok_tac|]. split; [left; auto|right; row_ok_tac]. }
  split; vm_compute; reflexivity.
Qed.
Print Assumptions C13_nan_profile_refuted.

(** ** C14: chunked filling. *)
Theorem C14_two_chunks L ng m a b c :
  fill_pre L ng m (a ++ b) c ->
  exists c1 c2 c3, fill_rows L ng m a c = (c1, None) /\ fill_rows L ng m b c1 = (c2, None) /\
    fill_rows L ng m (a ++ b) c = (c3, None) /\ same_cells L c2 c3 /\ content_ok L ng c2 /\
    (ng <= 1 -> same_content c2 c3).
Proof. exact (c14_cells L ng m a b c). Qed.
Print Assumptions C14_two_chunks.

Theorem C14_any_chunking L ng m chunks c :
  fill_pre L ng m (concat chunks) c -> chunks <> [] ->
  exists c1 c2, fill_all L ng m chunks c = (c1, None) /\ fill_rows L ng m (concat chunks) c = (c2, None) /\
    content_ok L ng c1 /\ same_cells L c1 c2.
Proof. exact (c14_chunks L ng m chunks c). Qed.
Print Assumptions C14_any_chunking.
Example C14_example : fill_pre exL 1 ExprWeight (concat [firstn 1 exrows; []; skipn 1 exrows]) CNone.
Proof. exact ex_pre. Qed.
(** With two group axes the blocks themselves differ: the single fill creates all products of keys. *)
Definition twoL : layout := {| l_tots := []; l_nprof := 0; l_weighted := false |}.
Definition tworow (a b : string) : row :=
  {| r_keys := [Some (GStr a); Some (GStr b)]; r_slots := []; r_prof := []; r_w := nz 1; r_w2 := nz 1 |}.
Theorem C14_two_group_axes_refuted :
  exists a b c1 c2 c3 ks, fill_pre twoL 2 Unweighted (a ++ b) CNone /\
    fill_rows twoL 2 Unweighted a CNone = (c1, None) /\ fill_rows twoL 2 Unweighted b c1 = (c2, None) /\
    fill_rows twoL 2 Unweighted (a ++ b) CNone = (c3, None) /\
    block c2 ks = None /\ exists d, block c3 ks = Some d.
Proof.
  exists [tworow "a" "x"], [tworow "b" "y"]. do 3 eexists. exists [GStr "a"; GStr "y"]. split.
  { split; [unfold layout_ok; simpl; lia|]. split; [reflexivity|].
    split; [simpl; row_ok_tac; simpl; row_ok_tac|]. split; [left; auto|left; auto]. }
  split; [reflexivity|]. split; [reflexivity|]. split; [reflexivity|]. split; [reflexivity|]. eexists; reflexivity.
Qed.
Print Assumptions C14_two_group_axes_refuted.

(** ** C15: row order. *)
Theorem C15_row_order_irrelevant L ng m a b c :
  Permutation a b -> fill_pre L ng m a c ->
  exists c1 c2, fill_rows L ng m a c = (c1, None) /\ fill_rows L ng m b c = (c2, None) /\ same_content c1 c2.
Proof. exact (c15_perm L ng m a b c). Qed.
Print Assumptions C15_row_order_irrelevant.
Example C15_example : Permutation exrows (rev exrows) /\ fill_pre exL 1 ExprWeight exrows CNone.
Proof. split; [apply Permutation_rev|exact ex_pre]. Qed.

(** ** C16 at the level of the bins: a fill that raises can leave the earlier groups filled. *)
Definition gmask (k : string) (o : option Z) : row :=
  {| r_keys := [Some (GStr k)]; r_slots := [o]; r_prof := [(nz 1, nz 1)]; r_w := nz 1; r_w2 := nz 1 |}.
Theorem C16_partial_fill_refuted :
  exists rows c', Forall (row_ok (maskL false) 1) rows /\
    fill_rows (maskL false) 1 Unweighted rows CNone = (c', Some ValueError) /\
    cell (maskL false) c' [GStr "a"] [0] (column_of (maskL false) SumW) = nz 1.
Proof.
  exists [gmask "a" (Some 0%Z); gmask "b" (Some 0%Z); gmask "b" None; gmask "b" (Some 0%Z)]. eexists.
  split; [row_ok_tac; simpl; row_ok_tac; simpl; auto|]. split; [vm_compute; reflexivity|].
  vm_compute. f_equal; apply Qc_is_canon; reflexivity.
Qed.
Print Assumptions C16_partial_fill_refuted.
