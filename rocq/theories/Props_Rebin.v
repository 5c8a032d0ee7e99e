(** Properties of rebinning: C40, C41. *)
From Coq Require Import String Lqa.
From Verif Require Import Base Num NumFacts Axis AxisSpec AxisProofs AxisProofs2 AxisMain Calc Content Fill FillSpec FillProofs FillProofs2 FillProofs3 FillMain
  Tree Order Expr ExprFacts HistAlg AlgSpec HistAlgProofs HistAlgMain Props_Alg Nd NdProofs Proj ProjSpec ProjProofs ProjMain ProjLaws Props_Proj
  Select SelSpec SelAxis SelAxis2 Remap SelContent SelMain SelFill SelHist SelOr SelKeys Props_Select
  Rebin RebinSpec RebinAxis RebinAxis2 RebinContent RebinMain RebinFill RebinLaws.
Local Open Scope string_scope.
Local Open Scope list_scope.

(** ** C40: rebin *)
(** If rebinning succeeds, each new bin is the union of old bins, the new axis has the edges asked for and
    the flow bins of the old one, and each cell is the sum of the cells of the old bins in the new bin.
    Nothing else changes. *)
Theorem C40_rebin_sums_the_old_bins parse h arg q a edges g' :
  hobj_ok h -> numeric_axis a -> names_axis parse h arg q a -> rebin parse (view h) arg edges = Ok g' ->
  exists g a' parts, g' = view g /\ hobj_ok g /\ axis_changed q a' h g /\ has_edges a a' edges /\ (forall e, In e edges -> rebin_edge a e) /\
    unions_of (possible a) (keys a) (keys a') parts /\ cells_merged q parts h g.
Proof.
  intros Hok Hnum Hname E. destruct (rebin_ok _ _ _ _ _ _ _ Hok Hnum Hname E) as (a' & rs & R & -> & Hok' & Hm & G).
  exists (rebinned q a' rs h), a', (part rs). destruct R. split; [auto|split; [auto|split; [repeat split|split; [auto|split; [|auto]]]]].
  intros e He. destruct (numeric_split_like a Hnum) as (es & u & o & nf & cl & SL). pose proof SL as (Hs & Hn & Hne & Hts & Hedge & _). apply Hedge.
  unfold rebin in E. cbn [view p_head p_content o_group o_fixed o_prof with_content] in E. rewrite (find_arg_names _ _ _ _ _ Hok Hnum Hname) in E.
  unfold rebinsplit in E. rewrite Hts in E. cbn [bind] in E. destruct (forallb _ edges) eqn:Ei; [|discriminate]. apply (proj1 (edges_in es edges Hn) Ei). auto.
Qed.
Print Assumptions C40_rebin_sums_the_old_bins.

(** With both flow bins every column keeps its total. *)
Theorem C40_rebin_preserves_totals parse h arg q a edges g' :
  hobj_ok h -> numeric_axis a -> names_axis parse h arg q a -> has_underflow a = true -> has_overflow a = true ->
  rebin parse (view h) arg edges = Ok g' ->
  exists g, g' = view g /\ forall kd, has_column (o_layout h) kd ->
    total (o_layout g) (length (o_group g)) (column_of (o_layout g) kd) (o_content g) =
    total (o_layout h) (length (o_group h)) (column_of (o_layout h) kd) (o_content h).
Proof.
  intros Hok Hnum Hname Hu Ho E. destruct (rebin_ok _ _ _ _ _ _ _ Hok Hnum Hname E) as (a' & rs & R & -> & Hok' & Hm & G). destruct R.
  exists (rebinned q a' rs h). split; auto. intros kd Hk. rewrite rebinned_layout. destruct (Hname) as (Ha & _). destruct (nth_tots _ _ _ Ha) as (Ht & Hq).
  replace (column_of (layout_with q (totbins a') (o_layout h)) kd) with (column_of (o_layout h) kd) by (destruct kd; reflexivity).
  apply (merge_total q rs (totbins a') (o_layout h) (length (o_group h)) (o_content h)); auto; [|apply column_lt; auto|apply Hok].
  rewrite Ht. auto.
Qed.
Print Assumptions C40_rebin_preserves_totals.

(** Rebinning a filled histogram gives the same content as filling the rebinned one.  [data] is as for
    selections (C38): the value of the rebinned quantity and the row as each of the two histograms sees
    it.  If the histogram has profiles, no row may fall outside of the new axis (a fill raises an error
    then); with both flow bins none does. *)
Theorem C40_rebin_commutes_with_filling parse h arg q a edges g0' :
  hobj_ok h -> numeric_axis a -> names_axis parse h arg q a -> rebin parse (view h) arg edges = Ok g0' ->
  exists g0 a', g0' = view g0 /\ axis_changed q a' h g0 /\ has_edges a a' edges /\
    forall m data c1, Forall (fun d => possible a (d_x d) /\ same_row_but q (keys a) (keys a') (d_x d) (d_old d) (d_new d)) data ->
      no_masked_profile (o_layout h) (map d_new data) \/ has_underflow a = true /\ has_overflow a = true ->
      fill_pre (o_layout h) (length (o_group h)) m (map d_old data) (o_content h) ->
      fill_rows (o_layout h) (length (o_group h)) m (map d_old data) (o_content h) = (c1, None) ->
      exists g1 c2, rebin parse (view (with_content h c1)) arg edges = Ok (view g1) /\ axis_changed q a' h g1 /\
        fill_rows (o_layout g0) (length (o_group g0)) m (map d_new data) (o_content g0) = (c2, None) /\
        same_content (o_content g1) c2.
Proof.
  intros Hok Hnum Hname E. destruct (rebin_ok _ _ _ _ _ _ _ Hok Hnum Hname E) as (a' & rs & R & -> & Hok' & Hm & G). destruct R as [Re Rf Ru (Rk' & Rk) Ra (Rd & Rn) Rw].
  exists (rebinned q a' rs h), a'. split; [auto|split; [repeat split|split; [auto|]]]. intros m data c1 Hdata Hmp HP EF.
  assert (Hc1 : hist_ok (o_layout h) (length (o_group h)) c1).
  { destruct (fill_ok _ _ _ _ _ HP) as (c' & E' & Oc & _). rewrite EF in E'. inversion E'; subst c'. right. exact Oc. }
  destruct (Hname) as (Ha & _). destruct (nth_tots _ _ _ Ha) as (Ht & Hq). pose proof (numeric_disjoint a' Rn) as Rd'.
  assert (Hmp' : no_masked_profile (o_layout h) (map d_new data)).
  { destruct Hmp as [Hmp|(Hu & Ho)]; auto. destruct (HP) as (_ & _ & Hr & _ & [Hp|Hp]); [left; auto|right]. apply Forall_map. apply Forall_forall. intros d Hd. rewrite Forall_forall in Hdata, Hp.
    destruct (Hdata d Hd) as (Px & _ & _ & _ & _ & slot & slot' & N & Es & M & M'). specialize (Hp (d_old d) (in_map _ _ _ Hd)). intros In'. rewrite Es in In'. apply in_at_axis in In'.
    destruct In' as [In'|In']; [|exact (Hp In')]. subst slot'. destruct slot as [z|]; [|apply Hp; eapply nth_error_In; eauto]. destruct M as (j & k & -> & Nk & C).
    assert (Hj : j < totbins a) by (rewrite <- Rk; apply nth_error_Some; congruence).
    assert (In j (seq 0 (totbins a))) as Hin by (apply in_seq; lia). rewrite <- (Ra Hu Ho) in Hin. apply in_flat_map in Hin. destruct Hin as (i & Hi & Hji). apply in_seq in Hi.
    destruct (nth_error (keys a') i) as [k'|] eqn:Ek; [|apply nth_error_None in Ek; lia]. destruct (Ru i k' Ek) as (_ & _ & Ux).
    apply (M' k' (nth_error_In _ _ Ek)). apply (Ux (d_x d) Px). exists j, k. auto. }
  exists (rebinned q a' rs (with_content h c1)).
  destruct (merge_fill q (o_layout h) rs (length (o_group h)) (possible a) (keys a) (keys a') m data (o_content h) c1) as (y & F1 & F2); auto; try lia.
  exists y. split; [apply G; auto|]. split; [repeat split|]. rewrite rebinned_layout, <- Rk'. split; [|].
  - cbn [rebinned with_axis o_group o_content]. rewrite <- Rk'. exact F1.
  - cbn [rebinned with_axis with_content o_content]. change (o_layout (with_content h c1)) with (o_layout h). rewrite <- Rk'. exact F2.
Qed.
Print Assumptions C40_rebin_commutes_with_filling.

(** Rebinning succeeds for every choice of different edges of the axis that leaves a bin. *)
Theorem C40_rebin_at_edges_succeeds parse h arg q a edges :
  hobj_ok h -> numeric_axis a -> names_axis parse h arg q a -> (forall e, In e edges -> rebin_edge a e) -> NoDup edges ->
  2 <= length edges \/ (1 = length edges /\ (has_underflow a = true \/ has_overflow a = true)) ->
  exists g, rebin parse (view h) arg edges = Ok g.
Proof.
  intros Hok Hnum Hname Hed Hnd Hlen. destruct (numeric_split_like a Hnum) as (es & u & o & nf & cl & SL).
  assert (Hin : forall e, In e edges -> In e es) by (intros e He; apply SL; auto).
  destruct (rebin_result parse h arg q a es u o nf cl edges Hok Hnum Hname SL Hin) as [(e & Mk & E)|(js & _ & _ & _ & _ & E)]; [exfalso|eauto].
  assert (Hd : has_dup (sort_num edges) = false).
  { apply nodup_no_dup. eapply NoDup_incl_NoDup; [exact Hnd|rewrite sort_num_length; auto|]. intros x Hx. apply sort_num_in. auto. }
  unfold mk_split in Mk. rewrite Hd in Mk. rewrite sort_num_length in Mk. destruct edges as [|e0 edges]; [cbn in Hlen; lia|].
  destruct (Nat.eqb_spec (length (e0 :: edges) - 1 + b2n u + b2n o + b2n nf) 0) as [Z|Z]; [|discriminate].
  destruct Hlen as [Hlen|(Hlen & Hf)]; [lia|]. destruct SL as (_ & _ & _ & _ & _ & Hflags & _).
  assert (u = true \/ o = true) as [->| ->] by (clear - Hflags Hf; destruct a; try contradiction; cbn in *; intuition congruence); cbn in Z; lia.
Qed.
Print Assumptions C40_rebin_at_edges_succeeds.

(** An edge that the axis does not have is an error. *)
Theorem C40_rebin_at_another_edge_fails parse h arg q a edges e :
  hobj_ok h -> numeric_axis a -> names_axis parse h arg q a -> In e edges -> ~ rebin_edge a e ->
  rebin parse (view h) arg edges = Err ValueError.
Proof. apply rebin_bad_edge. Qed.
Print Assumptions C40_rebin_at_another_edge_fails.

(** Rebinning in two steps gives exactly what the second set of edges gives at once. *)
Theorem C40_rebin_in_two_steps parse h arg q a edges1 g1' :
  hobj_ok h -> numeric_axis a -> names_axis parse h arg q a -> rebin parse (view h) arg edges1 = Ok g1' ->
  exists g1 a1, g1' = view g1 /\ axis_changed q a1 h g1 /\ has_edges a a1 edges1 /\
    forall arg' edges2, names_axis parse g1 arg' q a1 -> (forall e, In e edges2 -> In e edges1) ->
      rebin parse g1' arg' edges2 = rebin parse (view h) arg edges2.
Proof.
  intros Hok Hnum Hname E. destruct (rebin_twice _ _ _ _ _ _ _ Hok Hnum Hname E) as (a1 & rs1 & E1 & _ & He & _ & _ & F).
  exists (rebinned q a1 rs1 h), a1. split; [auto|split; [repeat split|split; auto]].
Qed.
Print Assumptions C40_rebin_in_two_steps.

(** ** C41: rebinby never gives a histogram *)
Theorem C41_rebinby_always_fails_refuted parse h arg factor : exists e, rebinby parse h arg factor = Err e.
Proof.
  unfold rebinby. destruct (factor <=? 0)%Z; [eauto|]. destruct (find_arg parse has_rebinby arg _) as [(p & x)|]; [|eauto]. 
  destruct x; cbn [to_split bind]; eauto; match goal with |- exists e, (do _ <- ?r; _) = Err e => destruct r; cbn [bind]; eauto end.
Qed.
Print Assumptions C41_rebinby_always_fails_refuted.

(** ** Examples *)
(** bin("x", 4, 0, 4), bin("y", 2, 0, 2, without flow bins), grouped by "g". *)
Definition rb_x : axis := ABin "x" 4 (nz 0) (nz 4) true true true true.
Definition rb_hist : hobj := {|
  o_group := [pr_g]; o_fixed := [pr_y; rb_x]; o_prof := []; o_weight := None; o_filter := None; o_defs := []; o_attach := [];
  o_content := CDict [(GStr "a", arr [1; 2; 3; 4; 5; 6; 7;  10; 20; 30; 40; 50; 60; 70]%Z)] |}.
Definition rb_edges : list Num := [nz 3; nz 1].
Example C40_example : hobj_ok rb_hist /\ numeric_axis rb_x /\ names_axis EName rb_hist (ByExpr (EName "x")) 1 rb_x /\ names_axis EName rb_hist (ByAxis rb_x) 1 rb_x /\
  (forall e, In e rb_edges -> rebin_edge rb_x e) /\ NoDup rb_edges /\ has_underflow rb_x = true /\ has_overflow rb_x = true /\
  exists g, rebin EName (view rb_hist) (ByExpr (EName "x")) rb_edges = Ok g /\
    p_content g = PDict [(GStr "a", PArr [2; 4; 1] [nz 3; nz 7; nz 11; nz 7; nz 30; nz 70; nz 110; nz 70])].
Proof.
  split; [ok_tac|]. split; [split; [lia|split; [reflexivity|split; reflexivity]]|].
  split; [split; [reflexivity|split; [reflexivity|]]; intros [|i] b Hi Hb _; [inversion Hb; discriminate|lia]|].
  split; [split; [reflexivity|split; [reflexivity|]]; intros [|i] Hi; [discriminate|lia]|].
  split; [intros e [<-|[<-|[]]]; [exists 3|exists 1]; (split; [lia|num_tac])|].
  split; [constructor; [intros [H|[]]; discriminate|constructor; [intros []|constructor]]|].
  split; [reflexivity|split; [reflexivity|]]. eexists. split; [vm_compute; reflexivity|num_tac].
Qed.
(** An intbin is rebinned between the integers. *)
Definition rb_n : axis := AIntbin "n" 0 3 true true.
Definition rb_ints : hobj := {|
  o_group := []; o_fixed := [rb_n]; o_prof := []; o_weight := None; o_filter := None; o_defs := []; o_attach := []; o_content := arr [1; 2; 3; 4; 5; 6]%Z |}.
Example C40_intbin_example : hobj_ok rb_ints /\ numeric_axis rb_n /\ names_axis EName rb_ints (ByAxis rb_n) 0 rb_n /\
  rebin_edge rb_n (Fin (qfrac 3 2)) /\ ~ rebin_edge rb_n (nz 2) /\ rebin EName (view rb_ints) (ByAxis rb_n) [nz 2] = Err ValueError /\
  exists g, rebin EName (view rb_ints) (ByAxis rb_n) [Fin (qfrac 3 2)] = Ok g /\ p_content g = PArr [2; 1] [nz 6; nz 15].
Proof.
  assert (Hok : hobj_ok rb_ints) by ok_tac. assert (Hnum : numeric_axis rb_n) by reflexivity.
  assert (Hname : names_axis EName rb_ints (ByAxis rb_n) 0 rb_n) by (split; [reflexivity|split; [reflexivity|intros i Hi; lia]]).
  assert (Hb : ~ rebin_edge rb_n (nz 2)).
  { intros (z & _ & H). unfold nz, half in H. rewrite nsub_fin in H. apply (f_equal (fun n => match n with Fin c => this c | _ => 0%Q end)) in H.
    assert (E : (inject_Z 2 == inject_Z z - (1 # 2))%Q) by (change (this (qz 2) == inject_Z z - (1 # 2))%Q; rewrite H; qc_push; reflexivity).
    unfold Qeq in E. cbn in E. lia. }
  split; [auto|split; [auto|split; [auto|]]]. split; [exists 2%Z; split; [lia|num_tac]|]. split; [auto|]. split; [apply (C40_rebin_at_another_edge_fails EName rb_ints (ByAxis rb_n) 0 rb_n [nz 2] (nz 2)); auto; left; reflexivity|].
  eexists. split; [vm_compute; reflexivity|num_tac].
Qed.
(** A row at x = 2.5 is in the fourth bin (after the underflow) before and in the second after. *)
Definition rb_row (i : Z) : row := {| r_keys := [Some (GStr "a")]; r_slots := [Some 0%Z; Some i]; r_prof := []; r_w := nz 1; r_w2 := nz 1 |}.
Example C40_filling_example : let keys' := keys (ASplit "x" [nz 1; nz 3] true true true true) in let data := [(Fin (qfrac 5 2), rb_row 3, rb_row 1)] in
  Forall (fun d => possible rb_x (d_x d) /\ same_row_but 1 (keys rb_x) keys' (d_x d) (d_old d) (d_new d)) data /\
  fill_pre (o_layout rb_hist) 1 Unweighted (map d_old data) (o_content rb_hist) /\
  snd (fill_rows (o_layout rb_hist) 1 Unweighted (map d_old data) (o_content rb_hist)) = None.
Proof.
  cbn zeta. split.
  { constructor; [|constructor]. split; [exact I|]. split; [reflexivity|split; [reflexivity|split; [reflexivity|split; [reflexivity|]]]].
    exists (Some 3%Z), (Some 1%Z). split; [reflexivity|split; [reflexivity|split]].
    - exists 3. eexists. split; [reflexivity|split; [reflexivity|]]. split; left; reflexivity.
    - exists 1. eexists. split; [reflexivity|split; [reflexivity|]]. split; left; reflexivity. }
  split; [|reflexivity]. split; [unfold layout_ok; cbn; lia|]. split; [reflexivity|]. split; [|split; [right; cbn; ok_tac|left; reflexivity]].
  constructor; [|constructor]. split; [reflexivity|split; [intros k [H|[]]; inversion H; discriminate|split; [|reflexivity]]].
  repeat constructor; cbn; lia.
Qed.
