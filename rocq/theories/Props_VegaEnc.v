(** Properties of plots: C58 (colours and stacking), C59 (plotting chains). *)
From Coq Require Import String Sorted Permutation Lia.
From Verif Require Import Base Num NumFacts Axis AxisSpec AxisProofs Calc Content Fill FillSpec Tree Order Expr KeySpec HistAlg AlgSpec HistAlgMain CompareProofs Props_Alg
  Nd Proj Props_Proj Select Table Props_Table Pandas PandasSpec Props_Pandas Vega VegaSpec VegaProofs VegaAxis VegaEnc VegaEncProofs Props_Vega.
Local Open Scope string_scope.
Local Open Scope list_scope.

(** ** C58: the colours *)
(** sorted() gives the same keys. *)
Definition sorts (sorted : list dkey -> res (list dkey)) : Prop := forall l m, sorted l = Ok m -> forall k, In k m <-> In k l.
Lemma position_ok a order j : position a order = Ok j -> nth_error order j = Some a.
Proof.
  unfold position. destruct (index_of a order) as [i|] eqn:E; [|discriminate]. intros H. injection H as <-. revert i E. induction order as [|b t IH]; intros i E; [discriminate|]. cbn [index_of] in E.
  destruct (axis_eqb b a) eqn:Eb; [injection E as <-; apply axis_eqb_eq in Eb; subst; reflexivity|]. destruct (index_of a t) as [i'|]; [|discriminate]. injection E as <-. cbn. apply IH. reflexivity.
Qed.
Lemma position_self a order j : position a order = Ok j -> axis_eqb a a = true.
Proof.
  unfold position. destruct (index_of a order) as [i|] eqn:E; [|discriminate]. intros _. revert i E. induction order as [|b t IH]; intros i E; [discriminate|]. cbn [index_of] in E.
  destruct (axis_eqb b a) eqn:Eb; [pose proof Eb as Eb'; apply axis_eqb_eq in Eb'; subst; exact Eb|]. destruct (index_of a t) as [i'|] eqn:E'; [|discriminate]. eapply IH. reflexivity.
Qed.
Lemma data1d_rows sqrt bin_width h p id order data ds : data1d sqrt bin_width h p id = Ok (order, data, ds) ->
  exists lastj, position (c_axis (p1_last p)) order = Ok lastj /\
    (forall d, In d data -> row_of (p1_last p) lastj ds 0 order [] (d_row d)) /\ (forall a ks, In (a, ks) ds -> In a order /\ exists c, keys_of a c = Ok ks).
Proof.
  unfold data1d. destruct (project _ _) as [pr|]; [|discriminate]. cbn [bind]. destruct (table _ _ _ _ _) as [t|]; [|discriminate]. cbn [bind].
  destruct (position _ _) as [lastj|] eqn:Ep; [|discriminate]. cbn [bind]. destruct (recurse _ _ _ _ _ _ _) as [r|] eqn:Er; [|discriminate]. cbn [bind]. intros E. injection E as <- <- <-.
  destruct (recurse_rows _ _ _ _ _ _ _ _ Er) as (I1 & I2). exists lastj. split; auto. split; auto. intros d Hd. apply in_map_iff in Hd. destruct Hd as (row & <- & Hd). cbn [d_row]. auto.
Qed.
Lemma row_cell l lastj ds order r j a : row_of l lastj ds 0 order [] r -> nth_error order j = Some a -> exists c, nth_error r j = Some c /\ cell_of l lastj ds j a c.
Proof.
  intros (cs & ns & -> & Hl & H) Hj. assert (Hlt : j < length cs) by (rewrite Hl; apply nth_error_Some; congruence). destruct (nth_error cs j) as [c|] eqn:Ec; [|apply nth_error_None in Ec; lia].
  exists c. split; [cbn [app]; rewrite nth_error_app1 by auto; auto|]. apply (H j a c Hj Ec).
Qed.

(** In the column of an overlaid or stacked axis every datum has a label, other than on the plotted axis;
    and for group, bin and split axes the legend lists that label. *)
Definition plain_labels (a : axis) : bool := match a with ACut _ | AIntbin _ _ _ _ _ => false | _ => true end.
Theorem C58_legend_lists_the_labels sorted sqrt bin_width h p id order data ds a j d : sorts sorted ->
  data1d sqrt bin_width h p id = Ok (order, data, ds) -> In d data -> position a order = Ok j ->
  (a <> c_axis (p1_last p) \/ quantitative (p1_last p) = false -> exists t, nth_error (d_row d) j = Some (VText t)) /\
  (forall t w, plain_labels a = true -> nth_error (d_row d) j = Some (VText t) -> legend sorted a ds = Ok w -> In (WText t) w).
Proof.
  intros Hs E Hd Hp. destruct (data1d_rows _ _ _ _ _ _ _ _ E) as (lastj & El & Hrows & Hdom). pose proof (position_ok _ _ _ Hp) as Hj. destruct (row_cell _ _ _ _ _ _ _ (Hrows d Hd) Hj) as (c & Hc & Hcell). split.
  - intros Hne. destruct c as [t|x]; [eauto|]. exfalso. destruct Hcell as (-> & HQ). apply position_ok in El. rewrite Hj in El. destruct Hne as [Hne|Hne]; congruence.
  - intros t w Hpl Ht Hw. rewrite Hc in Ht. injection Ht as ->. destruct Hcell as (k & -> & Hk).
    assert (Hk' : exists ks, In (a, ks) ds /\ In k ks) by (destruct a; try discriminate; exact Hk). destruct Hk' as (ks & H1 & H2). unfold legend, domain_of in Hw.
    assert (Hf : In (a, ks) (filter (fun d => axis_eqb (fst d) a) ds)) by (apply filter_In; split; auto; apply (position_self a order j Hp)).
    destruct (filter _ ds) as [|x0 l0] eqn:Ef; [contradiction|]. cbn [bind] in Hw. set (keys' := flat_map snd (x0 :: l0)) in *.
    destruct (sorted keys') as [m|] eqn:Es; [|discriminate]. cbn [bind] in Hw. injection Hw as <-. apply in_map_iff. exists k. split.
    + destruct (Hdom a ks H1) as (_ & c & Ec). pose proof (keys_words a c ks k Ec H2) as X. destruct a; try discriminate; exact X.
    + apply (Hs _ _ Es). apply in_flat_map. exists (a, ks). auto.
Qed.
Print Assumptions C58_legend_lists_the_labels.

(** Nothing else is in the legend: each of its words is that of a key the axis lists. *)
Theorem C58_legend_lists_keys_of_the_axis sorted sqrt bin_width h p id order data ds a w x : sorts sorted ->
  data1d sqrt bin_width h p id = Ok (order, data, ds) -> legend sorted a ds = Ok w -> In x w -> exists c ks k, keys_of a c = Ok ks /\ In k ks /\ x = str_of k.
Proof.
  intros Hs E Hw Hx. destruct (data1d_rows _ _ _ _ _ _ _ _ E) as (lastj & _ & _ & Hdom). unfold legend, domain_of in Hw.
  destruct (filter _ ds) as [|x0 l0] eqn:Ef; [discriminate|]. cbn [bind] in Hw. set (keys' := flat_map snd (x0 :: l0)) in *.
  destruct (sorted keys') as [m|] eqn:Es; [|discriminate]. cbn [bind] in Hw. injection Hw as <-. apply in_map_iff in Hx. destruct Hx as (k & <- & Hk).
  apply (Hs _ _ Es) in Hk. apply in_flat_map in Hk. destruct Hk as ([b ks] & Hb & Hk). rewrite <- Ef in Hb. apply filter_In in Hb. destruct Hb as (Hb & Eb). apply axis_eqb_eq in Eb. cbn [fst snd] in *. subst b.
  destruct (Hdom a ks Hb) as (_ & c & Ec). exists c, ks, k. auto.
Qed.
Print Assumptions C58_legend_lists_keys_of_the_axis.

(** For a cut the legend lists "True" and "False" but the data say "pass" and "fail": no label is in the
    legend.  The same for an axis that counts integers: the legend lists integers (and ("-inf", min) and
    (max, "inf")), the data say [z-1/2, z+1/2). *)
Theorem C58_cut_legend_refuted sorted sqrt bin_width h p id order data ds e j d t w : sorts sorted ->
  data1d sqrt bin_width h p id = Ok (order, data, ds) -> In d data -> position (ACut e) order = Ok j ->
  nth_error (d_row d) j = Some (VText t) -> legend sorted (ACut e) ds = Ok w -> ~ In (WText t) w.
Proof.
  intros Hs E Hd Hp Ht Hw Hin. destruct (C58_legend_lists_keys_of_the_axis _ _ _ _ _ _ _ _ _ _ _ _ Hs E Hw Hin) as (c & ks & k & E1 & E2 & E3).
  destruct (keys_words _ _ _ _ E1 E2) as (b & Eb). congruence.
Qed.
Print Assumptions C58_cut_legend_refuted.
Theorem C58_intbin_legend_refuted sorted sqrt bin_width h p id order data ds e mn mx u o j d t w : sorts sorted -> (mn <= mx)%Z ->
  data1d sqrt bin_width h p id = Ok (order, data, ds) -> In d data -> position (AIntbin e mn mx u o) order = Ok j ->
  nth_error (d_row d) j = Some (VText t) -> legend sorted (AIntbin e mn mx u o) ds = Ok w -> ~ In (WText t) w.
Proof.
  intros Hs Hm E Hd Hp Ht Hw Hin. destruct (data1d_rows _ _ _ _ _ _ _ _ E) as (lastj & El & Hrows & Hdom). pose proof (position_ok _ _ _ Hp) as Hj.
  destruct (row_cell _ _ _ _ _ _ _ (Hrows d Hd) Hj) as (c & Hc & Hcell). rewrite Hc in Ht. injection Ht as ->. destruct Hcell as (k' & -> & Hk'). cbn [is_intbin] in Hk'.
  apply in_map_iff in Hk'. destruct Hk' as (k0 & <- & Hk0). destruct (intbin_labels_differ e mn mx u o k0 Hk0 Hm) as (lo & hi & ch & Ek0 & Hne).
  destruct (C58_legend_lists_keys_of_the_axis _ _ _ _ _ _ _ _ _ _ _ _ Hs E Hw Hin) as (c' & ks & k & E1 & E2 & E3). rewrite Ek0 in E3. cbn [text_of] in E3.
  destruct (keys_words _ _ _ _ E1 E2) as [(z & X)|[X|X]]; rewrite X in E3; try discriminate. injection E3 as -> -> ->. congruence.
Qed.
Print Assumptions C58_intbin_legend_refuted.

(** ** The encoding *)
(** The colour is that of the last overlay or stack of the chain, in the column of its axis; the x column is
    that of the plotted axis and the y column the first number. *)
Definition colours (c : channel) : bool := is_overlay c || is_stack c.
Lemma chain_keeps sorted order ds : forall cs e e', encode_chain sorted order ds cs e = Ok e' -> n_x e' = n_x e /\ n_y e' = n_y e /\
  (existsb colours cs = false -> n_color e' = n_color e) /\ (existsb is_stack cs = false -> n_order e' = n_order e) /\
  (existsb is_beside cs = false -> n_column e' = n_column e) /\ (existsb is_below cs = false -> n_row e' = n_row e).
Proof.
  induction cs as [|c cs IH]; intros e e' E; cbn [encode_chain] in E; [injection E as <-; auto 8|].
  destruct (encode_channel sorted order ds c e) as [e1|] eqn:E1; [|discriminate]. cbn [bind] in E. destruct (IH _ _ E) as (H1 & H2 & H3 & H4 & H5 & H6).
  destruct c; cbn [encode_channel] in E1; repeat match type of E1 with context [bind ?r _] => destruct r; [|discriminate]; cbn [bind] in E1 end; injection E1 as <-; cbn [n_x n_y n_color n_order n_column n_row] in *;
    (split; [auto|split; [auto|]]); cbn [existsb colours is_overlay is_stack is_beside is_below orb]; repeat split; intros X; auto; try discriminate.
Qed.
Lemma chain_at sorted order ds cs1 c cs2 e e' : encode_chain sorted order ds (cs1 ++ c :: cs2) e = Ok e' ->
  exists e1 e2, encode_channel sorted order ds c e1 = Ok e2 /\ encode_chain sorted order ds cs2 e2 = Ok e'.
Proof.
  revert e. induction cs1 as [|c1 cs1 IH]; intros e E; cbn [app encode_chain] in E.
  - destruct (encode_channel sorted order ds c e) as [e2|] eqn:E1; [|discriminate]. exists e, e2. auto.
  - destruct (encode_channel sorted order ds c1 e) as [e2|] eqn:E1; [|discriminate]. apply (IH e2 E).
Qed.
Theorem C58_encoding sorted p order ds e : encode1d sorted p order ds = Ok e ->
  position (c_axis (p1_last p)) order = Ok (n_x e) /\ n_y e = length order /\
  (forall cs1 cs2 a, p1_chain p = cs1 ++ ChOverlay a :: cs2 -> existsb colours cs2 = false ->
     exists j w, n_color e = Some (j, w) /\ position a order = Ok j /\ legend sorted a ds = Ok w) /\
  (forall cs1 cs2 a given, p1_chain p = cs1 ++ ChStack a given :: cs2 -> existsb colours cs2 = false ->
     exists j w o, n_color e = Some (j, rev w) /\ n_order e = Some (j, o) /\ position a order = Ok j /\ makeorder 0 w = Ok o /\
       match given with Some l => w = map WGiven l | None => legend sorted a ds = Ok w end) /\
  (forall cs1 cs2 a, p1_chain p = cs1 ++ ChBeside a :: cs2 -> existsb is_beside cs2 = false -> exists j, n_column e = Some j /\ position a order = Ok j) /\
  (forall cs1 cs2 a, p1_chain p = cs1 ++ ChBelow a :: cs2 -> existsb is_below cs2 = false -> exists j, n_row e = Some j /\ position a order = Ok j).
Proof.
  unfold encode1d. destruct (position _ order) as [j|] eqn:Ej; [|discriminate]. cbn [bind]. intros E. destruct (chain_keeps _ _ _ _ _ _ E) as (H1 & H2 & _). cbn [n_x n_y] in *.
  split; [congruence|]. split; auto.
  split; [|split; [|split]].
  - intros cs1 cs2 a Ec Hc. rewrite Ec in E. destruct (chain_at _ _ _ _ _ _ _ _ E) as (e1 & e2 & X1 & X2). destruct (chain_keeps _ _ _ _ _ _ X2) as (_ & _ & K & _).
    cbn [encode_channel] in X1. destruct (legend sorted a ds) as [w|]; [|discriminate]. cbn [bind] in X1. destruct (position a order) as [ja|]; [|discriminate]. cbn [bind] in X1. injection X1 as <-.
    exists ja, w. rewrite K by auto. auto.
  - intros cs1 cs2 a given Ec Hc. rewrite Ec in E. destruct (chain_at _ _ _ _ _ _ _ _ E) as (e1 & e2 & X1 & X2). destruct (chain_keeps _ _ _ _ _ _ X2) as (_ & _ & K & K2 & _).
    assert (Hs : existsb is_stack cs2 = false).
    { clear - Hc. induction cs2 as [|c cs IH]; auto. cbn [existsb] in *. apply orb_false_iff in Hc. destruct Hc as (Hc & Hcs). unfold colours in Hc. apply orb_false_iff in Hc. destruct Hc as (_ & ->). auto. }
    cbn [encode_channel] in X1. destruct given as [l|].
    + cbn [bind] in X1. destruct (position a order) as [ja|]; [|discriminate]. cbn [bind] in X1. destruct (makeorder 0 (map WGiven l)) as [o|] eqn:Eo; [|discriminate]. cbn [bind] in X1. injection X1 as <-.
      exists ja, (map WGiven l), o. rewrite K, K2 by auto. auto.
    + destruct (legend sorted a ds) as [w|]; [|discriminate]. cbn [bind] in X1. destruct (position a order) as [ja|]; [|discriminate]. cbn [bind] in X1. destruct (makeorder 0 w) as [o|] eqn:Eo; [|discriminate]. cbn [bind] in X1. injection X1 as <-.
      exists ja, w, o. rewrite K, K2 by auto. auto.
  - intros cs1 cs2 a Ec Hc. rewrite Ec in E. destruct (chain_at _ _ _ _ _ _ _ _ E) as (e1 & e2 & X1 & X2). destruct (chain_keeps _ _ _ _ _ _ X2) as (_ & _ & _ & _ & K & _).
    cbn [encode_channel] in X1. destruct (position a order) as [ja|]; [|discriminate]. cbn [bind] in X1. injection X1 as <-. exists ja. rewrite K by auto. auto.
  - intros cs1 cs2 a Ec Hc. rewrite Ec in E. destruct (chain_at _ _ _ _ _ _ _ _ E) as (e1 & e2 & X1 & X2). destruct (chain_keeps _ _ _ _ _ _ X2) as (_ & _ & _ & _ & _ & K).
    cbn [encode_channel] in X1. destruct (position a order) as [ja|]; [|discriminate]. cbn [bind] in X1. injection X1 as <-. exists ja. rewrite K by auto. auto.
Qed.
Print Assumptions C58_encoding.

(** The stack: a datum is stacked at the position of its label in the order, and after all others if its label
    is not there. *)
Fixpoint first_at (same : word -> word -> bool) (w : word) (l : list word) : nat :=
  match l with
  | [] => 0
  | v :: t => if same w v then 0 else S (first_at same w t)
  end.
Theorem C58_stack_order same w : forall ws o, makeorder 0 ws = Ok o -> ordering_value same o w = first_at same w ws.
Proof.
  assert (G : forall ws i o, makeorder i ws = Ok o -> ordering_value same o w = i + first_at same w ws).
  { induction ws as [|v ws IH]; intros i o E; [discriminate|]. destruct ws as [|v' ws].
    - cbn [makeorder] in E. injection E as <-. cbn [ordering_value first_at]. destruct (same w v); lia.
    - change (makeorder i (v :: v' :: ws)) with (do e <- makeorder (i + 1) (v' :: ws); Ok (OIf v i e)) in E. destruct (makeorder (i + 1) (v' :: ws)) as [e|] eqn:Ee; [|discriminate]. cbn [bind] in E. injection E as <-.
      cbn [ordering_value]. rewrite (IH _ _ Ee). change (first_at same w (v :: v' :: ws)) with (if same w v then 0 else S (first_at same w (v' :: ws))). destruct (same w v); lia. }
  intros ws o E. apply (G ws 0 o E).
Qed.
Print Assumptions C58_stack_order.

(** h.overlay("g").area("x"), and h.stack("y") with its order. *)
Definition by_insertion (l : list dkey) : res (list dkey) := Ok l.
Example C58_example : sorts by_insertion /\ exists data ds e w,
  data1d (fun x => x) exact_width (view (pd_hist pd_content)) ve_plot None = Ok ([pd_g; pd_y; pd_x], data, ds) /\ data <> [] /\
  position pd_y [pd_g; pd_y; pd_x] = Ok 1 /\ legend by_insertion pd_y ds = Ok w /\
  encode1d by_insertion ve_plot [pd_g; pd_y; pd_x] ds = Ok e /\ n_x e = 2 /\ n_y e = 3 /\ n_color e = Some (1, rev w) /\
  w = map (fun z => WText (XBin (KIv (nz z) (nz (z + 10)) true false))) [30; 10; 20]%Z.
Proof.
  split; [intros l m E; injection E as <-; tauto|]. do 4 eexists. split; [vm_compute; reflexivity|]. split; [discriminate|]. split; [reflexivity|]. split; [vm_compute; reflexivity|].
  split; [vm_compute; reflexivity|]. split; [reflexivity|]. split; [reflexivity|]. split; [reflexivity|]. num_tac.
Qed.
(** Cut and intbin: the conditions of the refutations hold. *)
Definition vc_hist : hobj := {| o_group := []; o_fixed := [ACut "c"; AIntbin "n" 1 2 false false; pd_x]; o_prof := []; o_weight := None; o_filter := None; o_defs := []; o_attach := [];
  o_content := arr [1; 2; 3; 4; 5; 6; 7; 8; 9; 10; 11; 12]%Z |}.
Definition vc_plot : plot1d := {| p1_chain := [ChOverlay (ACut "c"); ChBeside (AIntbin "n" 1 2 false false)]; p1_last := ve_last TLine pd_x false |}.
Example C58_refuted_example : hobj_ok vc_hist /\ exists data ds w w2 d,
  data1d (fun x => x) exact_width (view vc_hist) vc_plot None = Ok (o_fixed vc_hist, data, ds) /\ In d data /\
  d_row d = [VText (XCut false); VText (XBin (KIv (Fin (qfrac 1 2)) (Fin (qfrac 3 2)) true false)); VNumber (Fin (qfrac 1 2)); VNumber (nz 2)] /\
  legend by_insertion (ACut "c") ds = Ok w /\ (forall x, In x w <-> x = WBool false \/ x = WBool true) /\
  legend by_insertion (AIntbin "n" 1 2 false false) ds = Ok w2 /\ (forall x, In x w2 <-> x = WInt 1 \/ x = WInt 2).
Proof.
  split; [ok_tac|]. do 5 eexists. split; [vm_compute; reflexivity|]. split; [left; reflexivity|]. split; [num_tac|]. split; [vm_compute; reflexivity|].
  split; [intros x; cbn [In]; intuition congruence|]. split; [vm_compute; reflexivity|]. intros x; cbn [In]; intuition congruence.
Qed.
(** An overlay before a stack has no colour of its own. *)
Theorem C58_overlay_and_stack_refuted sorted p order ds e a b given cs cs' : encode1d sorted p order ds = Ok e -> p1_chain p = ChOverlay a :: cs ++ ChStack b given :: cs' ->
  existsb colours cs' = false -> a <> b -> forall j w, n_color e = Some (j, w) -> position a order <> Ok j.
Proof.
  intros E Ec Hc Hab j w Hj Hp. destruct (C58_encoding _ _ _ _ _ E) as (_ & _ & _ & H & _). destruct (H (ChOverlay a :: cs) cs' b given) as (j' & w' & o & X1 & _ & X2 & _); auto.
  rewrite X1 in Hj. injection Hj as <- <-. apply position_ok in Hp, X2. congruence.
Qed.
Print Assumptions C58_overlay_and_stack_refuted.

(** ** C59: plotting chains *)
(** Every chain of overlay, stack, beside and below has at most one of each, and keeps the order in which
    they were called; a chain that is refused is refused for a second one of its kind. *)
Inductive step : Type := SOverlay (a : axis) | SStack (a : axis) (given : option (list string)) | SBeside (a : axis) | SBelow (a : axis).
Definition channel_of (s : step) : channel := match s with SOverlay a => ChOverlay a | SStack a g => ChStack a g | SBeside a => ChBeside a | SBelow a => ChBelow a end.
Definition do_step (c : list channel) (s : step) : res (list channel) :=
  match s with SOverlay a => chain_overlay c a | SStack a g => chain_stack c a g | SBeside a => chain_beside c a | SBelow a => chain_below c a end.
Fixpoint do_steps (c : list channel) (l : list step) : res (list channel) :=
  match l with
  | [] => Ok c
  | s :: t => do c' <- do_step c s; do_steps c' t
  end.
Definition kind_of (s : step) : channel -> bool := match s with SOverlay _ => is_overlay | SStack _ _ => is_stack | SBeside _ => is_beside | SBelow _ => is_below end.
Definition once (k : channel -> bool) (c : list channel) : Prop := length (filter k c) <= 1.
Definition all_once (c : list channel) : Prop := once is_overlay c /\ once is_stack c /\ once is_beside c /\ once is_below c.
Lemma existsb_filter {A} (k : A -> bool) l : existsb k l = false <-> filter k l = [].
Proof. induction l as [|x l IH]; cbn [existsb filter]; [tauto|]. destruct (k x); cbn [orb]; [split; discriminate|exact IH]. Qed.
Lemma once_app k c x : once k (c ++ [x]) <-> once k c /\ (k x = true -> filter k c = []).
Proof.
  unfold once. rewrite filter_app, app_length. cbn [filter]. destruct (k x); cbn [length].
  - destruct (filter k c) as [|y l]; cbn; split; intros; try lia; [split; [lia|auto]|]. destruct H as (_ & H). specialize (H eq_refl). discriminate.
  - split; [intros H; split; [lia|discriminate]|intros (H & _); lia].
Qed.
Lemma do_step_spec c s : do_step c s = if existsb (kind_of s) c then Err TypeError else Ok (c ++ [channel_of s]).
Proof. destruct s; reflexivity. Qed.
Theorem C59_chains_have_at_most_one_of_each l : forall c, all_once c ->
  do_steps c l = (if forallb (fun k => Nat.leb (length (filter k (c ++ map channel_of l))) 1) [is_overlay; is_stack; is_beside; is_below]
                  then Ok (c ++ map channel_of l) else Err TypeError).
Proof.
  assert (AO : forall c, all_once c <-> forallb (fun k => Nat.leb (length (filter k c)) 1) [is_overlay; is_stack; is_beside; is_below] = true).
  { intros c. unfold all_once, once. cbn [forallb]. rewrite !andb_true_iff, !Nat.leb_le. tauto. }
  induction l as [|s l IH]; intros c Hc; cbn [do_steps map].
  - rewrite app_nil_r. apply AO in Hc. rewrite Hc. reflexivity.
  - rewrite do_step_spec. destruct (existsb (kind_of s) c) eqn:E.
    + cbn [bind]. assert (X : forallb (fun k => Nat.leb (length (filter k (c ++ channel_of s :: map channel_of l))) 1) [is_overlay; is_stack; is_beside; is_below] = false); [|rewrite X; reflexivity].
      apply Bool.not_true_iff_false. intros X. apply AO in X. assert (Y : once (kind_of s) (c ++ channel_of s :: map channel_of l)) by (destruct X as (? & ? & ? & ?); destruct s; auto).
      unfold once in Y. rewrite filter_app, app_length in Y. assert (Z : kind_of s (channel_of s) = true) by (destruct s; reflexivity). cbn [filter] in Y. rewrite Z in Y. cbn [length] in Y.
      destruct (filter (kind_of s) c) eqn:F; [apply existsb_filter in F; congruence|]. cbn in Y. lia.
    + cbn [bind]. rewrite IH.
      * rewrite <- app_assoc. reflexivity.
      * apply existsb_filter in E. destruct Hc as (H1 & H2 & H3 & H4). unfold all_once. rewrite !once_app. destruct s; cbn [channel_of is_overlay is_stack is_beside is_below kind_of] in *; repeat split; auto; discriminate.
Qed.
Print Assumptions C59_chains_have_at_most_one_of_each.
(** The plot at the end: a stack can only be shown by bars and areas, and error bars cannot be split beside
    or below; a heat map cannot be overlaid or stacked.  Everything else is accepted, and the plot keeps
    the chain. *)
Theorem C59_last_step c l p : chain_last c l = Ok p <->
  p = {| p1_chain := c; p1_last := l |} /\ (In (c_kind l) [TStep; TLine; TMarker] -> forall x, In x c -> is_stack x = false) /\
  (c_error l = true -> forall x, In x c -> is_beside x = false /\ is_below x = false).
Proof.
  unfold chain_last.
  assert (N : forall (f : channel -> bool), existsb f c = false <-> forall x, In x c -> f x = false).
  { intros f. clear. induction c as [|y c IH]; cbn [existsb In]; [split; [contradiction|auto]|]. rewrite orb_false_iff, IH. split; [intros (A & B) x [<-|H]; auto|intros H; split; auto]. }
  split.
  - destruct (negb (stackable (c_kind l)) && existsb is_stack c) eqn:E1; [discriminate|]. destruct (c_error l && existsb (fun x => is_beside x || is_below x) c) eqn:E2; [discriminate|]. intros E. injection E as <-. split; auto. split.
    + intros Hk. apply N. apply andb_false_iff in E1. destruct E1 as [E1|E1]; auto. exfalso. cbn [In] in Hk. destruct Hk as [Hk|[Hk|[Hk|[]]]]; rewrite <- Hk in E1; discriminate.
    + intros He x Hx. rewrite He in E2. cbn [andb] in E2. pose proof (proj1 (N _) E2 x Hx) as Y. apply orb_false_iff in Y. exact Y.
  - intros (-> & H1 & H2).
    assert (E1 : negb (stackable (c_kind l)) && existsb is_stack c = false).
    { destruct (c_kind l); auto; cbn [stackable negb andb]; apply N; apply H1; cbn; auto. }
    rewrite E1. assert (E2 : c_error l && existsb (fun x => is_beside x || is_below x) c = false); [|rewrite E2; reflexivity].
    destruct (c_error l); auto. cbn [andb]. apply N. intros x Hx. apply orb_false_iff. auto.
Qed.
Print Assumptions C59_last_step.
Theorem C59_heatmap_step c l p : chain_heatmap c l = Ok p <-> p = {| p2_chain := c; p2_last := l |} /\ forall x, In x c -> is_overlay x = false /\ is_stack x = false.
Proof.
  unfold chain_heatmap.
  assert (N : forall (f : channel -> bool), existsb f c = false <-> forall x, In x c -> f x = false).
  { intros f. clear. induction c as [|y c IH]; cbn [existsb In]; [split; [contradiction|auto]|]. rewrite orb_false_iff, IH. split; [intros (A & B) x [<-|H]; auto|intros H; split; auto]. }
  split.
  - destruct (existsb is_overlay c) eqn:E1; [discriminate|]. destruct (existsb is_stack c) eqn:E2; [discriminate|]. intros E. injection E as <-. split; auto. intros x Hx. split; [apply (proj1 (N _) E1 x Hx)|apply (proj1 (N _) E2 x Hx)].
  - intros (-> & H). assert (E1 : existsb is_overlay c = false) by (apply N; intros x Hx; apply H; auto). assert (E2 : existsb is_stack c = false) by (apply N; intros x Hx; apply H; auto). rewrite E1, E2. reflexivity.
Qed.
Print Assumptions C59_heatmap_step.
Example C59_example : do_steps [] [SOverlay pd_g; SStack pd_y None] = Ok (p1_chain ve_plot) /\ chain_last (p1_chain ve_plot) (p1_last ve_plot) = Ok ve_plot /\
  do_steps [] [SOverlay pd_g; SBelow pd_x; SOverlay pd_y] = Err TypeError /\ chain_last (p1_chain ve_plot) (ve_last TStep pd_x false) = Err TypeError.
Proof. repeat split. Qed.
