(** When rebinning succeeds, and rebinning twice. *)
From Coq Require Import String Sorted.
From Verif Require Import Base Num NumFacts Axis AxisSpec AxisProofs AxisProofs2 AxisMain CompareProofs Calc Content Fill FillSpec FillProofs FillProofs2 FillProofs3 FillMain Tree Order Expr ExprFacts
  HistAlg AlgSpec HistAlgProofs HistAlgMain Nd NdProofs Proj ProjSpec ProjProofs ProjMain ProjMain2 ProjFill ProjLaws ProjDrop Remap Select SelSpec SelAxis SelAxis2 SelContent SelMain SelFill SelHist
  Rebin RebinSpec RebinAxis RebinAxis2 RebinContent RebinMain RebinFill.
Local Open Scope list_scope.

(** ** The result, given the edges of the axis *)
Lemma rebin_result parse h arg q a es u o nf cl edges : hobj_ok h -> numeric_axis a -> names_axis parse h arg q a -> split_like a es u o nf cl ->
  (forall e, In e edges -> In e es) ->
  (exists e, mk_split (axis_expr a) edges u o nf cl = Err e /\ rebin parse (view h) arg edges = Err e) \/
  (exists js, mk_split (axis_expr a) edges u o nf cl = Ok (ASplit (axis_expr a) (sort_num edges) u o nf cl) /\ strictly_sorted (sort_num edges) /\ sort_num edges <> [] /\
     positions es (sort_num edges) js /\
     rebin parse (view h) arg edges = Ok (view (rebinned q (ASplit (axis_expr a) (sort_num edges) u o nf cl) (ranges (length es - 1) u o nf js) h))).
Proof.
  intros Hok Hnum Hname SL Hin. pose proof (find_arg_names _ _ _ _ _ Hok Hnum Hname) as Ef.
  pose proof SL as (Hs & Hn & Hne & Hts & Hedge & Hflags & Hkeys). unfold rebin. cbn [view p_head p_content o_group o_fixed o_prof with_content].
  rewrite Ef. unfold rebinsplit. rewrite Hts. cbn [bind]. rewrite (proj2 (edges_in es edges Hn) Hin).
  destruct (mk_split (axis_expr a) edges u o nf cl) as [a'|e] eqn:Ea'; [right|left; exists e; auto].
  pose proof (mk_split_ok _ _ _ _ _ _ _ Ea') as (-> & Hed & Hdup). set (news := sort_num edges) in *.
  assert (Hnn : nonan edges) by (intros x Hx; apply Hn; auto). destruct (mk_split_edges _ _ _ _ _ _ _ Hnn Ea') as (Hs' & Hne' & Hn').
  assert (Hin' : forall e, In e news -> In e es) by (intros e He; apply Hin; apply sort_num_in; auto).
  destruct (positions_ex es news Hin') as (js & Hp). exists js. split; [auto|split; [auto|split; [auto|split; [auto|]]]].
  set (rs := ranges (length es - 1) u o nf js). cbn [bind].
  pose proof (rebin_ranges_ok es u o nf news js Hs Hn Hs' Hne' Hp) as Hrr. fold rs in Hrr.
  destruct (Hname) as (Ha & _). destruct (nth_tots _ _ _ Ha) as (Ht & Hq). assert (Hqf : q < length (o_fixed h)) by (apply nth_error_Some; congruence).
  destruct (Hok) as (_ & _ & _ & HC). unfold view. rewrite rebinned_layout. cbn [p_content o_layout].
  destruct HC as [Hc|Hc].
  - rewrite Hc. cbn [embed bind fst snd]. change (rebuild (with_content h CNone)) with (rebuild h). rewrite rebuild_rebin by auto.
    cbn [rebinned with_axis with_content o_content]. rewrite Hc. reflexivity.
  - pose proof (embed_content_not_none _ _ _ Hc) as En.
    replace (length (o_group h) + q - length (o_group h)) with q by lia.
    pose proof (rebin_content_embed q es news u o nf rs _ _ _ Hq Hrr Hc) as Er. cbv zeta in Er.
    destruct (embed (o_layout h) (o_content h)) eqn:Ee; try congruence; rewrite Er; cbn [bind fst snd];
      change (rebuild (with_content h CNone)) with (rebuild h); rewrite rebuild_rebin by auto; reflexivity.
Qed.
Lemma rebin_bad_edge parse h arg q a edges e : hobj_ok h -> numeric_axis a -> names_axis parse h arg q a -> In e edges -> ~ rebin_edge a e ->
  rebin parse (view h) arg edges = Err ValueError.
Proof.
  intros Hok Hnum Hname He Hb. pose proof (find_arg_names _ _ _ _ _ Hok Hnum Hname) as Ef. destruct (numeric_split_like a Hnum) as (es & u & o & nf & cl & SL).
  pose proof SL as (Hs & Hn & Hne & Hts & Hedge & _). unfold rebin. cbn [view p_head p_content o_group o_fixed o_prof with_content].
  rewrite Ef. unfold rebinsplit. rewrite Hts. cbn [bind]. destruct (forallb _ edges) eqn:E; [|reflexivity].
  exfalso. apply Hb, Hedge. apply (proj1 (edges_in es edges Hn) E). auto.
Qed.

(** ** The slices of two rebinnings in a row *)
Definition bounds (m : nat) (u o : bool) (js : list nat) : list nat :=
  (if u then [0] else []) ++ map (plus (b2n u)) js ++ (if o then [m + b2n u + b2n o] else []).
Lemma pairs_of_snoc {A} (l : list A) : forall x y, pairs_of (x :: l ++ [y]) = pairs_of (x :: l) ++ [(last (x :: l) x, y)].
Proof.
  induction l as [|z l IH]; intros x y; [reflexivity|]. change ((x, z) :: pairs_of (z :: l ++ [y]) = (x, z) :: pairs_of (z :: l) ++ [(last (z :: l) x, y)]).
  rewrite IH. do 3 f_equal. f_equal. clear. revert z. induction l as [|w l IH]; intros z; [reflexivity|]. change (last (w :: l) z = last (w :: l) x).
  clear. revert w. induction l as [|v l IH]; intros w; [reflexivity|exact (IH v)].
Qed.
Lemma last_default {A} (l : list A) : forall x a b, last (x :: l) a = last (x :: l) b.
Proof. induction l as [|v l IH]; intros x a b; [reflexivity|exact (IH v a b)]. Qed.
Lemma ranges_bounds m u o nf js : js <> [] ->
  ranges m u o nf js = pairs_of (bounds m u o js) ++ (if nf then [(m + b2n u + b2n o, S (m + b2n u + b2n o))] else []).
Proof.
  intros Hj. unfold ranges. rewrite !app_assoc. f_equal. unfold bounds. destruct js as [|j js]; [congruence|]. cbn [map hd].
  assert (Ho : pairs_of (b2n u + j :: map (plus (b2n u)) js) ++ (if o then [(b2n u + last (j :: js) 0, m + b2n u + b2n o)] else []) =
    pairs_of ((b2n u + j :: map (plus (b2n u)) js) ++ (if o then [m + b2n u + b2n o] else []))).
  { destruct o; [|rewrite !app_nil_r; reflexivity]. cbn [app]. rewrite pairs_of_snoc. do 3 f_equal. clear. revert j. induction js as [|k js IH]; intros j; [reflexivity|].
    specialize (IH k). cbn [map] in *. change (last (b2n u + j :: b2n u + k :: map (Nat.add (b2n u)) js) (b2n u + j)) with (last (b2n u + k :: map (Nat.add (b2n u)) js) (b2n u + j)).
    change (last (j :: k :: js) 0) with (last (k :: js) 0). rewrite (last_default _ _ (b2n u + j) (b2n u + k)). exact IH. }
  rewrite <- app_assoc, Ho. destruct u; reflexivity.
Qed.
Lemma pairs_nth (bs : list nat) i : S i < length bs -> nth i (pairs_of bs) (0, 0) = (nth i bs 0, nth (S i) bs 0).
Proof.
  intros H. apply nth_error_nth. apply pairs_of_nth. split; apply nth_error_nth'; lia.
Qed.
Lemma sorted_nth bs : StronglySorted Nat.le bs -> forall i j, i <= j -> j < length bs -> nth i bs 0 <= nth j bs 0.
Proof.
  induction 1 as [|x l H IH F]; intros [|i] [|j] Hij Hj; cbn in *; try lia.
  - rewrite Forall_forall in F. apply F, nth_In. lia.
  - apply IH; lia.
Qed.
Lemma chain_between bs : StronglySorted Nat.le bs -> forall n lo, lo + n < length bs ->
  flat_map (fun i => range_list (nth i (pairs_of bs) (0, 0))) (seq lo n) = seq (nth lo bs 0) (nth (lo + n) bs 0 - nth lo bs 0).
Proof.
  intros Hs. induction n as [|n IH]; intros lo H; [rewrite Nat.add_0_r, Nat.sub_diag; reflexivity|]. cbn [seq flat_map]. rewrite IH by lia. rewrite pairs_nth by lia.
  unfold range_list; cbn [fst snd]. pose proof (sorted_nth bs Hs lo (S lo)). pose proof (sorted_nth bs Hs (S lo) (S lo + n)).
  replace (lo + S n) with (S lo + n) by lia.
  replace (nth (S lo + n) bs 0 - nth lo bs 0) with ((nth (S lo) bs 0 - nth lo bs 0) + (nth (S lo + n) bs 0 - nth (S lo) bs 0)) by lia.
  rewrite seq_app. do 2 f_equal. lia.
Qed.
Lemma bounds_sorted m u o js : StronglySorted lt js -> Forall (fun j => j <= m) js -> StronglySorted Nat.le (bounds m u o js).
Proof.
  intros Hs Hm. assert (A : StronglySorted Nat.le (map (plus (b2n u)) js ++ (if o then [m + b2n u + b2n o] else []))).
  { induction Hs as [|x l H IH F]; [destruct o; repeat constructor|]. inversion Hm; subst. cbn [map app]. constructor; auto. apply Forall_app. split.
    - apply Forall_map. eapply Forall_impl; [|exact F]. cbn; intros; lia.
    - destruct o; constructor; auto. lia. }
  unfold bounds. destruct u; auto. constructor; auto. apply Forall_forall. intros; lia.
Qed.
Lemma bounds_length m u o js : length (bounds m u o js) = length js + b2n u + b2n o.
Proof. unfold bounds. rewrite !app_length, map_length. destruct u, o; cbn; lia. Qed.
Lemma bounds_compose m u o js1 js2 : js1 <> [] -> Forall (fun k => k < length js1) js2 ->
  bounds m u o (map (fun k => nth k js1 0) js2) = map (fun k => nth k (bounds m u o js1) 0) (bounds (length js1 - 1) u o js2).
Proof.
  intros H1 H2. unfold bounds. rewrite !map_app. f_equal; [destruct u; reflexivity|]. f_equal.
  - rewrite !map_map. apply map_ext_in. intros k Hk. rewrite Forall_forall in H2. specialize (H2 k Hk).
    rewrite app_nth2 by (destruct u; cbn; lia). replace (b2n u + k - length (if u then [0] else [])) with k by (destruct u; cbn; lia).
    rewrite app_nth1 by (rewrite map_length; auto). rewrite (nth_indep (map (plus (b2n u)) js1) 0 (b2n u + 0)) by (rewrite map_length; auto). rewrite (map_nth (plus (b2n u))). reflexivity.
  - destruct o; [|reflexivity]. cbn [map]. f_equal. assert (0 < length js1) by (destruct js1; [congruence|cbn; lia]).
    rewrite app_nth2 by (destruct u; cbn; lia). rewrite app_nth2; rewrite map_length; [|destruct u; cbn; lia].
    match goal with |- _ = nth ?i _ _ => replace i with 0 by (destruct u; cbn; lia) end. reflexivity.
Qed.
Lemma parts_compose m u o nf js1 js2 i : StronglySorted lt js1 -> Forall (fun j => j <= m) js1 -> js1 <> [] -> StronglySorted lt js2 -> js2 <> [] -> Forall (fun k => k < length js1) js2 ->
  i < length (ranges (length js1 - 1) u o nf js2) ->
  flat_map (part (ranges m u o nf js1)) (part (ranges (length js1 - 1) u o nf js2) i) = part (ranges m u o nf (map (fun k => nth k js1 0) js2)) i.
Proof.
  intros S1 M1 N1 S2 N2 L2 Hi. set (m1 := length js1 - 1) in *. assert (Hl1 : 0 < length js1) by (destruct js1; [congruence|cbn; lia]).
  assert (N12 : map (fun k => nth k js1 0) js2 <> []) by (destruct js2; cbn; congruence).
  assert (Hl2 : 0 < length js2) by (destruct js2; [congruence|cbn; lia]).
  rewrite (ranges_length _ _ _ _ _ N2) in Hi. unfold part. rewrite (ranges_bounds m u o nf js1), (ranges_bounds m1 u o nf js2), (ranges_bounds m u o nf (map _ js2)) by auto.
  rewrite bounds_compose by auto. fold m1. set (b1 := bounds m u o js1). set (b2 := bounds m1 u o js2).
  assert (B1 : length b1 = length js1 + b2n u + b2n o) by apply bounds_length. assert (B2 : length b2 = length js2 + b2n u + b2n o) by apply bounds_length.
  assert (Sb1 : StronglySorted Nat.le b1) by (apply bounds_sorted; auto).
  assert (M2 : Forall (fun j => j <= m1) js2) by (eapply Forall_impl; [|exact L2]; cbn; unfold m1; intros; lia).
  assert (Sb2 : StronglySorted Nat.le b2) by (apply bounds_sorted; auto).
  destruct (Nat.lt_ge_cases i (length b2 - 1)) as [L|L].
  - rewrite !app_nth1 by (rewrite pairs_of_length, ?map_length; auto). rewrite !pairs_nth by (rewrite ?map_length; lia).
    rewrite !(nth_indep (map _ b2) 0 (nth 0 b1 0)) by (rewrite map_length; lia). rewrite !(map_nth (fun k => nth k b1 0)).
    pose proof (sorted_nth b2 Sb2 i (S i) ltac:(lia) ltac:(lia)) as Hle.
    assert (Hhi : nth (S i) b2 0 < length b1).
    { assert (In (nth (S i) b2 0) b2) as Hin by (apply nth_In; lia). revert Hin. generalize (nth (S i) b2 0). intros v. unfold b2, bounds. rewrite B1. rewrite !in_app_iff. intros [Hin|[Hin|Hin]].
      - destruct u; cbn in Hin; [destruct Hin as [<-|[]]; lia|contradiction].
      - apply in_map_iff in Hin. destruct Hin as (k & <- & Hk). rewrite Forall_forall in L2. specialize (L2 k Hk). lia.
      - destruct o; cbn in Hin; [destruct Hin as [<-|[]]; unfold m1; cbn; lia|contradiction]. }
    set (lo := nth i b2 0) in *. set (hi := nth (S i) b2 0) in *. unfold range_list at 2 3; cbn [fst snd].
    transitivity (flat_map (fun k => range_list (nth k (pairs_of b1) (0, 0))) (seq lo (hi - lo))).
    + rewrite !flat_map_concat_map. f_equal. apply map_ext_in. intros k Hk. apply in_seq in Hk. f_equal. apply app_nth1. rewrite pairs_of_length. lia.
    + rewrite chain_between by (auto; lia). replace (lo + (hi - lo)) with hi by lia. reflexivity.
  - assert (nf = true) as -> by (destruct nf; auto; cbn in Hi; lia). cbn [b2n] in Hi.
    rewrite !app_nth2 by (rewrite pairs_of_length, ?map_length; lia). rewrite !pairs_of_length, map_length. replace (i - (length b2 - 1)) with 0 by lia. cbn [nth].
    unfold range_list at 2 3; cbn [fst snd]. replace (S (m1 + b2n u + b2n o) - (m1 + b2n u + b2n o)) with 1 by lia. replace (S (m + b2n u + b2n o) - (m + b2n u + b2n o)) with 1 by lia.
    cbn [seq flat_map]. rewrite app_nil_r. rewrite app_nth2 by (rewrite pairs_of_length; unfold m1; lia). rewrite pairs_of_length.
    replace (m1 + b2n u + b2n o - (length b1 - 1)) with 0 by (unfold m1; lia). cbn [nth]. unfold range_list; cbn [fst snd].
    replace (S (m + b2n u + b2n o) - (m + b2n u + b2n o)) with 1 by lia. reflexivity.
Qed.
Lemma at_axis_twice {A} (f g : A -> A) l : forall q, at_axis q f (at_axis q g l) = at_axis q (fun x => f (g x)) l.
Proof. induction l as [|x l IH]; intros [|q]; cbn; auto. rewrite IH. reflexivity. Qed.
Lemma layout_with_twice q n n1 L : layout_with q n (layout_with q n1 L) = layout_with q n L.
Proof. unfold layout_with. cbn. rewrite at_axis_twice. reflexivity. Qed.
Lemma merge_compose q L rs1 rs2 rs12 n1 n2 d : q < length (l_tots L) -> length d = l_size L ->
  (forall i, i < n1 -> forall k, In k (part rs1 i) -> k < nth q (l_tots L) 0) ->
  (forall i, i < n2 -> (forall k, In k (part rs2 i) -> k < n1) /\ flat_map (part rs1) (part rs2 i) = part rs12 i) ->
  merge_data q rs2 n2 (layout_with q n1 L) (merge_data q rs1 n1 L d) = merge_data q rs12 n2 L d.
Proof.
  intros Hq Hd H1 H2. set (L1 := layout_with q n1 L). set (L2 := layout_with q n2 L).
  assert (Hq1 : q < length (l_tots L1)) by (unfold L1; cbn; rewrite at_axis_length; auto).
  assert (EL : layout_with q n2 L1 = L2) by apply layout_with_twice.
  apply (array_ext (l_shape L2)).
  - rewrite merge_length by auto. rewrite EL. symmetry. apply prod_shape.
  - rewrite merge_length by auto. symmetry. apply prod_shape.
  - intros i Hi. assert (exists ss j, i = ss ++ [j] /\ in_shape L2 ss /\ j < l_last L) as (ss & j & -> & Hs & Hj).
    { unfold l_shape in Hi. apply Forall2_app_inv_r in Hi. destruct Hi as (ss & jj & Hs & Hjj & ->). inversion Hjj as [|j ? ? ? Hj Hn]; subst. inversion Hn; subst. exists ss, j. auto. }
    assert (Hl : length ss = length (l_tots L2)) by (eapply Forall2_length; exact Hs).
    unfold aget, l_shape. rewrite ravel_last by auto. change (l_last L2) with (l_last L).
    assert (Hl2 : q < length ss) by (rewrite Hl; unfold L2; cbn; rewrite at_axis_length; auto).
    assert (exists i, nth_error ss q = Some i) as (i & Hi') by (apply nth_error_Some in Hl2; destruct (nth_error ss q); [eauto|congruence]).
    assert (Hi2 : i < n2) by (apply (in_shape_nth _ _ _ _ Hs) in Hi'; unfold L2 in Hi'; cbn [layout_with l_tots] in Hi'; rewrite at_axis_nth in Hi' by auto; auto).
    destruct (H2 i Hi2) as (P2 & P12).
    transitivity (nsum (map (fun k => nth (ravel (l_tots L1) (at_axis q (fun _ => k) ss) * l_last L + j) (merge_data q rs1 n1 L d) nzero) (part rs2 i))).
    { rewrite <- EL in *. apply (merge_cell q rs2 n2 L1); auto. intros k Hk. unfold L1. cbn [layout_with l_tots]. rewrite at_axis_nth by auto. auto. }
    transitivity (nsum (map (fun k => nth (ravel (l_tots L) (at_axis q (fun _ => k) ss) * l_last L + j) d nzero) (part rs12 i))).
    2: { symmetry. apply (merge_cell q rs12 n2 L); auto. intros k Hk. rewrite <- P12 in Hk. apply in_flat_map in Hk. destruct Hk as (k1 & Hk1 & Hk). eapply H1; eauto. }
    rewrite <- P12, map_flat_map, nsum_flat_map. f_equal. apply map_ext_in. intros k1 Hk1. unfold L1.
    assert (S1 : in_shape L1 (at_axis q (fun _ => k1) ss)).
    { apply (at_axis_in_shape q n2 L1); [rewrite EL; auto|]. unfold L1. cbn [layout_with l_tots]. rewrite at_axis_nth by auto. auto. }
    rewrite (merge_cell q rs1 n1 L d (at_axis q (fun _ => k1) ss) j k1); auto.
    + f_equal. apply map_ext. intros k. rewrite at_axis_twice. reflexivity.
    + rewrite nth_error_at_axis, Hi'. reflexivity.
    + apply H1. auto.
Qed.
Lemma positions_fun es : NoDup es -> forall news js js', positions es news js -> positions es news js' -> js = js'.
Proof.
  intros Hn news js js' H. revert js'. induction H as [|e news j js Ej H IH]; intros js' H'; inversion H'; subst; auto. f_equal; auto.
  apply (proj1 (NoDup_nth_error es)); auto; [apply nth_error_Some; congruence|congruence].
Qed.
Lemma positions_compose es news1 news2 js1 js2 : positions es news1 js1 -> positions news1 news2 js2 -> positions es news2 (map (fun k => nth k js1 0) js2).
Proof.
  intros H1 H2. induction H2 as [|e news k js Ek H IH]; cbn [map]; constructor; auto.
  destruct (nth_error js1 k) as [j|] eqn:Ej.
  - rewrite (nth_error_nth _ _ 0 Ej). destruct (positions_nth _ _ _ H1 k j Ej) as (e' & E1 & E2). congruence.
  - apply nth_error_None in Ej. rewrite (positions_length _ _ _ H1) in Ej. apply nth_error_None in Ej. congruence.
Qed.
Lemma positions_lt es news js : positions es news js -> Forall (fun j => j < length es) js.
Proof. induction 1; constructor; auto. apply nth_error_Some. congruence. Qed.

(** Rebinning in two steps gives what one step gives. *)
Lemma rebin_twice parse h arg q a edges1 g1' :
  hobj_ok h -> numeric_axis a -> names_axis parse h arg q a -> rebin parse (view h) arg edges1 = Ok g1' ->
  exists a1 rs1, g1' = view (rebinned q a1 rs1 h) /\ hobj_ok (rebinned q a1 rs1 h) /\ has_edges a a1 edges1 /\ numeric_axis a1 /\ axis_expr a1 = axis_expr a /\
    forall arg' edges2, names_axis parse (rebinned q a1 rs1 h) arg' q a1 -> (forall e, In e edges2 -> In e edges1) ->
      rebin parse g1' arg' edges2 = rebin parse (view h) arg edges2.
Proof.
  intros Hok Hnum Hname E1. destruct (numeric_split_like a Hnum) as (es & u & o & nf & cl & SL). pose proof SL as (Hs & Hn & Hne & Hts & Hedge & Hflags & Hkeys).
  assert (Hin1 : forall e, In e edges1 -> In e es).
  { unfold rebin in E1. cbn [view p_head p_content o_group o_fixed o_prof with_content] in E1. rewrite (find_arg_names _ _ _ _ _ Hok Hnum Hname) in E1.
    unfold rebinsplit in E1. rewrite Hts in E1. cbn [bind] in E1. destruct (forallb _ edges1) eqn:Ei; [|discriminate]. apply (proj1 (edges_in es edges1 Hn) Ei). }
  destruct (rebin_result parse h arg q a es u o nf cl edges1 Hok Hnum Hname SL Hin1) as [(e & _ & E)|(js1 & M1 & S1 & N1 & P1 & E)]; [congruence|].
  rewrite E in E1. inversion E1; subst g1'. clear E1 E. set (news1 := sort_num edges1) in *. set (rs1 := ranges (length es - 1) u o nf js1).
  set (a1 := ASplit (axis_expr a) news1 u o nf cl) in *. destruct (Hname) as (Ha & _). destruct (nth_tots _ _ _ Ha) as (Ht & Hq).
  assert (Hnum1 : numeric_axis a1) by (exists edges1; split; [intros x Hx; apply Hn; auto|exact M1]).
  assert (Hn1 : nonan news1) by (intros x Hx; apply Hn, Hin1, sort_num_in; auto).
  assert (Kl : length (keys a) = totbins a) by (apply keys_length_totbins; destruct a; try contradiction; try reflexivity; try discriminate).
  assert (Kt : totbins a = length es - 1 + b2n u + b2n o + b2n nf).
  { rewrite <- Kl, (Forall2_length _ _ _ Hkeys). apply keys_split_length; auto. }
  assert (J1 : js1 <> []) by (intros ->; inversion P1; congruence). assert (Lj1 : length js1 = length news1) by (eapply positions_length; eauto).
  assert (Sj1 : StronglySorted lt js1) by (eapply positions_sorted; [exact Hs| |exact P1]; auto).
  assert (Ln1 : 0 < length news1) by (destruct news1; [congruence|cbn; lia]). assert (Les : 0 < length es) by (destruct es; [congruence|cbn; lia]).
  assert (Mj1 : Forall (fun j => j <= length es - 1) js1) by (eapply Forall_impl; [|exact (positions_lt _ _ _ P1)]; cbn; intros; lia).
  assert (Hr1 : forall i k, i < totbins a1 -> In k (part rs1 i) -> k < totbins a).
  { intros i k Hi Hk. assert (U : unions_of (possible a) (keys a) (keys a1) (part rs1)) by (apply (unions_like a es u o nf cl); auto; apply split_unions; auto).
    assert (Kl1 : length (keys a1) = totbins a1) by (apply keys_length_totbins; [reflexivity|discriminate]).
    destruct (nth_error (keys a1) i) as [k'|] eqn:Ek; [|apply nth_error_None in Ek; lia]. destruct (U i k' Ek) as (_ & U2 & _). rewrite <- Kl. auto. }
  destruct (rebinned_cells q a a1 rs1 h Hok Ha eq_refl Hr1) as (Hok1 & _).
  exists a1, rs1. split; [auto|split; [auto|split; [|split; [auto|split; [reflexivity|]]]]].
  { exists news1, u, o, nf, cl. split; [reflexivity|split; [intros e; apply sort_num_in|split; [apply sort_num_length|exact Hflags]]]. }
  intros arg' edges2 Hname1 Hsub. pose proof (split_split_like _ _ _ _ _ _ Hnum1) as SL1. fold a1 in SL1.
  assert (Hin2 : forall e, In e edges2 -> In e news1) by (intros e He; apply sort_num_in; auto).
  assert (Hin12 : forall e, In e edges2 -> In e es) by auto.
  destruct (rebin_result parse _ arg' q a1 news1 u o nf cl edges2 Hok1 Hnum1 Hname1 SL1 Hin2) as [(e & Me & E2)|(js2 & M2 & S2 & N2 & P2 & E2)];
    destruct (rebin_result parse h arg q a es u o nf cl edges2 Hok Hnum Hname SL Hin12) as [(e' & Me' & E12)|(js & M12 & _ & _ & P12 & E12)]; rewrite E2, E12;
    change (axis_expr a1) with (axis_expr a) in *; try congruence.
  set (news2 := sort_num edges2) in *. set (a2 := ASplit (axis_expr a) news2 u o nf cl). assert (Hn2 : nonan news2) by (intros x Hx; apply Hn, Hin12, sort_num_in; auto).
  assert (js = map (fun k => nth k js1 0) js2) as -> by (eapply positions_fun; [apply sorted_nodup; exact Hs|exact P12|eapply positions_compose; eauto]).
  do 2 f_equal. unfold rebinned at 1 3. rewrite rebinned_layout. unfold with_axis. cbn [rebinned with_axis o_group o_fixed o_prof o_weight o_filter o_defs o_attach o_content].
  rewrite at_axis_twice, cmap_cmap. f_equal. destruct Hok as (_ & _ & _ & [->|Hc]); [reflexivity|]. eapply cmap_ext; [|exact Hc]. intros d Hd.
  assert (J2 : js2 <> []) by (intros ->; inversion P2; congruence). assert (Lj2 : length js2 = length news2) by (eapply positions_length; eauto).
  apply merge_compose; auto.
  - intros i Hi k Hk. rewrite Ht. eauto.
  - intros i Hi. cbn [totbins a1 a2] in *. rewrite <- Lj1. split.
    + intros k Hk. assert (U : unions_of (possible a1) (keys a1) (keys a2) (part (ranges (length news1 - 1) u o nf js2))) by (apply (unions_like a1 news1 u o nf cl); auto; apply split_unions; auto; apply SL1).
      assert (Kl1 : length (keys a1) = totbins a1) by (apply keys_length_totbins; [reflexivity|discriminate]).
      assert (Kl2 : length (keys a2) = totbins a2) by (apply keys_length_totbins; [reflexivity|discriminate]). cbn [totbins a1 a2] in *.
      destruct (nth_error (keys a2) i) as [k'|] eqn:Ek; [|apply nth_error_None in Ek; lia]. destruct (U i k' Ek) as (_ & U2 & _). rewrite Lj1 in Hk |- *. specialize (U2 k Hk). lia.
    + apply parts_compose; auto.
      * eapply positions_sorted; [| |exact P2]; auto.
      * rewrite Lj1. eapply positions_lt; eauto.
      * rewrite ranges_length by auto. lia.
Qed.
