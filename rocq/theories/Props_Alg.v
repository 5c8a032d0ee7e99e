(** Properties of histogram arithmetic, comparison, grouping and serialization: C25-C28, C32-C34, C56. *)
From Coq Require Import String Permutation.
From Verif Require Import Base Num NumFacts Axis Calc Content Fill FillSpec FillProofs FillProofs2 FillProofs3 FillMain
  Tree Instr InstrSpec InstrProofs Elem HistFill HistSpec HistFillProofs HistFillMain HistFillMain2 HistFillMain3 HistFillMain4 Props_Hist
  HistAlg AlgSpec HistAlgProofs HistAlgMain Json JsonProofs CompareProofs.
Local Open Scope string_scope.
Local Open Scope list_scope.

(** ** Concrete histograms: groupby("g"), bin("x", 2, 0, 2, no flow bins), weight="w" *)
Definition alg_bin : axis := ABin "x" 2 (nz 0) (nz 2) false false false true.
Definition alg_h (c : content) : hobj := {|
  o_group := [AGroupby "g"]; o_fixed := [alg_bin]; o_prof := []; o_weight := Some (XStr "w"); o_filter := None;
  o_defs := []; o_attach := []; o_content := c |}.
Definition arr (l : list Z) : content := CArr (map nz l).
Definition alg_1 := alg_h (CDict [(GStr "a", arr [1; 2; 3; 4]%Z)]).
Definition alg_2 := alg_h (CDict [(GStr "b", arr [5; 6; 7; 8]%Z); (GStr "a", arr [10; 20; 30; 40]%Z)]).
Definition alg_3 := alg_h CNone.
(** the same without weight, not grouped *)
Definition alg_u (w : option wsrc) (c : content) : hobj := {|
  o_group := []; o_fixed := [alg_bin]; o_prof := []; o_weight := w; o_filter := None;
  o_defs := []; o_attach := []; o_content := c |}.
Ltac ok_tac := repeat match goal with
  | |- hobj_ok _ => split
  | |- addable _ _ => split
  | |- _ /\ _ => split
  | |- Forall _ _ => constructor
  | |- key_ok _ => discriminate
  | |- NoDup [] => constructor
  | |- NoDup (_ :: _) => constructor
  | |- ~ In _ _ => cbn; intuition discriminate
  | |- hist_ok _ _ _ => first [left; reflexivity|right; cbn]
  | |- _ => reflexivity
  end.
Example alg_ok : hobj_ok alg_1 /\ hobj_ok alg_2 /\ hobj_ok alg_3 /\ addable alg_1 alg_2 /\ addable alg_1 alg_3.
Proof.
  ok_tac.
Qed.

(** ** C25: addition of histograms with equal axes (both weighted or both not) *)
(** The sum exists, has the axes of the operands, adds cell by cell, and has a block wherever one of
    the operands has one. *)
Theorem C25_sum h g : hobj_ok h -> hobj_ok g -> addable h g ->
  exists s, hist_add h g = Ok s /\ hobj_ok s /\ o_axes s = o_axes h /\ weighted s = weighted h /\
    (forall ks ss kd, hcell s ks ss kd = nadd (hcell h ks ss kd) (hcell g ks ss kd)) /\
    (forall ks, has_block s ks <-> has_block h ks \/ has_block g ks).
Proof.
  intros Hh Hg (E & W). destruct (hist_add_main h g Hh Hg E W) as (c & A & O & _ & B).
  exists (with_content h c). split; [auto|]. split; [auto|]. split; [reflexivity|]. split; [reflexivity|]. split.
  - intros ks ss kd. unfold hcell. rewrite layout_with. cbn [with_content o_content].
    destruct (same_layout' h g Hh Hg E W) as (EL & _). rewrite EL.
    rewrite !cell_at, B. apply at_join. apply hobj_blocks_fit; auto.
  - intros ks. unfold has_block. cbn [with_content o_content]. rewrite B.
    destruct (block (o_content h) ks), (block (o_content g) ks); cbn [join]; intuition congruence.
Qed.

Theorem C25_commutative h g : hobj_ok h -> hobj_ok g -> addable h g ->
  exists s t, hist_add h g = Ok s /\ hist_add g h = Ok t /\ same_hist s t.
Proof.
  intros Hh Hg (E & W). destruct (hist_add_main h g Hh Hg E W) as (c & A & _ & _ & B).
  destruct (hist_add_main g h Hg Hh (axes_eqb_swap _ _ E) (eq_sym W)) as (c' & A' & _ & _ & B').
  exists (with_content h c), (with_content g c'). split; auto. split; auto. split.
  - apply axes_eqb_eq. exact E.
  - intros ks. cbn [with_content o_content]. rewrite B, B'. apply join_comm. apply hobj_blocks_fit; auto.
Qed.

Theorem C25_associative h g k : hobj_ok h -> hobj_ok g -> hobj_ok k -> addable h g -> addable g k ->
  exists hg gk s t, hist_add h g = Ok hg /\ hist_add hg k = Ok s /\ hist_add g k = Ok gk /\ hist_add h gk = Ok t /\
    same_hist s t.
Proof.
  intros Hh Hg Hk (E & W) (E' & W').
  destruct (hist_add_main h g Hh Hg E W) as (c & A & O & _ & B).
  destruct (hist_add_main g k Hg Hk E' W') as (c' & A' & O' & _ & B').
  destruct (hist_add_main (with_content h c) k O Hk) as (d & D & _ & _ & DB).
  { exact (axes_eqb_trans h g k E E'). } { exact (eq_trans W W'). }
  destruct (hist_add_main h (with_content g c') Hh O') as (d' & D' & _ & _ & DB').
  { exact E. } { exact W. }
  exists (with_content h c), (with_content g c'), (with_content (with_content h c) d), (with_content h d').
  split; [auto|]. split; [auto|]. split; [auto|]. split; [auto|]. split; [reflexivity|].
  intros ks. cbn [with_content o_content] in *. rewrite DB, DB', B, B'. apply join_assoc.
Qed.

(** Adding the cleared histogram, on either side, changes nothing at all. *)
Theorem C25_unit h : hobj_ok h -> axes_eqb (o_axes h) (o_axes h) = true ->
  hist_add h (hist_cleared h) = Ok h /\ hist_add (hist_cleared h) h = Ok h.
Proof.
  intros Hh E. unfold hist_add, hist_cleared. cbn [with_content o_axes o_group o_fixed o_prof].
  change (o_axes (with_content h CNone)) with (o_axes h). rewrite E.
  cbn [o_content with_content]. destruct h as [hg hf hp hw hfl hd ha c]; cbn [o_content] in *.
  destruct c; cbn [content_add bind]; rewrite ?copycontent_id; auto.
Qed.
Theorem C25_different_axes h g : axes_eqb (o_axes h) (o_axes g) = false -> hist_add h g = Err TypeError.
Proof. intros E. unfold hist_add. rewrite E. reflexivity. Qed.

(** Only the axes are checked: the sum of an unweighted and a weighted histogram is accepted, keeps
    the unweighted layout and has a content that does not fit it. *)
Theorem C25_mixed_weights_refuted :
  exists h g s, hobj_ok h /\ hobj_ok g /\ axes_eqb (o_axes h) (o_axes g) = true /\ hist_add h g = Ok s /\ ~ hobj_ok s.
Proof.
  exists (alg_u None (arr [1; 2]%Z)), (alg_u (Some (XStr "w")) (arr [1; 2; 3; 4]%Z)). eexists.
  split; [ok_tac|]. split; [ok_tac|]. split; [reflexivity|]. split; [reflexivity|].
  intros (_ & _ & _ & [H|H]); cbn in H; discriminate.
Qed.
Example C25_example : exists s, hist_add alg_1 alg_2 = Ok s /\ o_content s = CDict [(GStr "a", arr [11; 22; 33; 44]%Z); (GStr "b", arr [5; 6; 7; 8]%Z)].
Proof. eexists. split; [reflexivity|]. vm_compute. repeat (f_equal; try (apply Qc_is_canon; reflexivity)). Qed.

(** ** C26: adding filled histograms is filling with all the data *)
(** Row level: [c] is what the histogram held before. *)
Theorem C26_sum_of_fills L ng m k a b c : fill_pre L ng m a c -> fill_pre L ng m b CNone ->
  exists ca cb cab s, fill_rows L ng m a c = (ca, None) /\ fill_rows L ng m b CNone = (cb, None) /\
    fill_rows L ng m (a ++ b) c = (cab, None) /\ content_add k k ca cb = Ok s /\
    same_cells L s cab /\ (ng <= 1 -> same_content s cab).
Proof. apply sum_of_fills. Qed.

(** The histogram object that holds what a fill of [h] left ([profs]: its profile axes). *)
Definition held (h : hist) (profs : list axis) (w f : option wsrc) (defs : list (string * wsrc)) (att : list (string * string)) (c : content) : hobj := {|
  o_group := map fst (h_group h); o_fixed := map fst (h_fixed h); o_prof := profs;
  o_weight := w; o_filter := f; o_defs := defs; o_attach := att; o_content := c |}.
(** Whole fills: [C] is [A] followed by [B]; two copies of the histogram are filled with [A] and [B]
    and added; a third one is filled with [C]. *)
Theorem C26_end_to_end cast rnd user order h srcs A B C n m rows profs w f defs att :
  is_order order -> Permutation srcs (sources (hist_goals h)) -> hist_wf h -> no_bcast h ->
  args_ok h A n -> args_ok h B m -> chunked h A B C -> (exists s, hist_mentions h s /\ is_array A s) ->
  hist_ready cast rnd user h C (n + m) rows CNone ->
  (let axes := map fst (h_group h) ++ map fst (h_fixed h) ++ profs in axes_eqb axes axes = true) ->
  exists ca cb cc s,
    hist_fill cast rnd user order srcs h A CNone = (ca, None) /\
    hist_fill cast rnd user order srcs h B CNone = (cb, None) /\
    hist_fill cast rnd user order srcs h C CNone = (cc, None) /\
    hist_add (held h profs w f defs att ca) (held h profs w f defs att cb) = Ok s /\
    same_cells (hist_layout h) (o_content s) cc /\
    (length (h_group h) <= 1 -> same_content (o_content s) cc).
Proof.
  intros Ho Hp Hwf Hnb HA HB HC Har HR Hax. assert (Hpre := ready_pre cast rnd user _ _ _ _ _ Hwf HR).
  destruct HR as (E & _).
  assert (HC' := chunk_args h A B C n m HA HB HC Har).
  assert (E' := E). rewrite (rows_chunked cast rnd user h A B C n m) in E'; auto;
    [|intros s Hs; apply (proj1 HA s Hs)|intros s Hs; apply (proj1 HB s Hs)].
  apply bind_ok in E'. destruct E' as (ra & Ea & E'). apply bind_ok in E'. destruct E' as (rb & Eb & E').
  injection E' as <-.
  apply pre_app in Hpre. destruct Hpre as (Pa & Pb).
  destruct (sum_of_fills (hist_layout h) _ _ (l_last (o_layout (held h profs w f defs att CNone))) ra rb CNone Pa Pb)
    as (ca & cb & cc & s & F1 & F2 & F3 & A1 & S1 & S2).
  exists ca, cb, cc, (with_content (held h profs w f defs att ca) s).
  rewrite (fill_is_rows cast rnd user order h srcs Ho Hp Hwf Hnb A n ra); auto.
  rewrite (fill_is_rows cast rnd user order h srcs Ho Hp Hwf Hnb B m rb); auto.
  rewrite (fill_is_rows cast rnd user order h srcs Ho Hp Hwf Hnb C (n + m) (ra ++ rb)); auto.
  split; auto. split; auto. split; auto. split; [|auto].
  unfold hist_add. unfold o_axes, held. cbn [o_group o_fixed o_prof]. cbv zeta in Hax. rewrite Hax.
  cbn [o_content]. unfold o_layout in *. cbn [held o_fixed o_prof o_weight o_filter] in *. rewrite A1. reflexivity.
Qed.
(** ... met by the example of Props_Hist.v: three rows, one and then two. *)
Example C26_example :
  let A := gather [0] exA in let B := gather [1; 2] exA in
  (exists s, hist_mentions exh s /\ is_array A s) /\ hist_ready cast_x86 Fin nocall exh exA (1 + 2) exrows CNone /\
  (let axes := map fst (h_group exh) ++ map fst (h_fixed exh) ++ [] in axes_eqb axes axes = true).
Proof.
  split; [|split; [exact ex_ready|reflexivity]].
  exists "g". split; [exists (TName "g"); split; [left; reflexivity|constructor]|eexists; reflexivity].
Qed.

(** ** C27: the in-place operators agree with the pure ones (g is not changed: it is a value here;
    for arrays that are shared see Props_Heap.v) *)
Theorem C27_iadd h g : hobj_ok h -> hobj_ok g -> addable h g ->
  exists s, hist_add h g = Ok s /\ hist_iadd h g = (s, None).
Proof.
  intros Hh Hg (E & W). destruct (hist_add_main h g Hh Hg E W) as (c & A & O & C & _).
  exists (with_content h c). split; auto. unfold hist_iadd. rewrite E.
  destruct (same_layout' h g Hh Hg E W) as (EL & EG). rewrite EL.
  destruct Hh as (_ & _ & _ & Hh), Hg as (_ & _ & _ & Hg). rewrite EL, EG in Hg.
  rewrite (content_iadd_ok (o_layout h) _ (length (o_group h)) _ _ c Hh Hg C). reflexivity.
Qed.
(** With different axes both raise TypeError, and += leaves the histogram as it was. *)
Theorem C27_iadd_error h g : axes_eqb (o_axes h) (o_axes g) = false ->
  hist_add h g = Err TypeError /\ hist_iadd h g = (h, Some TypeError).
Proof. intros E. unfold hist_add, hist_iadd. rewrite E. auto. Qed.
Theorem C27_imul h v : hobj_ok h -> o_content h <> CNone ->
  exists s, hist_mul h v = Ok s /\ hist_rmul v h = Ok s /\ hist_imul h v = (s, None).
Proof.
  intros (_ & _ & _ & [H|H]) N; [contradiction|].
  destruct (content_mul_ok (o_layout h) v _ _ H) as (c & E1 & E2 & _). exists (with_content h c).
  unfold hist_rmul, hist_mul, hist_imul. rewrite E1, E2. auto.
Qed.
(** They disagree when an unweighted histogram gets a weighted one: + makes a content that does not
    fit, += raises ValueError. *)
Theorem C27_mixed_weights_refuted :
  exists h g s, hobj_ok h /\ hobj_ok g /\ axes_eqb (o_axes h) (o_axes g) = true /\ hist_add h g = Ok s /\
    hist_iadd h g = (h, Some ValueError).
Proof.
  exists (alg_u None (arr [1; 2]%Z)), (alg_u (Some (XStr "w")) (arr [1; 2; 3; 4]%Z)). eexists.
  split; [ok_tac|]. split; [ok_tac|]. split; [reflexivity|]. split; reflexivity.
Qed.
Example C27_example : o_content alg_1 <> CNone /\ exists s, hist_iadd alg_1 alg_2 = (s, None).
Proof. split; [discriminate|]. eexists. reflexivity. Qed.

(** ** C28: scaling by finite numbers *)
Lemma map_mul_mul a b d : map (fun x => nmul x (Fin b)) (map (fun x => nmul x (Fin a)) d) = map (fun x => nmul x (Fin (a * b)%Qc)) d.
Proof.
  rewrite map_map. apply map_ext. intros x. rewrite (nmul_comm x (Fin a)), nmul_comm, nmul_assoc_fin, nmul_comm.
  f_equal. f_equal. qc_eq.
Qed.
Lemma mul_blocks h v : hobj_ok h -> o_content h <> CNone ->
  exists s, hist_mul h v = Ok s /\ hobj_ok s /\ o_content s <> CNone /\ o_axes s = o_axes h /\ o_layout s = o_layout h /\
    forall ks, block (o_content s) ks = option_map (map (fun x => nmul x v)) (block (o_content h) ks).
Proof.
  intros (K1 & K2 & K3 & [H|H]) N; [contradiction|].
  destruct (content_mul_ok (o_layout h) v _ _ H) as (c & E1 & _ & O & B). exists (with_content h c).
  unfold hist_mul. rewrite E1. cbn [rmap bind]. split; [auto|]. split.
  { split; [auto|]. split; [auto|]. split; [auto|]. right. exact O. }
  split; [|auto]. cbn [with_content o_content]. destruct c; try discriminate. destruct (length (o_group h)); contradiction.
Qed.
Theorem C28_cells h q : hobj_ok h -> o_content h <> CNone ->
  exists s, hist_mul h (Fin q) = Ok s /\ hobj_ok s /\ o_axes s = o_axes h /\
    (forall ks ss kd, hcell s ks ss kd = nmul (hcell h ks ss kd) (Fin q)) /\
    (forall ks, has_block s ks <-> has_block h ks).
Proof.
  intros Hh N. destruct (mul_blocks h (Fin q) Hh N) as (s & E & O & _ & A & EL & B). exists s.
  split; [auto|]. split; [auto|]. split; [auto|]. split.
  - intros ks ss kd. unfold hcell. rewrite EL, !cell_at, B. destruct (block (o_content h) ks); cbn [option_map at_]; [apply nth_map_fin|symmetry; apply nmul_0_fin].
  - intros ks. unfold has_block. rewrite B. destruct (block (o_content h) ks); cbn [option_map]; intuition congruence.
Qed.
Theorem C28_product h a b : hobj_ok h -> o_content h <> CNone ->
  exists ha s t, hist_mul h (Fin a) = Ok ha /\ hist_mul ha (Fin b) = Ok s /\ hist_mul h (Fin (a * b)%Qc) = Ok t /\ same_hist s t.
Proof.
  intros Hh N. destruct (mul_blocks h (Fin a) Hh N) as (ha & E & O & N' & A & _ & B).
  destruct (mul_blocks ha (Fin b) O N') as (s & Es & _ & _ & As & _ & Bs).
  destruct (mul_blocks h (Fin (a * b)%Qc) Hh N) as (t & Et & _ & _ & At & _ & Bt).
  exists ha, s, t. split; [auto|]. split; [auto|]. split; [auto|]. split; [congruence|].
  intros ks. rewrite Bs, B, Bt. destruct (block (o_content h) ks); cbn [option_map]; auto. f_equal. apply map_mul_mul.
Qed.
Theorem C28_one h : hobj_ok h -> o_content h <> CNone -> exists s, hist_mul h none1 = Ok s /\ same_hist s h.
Proof.
  intros Hh N. destruct (mul_blocks h none1 Hh N) as (s & E & _ & _ & A & _ & B). exists s. split; auto. split; auto.
  intros ks. rewrite B. destruct (block (o_content h) ks); cbn [option_map]; auto. f_equal.
  rewrite <- (map_id l) at 2. apply map_ext. apply nmul_1_r.
Qed.
Lemma map_mul_add q d : forall e, map (fun x => nmul x (Fin q)) (map2 nadd d e) =
  map2 nadd (map (fun x => nmul x (Fin q)) d) (map (fun x => nmul x (Fin q)) e).
Proof.
  induction d as [|x d IH]; intros [|y e]; cbn [map map2]; auto. f_equal; auto.
  rewrite !(nmul_comm _ (Fin q)). apply nmul_add_distr_fin.
Qed.
Theorem C28_sum h g q : hobj_ok h -> hobj_ok g -> addable h g -> o_content h <> CNone -> o_content g <> CNone ->
  exists s sq hq gq t, hist_add h g = Ok s /\ hist_mul s (Fin q) = Ok sq /\
    hist_mul h (Fin q) = Ok hq /\ hist_mul g (Fin q) = Ok gq /\ hist_add hq gq = Ok t /\ same_hist sq t.
Proof.
  intros Hh Hg (E & W) Nh Ng. destruct (hist_add_main h g Hh Hg E W) as (c & A & O & _ & B).
  destruct (mul_blocks h (Fin q) Hh Nh) as (hq & E1 & O1 & N1 & A1 & L1 & B1).
  destruct (mul_blocks g (Fin q) Hg Ng) as (gq & E2 & O2 & N2 & A2 & L2 & B2).
  assert (Nc : o_content (with_content h c) <> CNone).
  { cbn [with_content o_content]. intros ->. destruct Hh as (_ & _ & _ & [?|Hh]); [contradiction|].
    assert (F : exists ks, block (o_content h) ks <> None \/ exists l, o_content h = CDict l) .
    { exists []. destruct (o_content h); [contradiction|left; discriminate|right; eauto]. }
    unfold hist_add in A. rewrite E in A.
    destruct (content_add _ _ (o_content h) (o_content g)) as [c'|] eqn:Ec; [|discriminate]. injection A as Ec'.
    subst c'. destruct (o_content h), (o_content g); try contradiction; cbn [content_add] in Ec; try discriminate.
    - destruct (arr_add _ _ _ _); discriminate.
    - destruct (add_items _ _ _); discriminate. }
  destruct (mul_blocks (with_content h c) (Fin q) O Nc) as (sq & E3 & O3 & N3 & A3 & L3 & B3).
  destruct (hist_add_main hq gq O1 O2) as (c' & A' & _ & _ & B').
  { rewrite A1, A2. exact E. } { unfold weighted. rewrite L1, L2. exact W. }
  exists (with_content h c), sq, hq, gq, (with_content hq c').
  split; [auto|]. split; [auto|]. split; [auto|]. split; [auto|]. split; [auto|]. split.
  - rewrite A3. cbn. symmetry. exact A1.
  - intros ks. cbn [with_content o_content] in *. rewrite B3, B, B', B1, B2.
    destruct (block (o_content h) ks), (block (o_content g) ks); cbn [join option_map]; auto. f_equal. apply map_mul_add.
Qed.
(** Scaling what a weighted fill left is filling with scaled weights, as far as the sums of weights
    and the profile sums go ... *)
Theorem C28_scaled_weights L ng rows q :
  fill_pre L ng ExprWeight rows CNone -> fill_pre L ng ExprWeight (map (scale_weight (Fin q)) rows) CNone ->
  qeqb q qc0 = false ->
  exists c cq s, fill_rows L ng ExprWeight rows CNone = (c, None) /\
    fill_rows L ng ExprWeight (map (scale_weight (Fin q)) rows) CNone = (cq, None) /\
    content_mul (Fin q) c = Ok s /\
    forall ks ss kd, in_shape L ss -> has_column L kd -> kd <> SumW2 ->
      cell L s ks ss (column_of L kd) = cell L cq ks ss (column_of L kd).
Proof.
  intros P1 P2 Hq. destruct (fill_ok _ _ _ _ _ P1) as (c & E1 & O1 & V1 & _).
  destruct (fill_ok _ _ _ _ _ P2) as (cq & E2 & O2 & V2 & _).
  destruct (content_mul_ok L (Fin q) ng c O1) as (s & Es & _ & _ & Bs).
  exists c, cq, s. split; auto. split; auto. split; auto. intros ks ss kd Hs Hk Hn.
  rewrite V2 by auto. rewrite !cell_at, Bs.
  assert (X : at_ (option_map (map (fun x => nmul x (Fin q))) (block c ks)) (ravel (l_tots L) ss * l_last L + column_of L kd) =
              nmul (cell L c ks ss (column_of L kd)) (Fin q)).
  { rewrite cell_at. destruct (block c ks); cbn [option_map at_]; [apply nth_map_fin|symmetry; apply nmul_0_fin]. }
  rewrite X, V1 by auto. rewrite !(cell_at L CNone), block_none. cbn [at_]. rewrite !nadd_0_l.
  rewrite nmul_comm, <- nsum_map_mul_fin. f_equal. clear - Hn Hq. induction rows as [|r rows IH]; auto.
  cbn [map filter]. change (in_cell ks ss (scale_weight (Fin q) r)) with (in_cell ks ss r).
  destruct (in_cell ks ss r); auto. cbn [map]. f_equal; auto.
  assert (R := row_weight_scaled q r Hq).
  destruct kd; cbn [row_adds]; try contradiction; rewrite R; auto; cbn [scale_weight r_prof]; symmetry; apply nmul_swap_fin.
Qed.
(** ... but not for the sums of squared weights, which are scaled by the number and not its square. *)
Theorem C28_squared_weights_refuted :
  exists L rows q c cq s, fill_pre L 0 ExprWeight rows CNone /\ fill_rows L 0 ExprWeight rows CNone = (c, None) /\
    fill_rows L 0 ExprWeight (map (scale_weight (Fin q)) rows) CNone = (cq, None) /\
    content_mul (Fin q) c = Ok s /\ cell L s [] [] (column_of L SumW2) <> cell L cq [] [] (column_of L SumW2).
Proof.
  exists {| l_tots := []; l_nprof := 0; l_weighted := true |}, [{| r_keys := []; r_slots := []; r_prof := []; r_w := nz 1; r_w2 := nz 1 |}], (qz 2).
  do 3 eexists. split.
  { split; [unfold layout_ok; cbn; lia|]. split; [reflexivity|]. split.
    - constructor; [|constructor]. split; [reflexivity|]. split; [intros k []|]. split; [constructor|reflexivity].
    - split; [left; reflexivity|left; reflexivity]. }
  split; [vm_compute; reflexivity|]. split; [vm_compute; reflexivity|]. split; [vm_compute; reflexivity|].
  vm_compute. intros H. injection H as H. discriminate.
Qed.
(** A histogram that was never filled cannot be scaled. *)
Theorem C28_unfilled_refuted : exists h, hobj_ok h /\ hist_mul h (nz 2) = Err TypeError /\ hist_imul h (nz 2) = (h, Some TypeError).
Proof. exists alg_3. split; [ok_tac|]. split; reflexivity. Qed.
Example C28_example : exists s, hist_mul alg_1 (nz 2) = Ok s /\ o_content s = CDict [(GStr "a", arr [2; 4; 6; 8]%Z)].
Proof. eexists. split; [reflexivity|]. vm_compute. repeat (f_equal; try (apply Qc_is_canon; reflexivity)). Qed.

(** ** C32: equality and compatibility *)
(** Axes whose numbers are not NaN: == is equality of class, expression and parameters; compatible()
    is the same without the expression.  (compatible() is not defined for profile axes.) *)
Theorem C32_axis_equality a b : axis_eqb a b = true <-> a = b /\ nan_free_axis a.
Proof. apply axis_eqb_iff. Qed.
Theorem C32_axis_equivalence a b c : nan_free_axis a ->
  axis_eqb a a = true /\
  (axis_eqb a b = true -> axis_eqb b a = true) /\
  (axis_eqb a b = true -> axis_eqb b c = true -> axis_eqb a c = true).
Proof.
  intros H. split; [apply axis_eqb_refl; auto|]. split; rewrite ?axis_eqb_iff.
  - intros (-> & ?). auto.
  - intros (-> & ?). tauto.
Qed.
Theorem C32_compatible_equivalence a b c : nan_free_axis a -> comparable a ->
  compatible a a = Some true /\
  (compatible a b = Some true -> compatible b a = Some true) /\
  (compatible a b = Some true -> compatible b c = Some true -> compatible a c = Some true).
Proof.
  intros H K. split; [apply compatible_iff; auto|]. split.
  - intros E. apply compatible_iff in E; auto. destruct E as (E & _). assert (Kb := comparable_unnamed a b E K).
    apply compatible_iff; auto. split; auto. apply unnamed_nan. rewrite <- E. apply unnamed_nan. auto.
  - intros E E'. apply compatible_iff in E; auto. destruct E as (E & _). assert (Kb := comparable_unnamed a b E K).
    apply compatible_iff in E'; auto. destruct E' as (E' & _). apply compatible_iff; auto. split; auto. congruence.
Qed.
Theorem C32_equal_axes_compatible a b : comparable a -> axis_eqb a b = true -> compatible a b = Some true.
Proof. intros K E. apply axis_eqb_iff in E. destruct E as (-> & H). apply compatible_iff; auto. Qed.

(** Histograms: compatible() is an equivalence, and histograms with equal axes are compatible. *)
Definition plain_axes (h : hobj) : Prop :=
  Forall nan_free_axis (o_axes h) /\ Forall comparable (o_group h ++ o_fixed h).
Lemma plain_nan h : plain_axes h -> Forall nan_free_axis (o_group h ++ o_fixed h).
Proof. intros (H & _). unfold o_axes in H. rewrite app_assoc in H. apply Forall_app in H. tauto. Qed.
Lemma hist_compatible_iff h g : plain_axes h ->
  (hist_compatible h g = Some true <->
   map unnamed (o_group h) = map unnamed (o_group g) /\ map unnamed (o_fixed h) = map unnamed (o_fixed g)).
Proof.
  intros P. unfold hist_compatible.
  destruct (Nat.eqb (length (o_group h)) (length (o_group g)) && Nat.eqb (length (o_fixed h)) (length (o_fixed g))) eqn:E.
  - apply andb_prop in E. destruct E as (E1 & E2). apply Nat.eqb_eq in E1. apply Nat.eqb_eq in E2.
    rewrite compatible_zip_iff by (try apply P; rewrite !app_length; lia). rewrite !map_app. split.
    + intros (E & _). apply app_eq_app in E. destruct E as (l & [(A & B)|(A & B)]).
      * assert (l = []) by (apply (f_equal (@length axis)) in A; rewrite app_length, !map_length in A; destruct l; cbn [length] in A; auto; lia).
        subst. rewrite app_nil_r in A. auto.
      * assert (l = []) by (apply (f_equal (@length axis)) in A; rewrite app_length, !map_length in A; destruct l; cbn [length] in A; auto; lia).
        subst. rewrite app_nil_r in A. auto.
    + intros (-> & ->). split; auto. apply plain_nan. auto.
  - split; [discriminate|]. intros (A & B). apply (f_equal (@length axis)) in A, B. rewrite !map_length in *. rewrite A, B, !Nat.eqb_refl in E. discriminate.
Qed.
Theorem C32_hist_compatible_equivalence h g k : plain_axes h -> plain_axes g -> plain_axes k ->
  hist_compatible h h = Some true /\
  (hist_compatible h g = Some true -> hist_compatible g h = Some true) /\
  (hist_compatible h g = Some true -> hist_compatible g k = Some true -> hist_compatible h k = Some true) /\
  (axes_eqb (o_group h) (o_group g) = true -> axes_eqb (o_fixed h) (o_fixed g) = true -> hist_compatible h g = Some true).
Proof.
  intros Hh Hg Hk. rewrite !hist_compatible_iff by auto. split; auto. split; [intuition congruence|]. split; [intuition congruence|].
  intros A B. apply axes_eqb_eq in A. apply axes_eqb_eq in B. rewrite A, B. auto.
Qed.

(** == of histograms ([parsed_eqb]: equality of the parsed weight and filter expressions). *)
Theorem C32_contents_equal h g : hobj_ok h -> hobj_ok g -> o_axes h = o_axes g -> weighted h = weighted g ->
  Forall nan_free_axis (o_axes h) ->
  (content_eqb (o_content h) (o_content g) = true <->
   (forall ks, node (o_content h) ks = node (o_content g) ks) /\ nan_free (o_content h)).
Proof.
  intros Hh Hg E W N. assert (E' : axes_eqb (o_axes h) (o_axes g) = true) by (apply axes_eqb_iff; auto).
  destruct (same_layout' h g Hh Hg E' W) as (EL & EG).
  destruct Hh as (_ & _ & _ & Hh), Hg as (_ & _ & _ & Hg). rewrite EL, EG in Hg. eapply content_eqb_iff; eauto.
Qed.
Theorem C32_equal_histograms parsed_eqb h g : hobj_ok h -> hobj_ok g ->
  o_group h = o_group g -> o_fixed h = o_fixed g -> o_prof h = o_prof g -> Forall nan_free_axis (o_axes h) ->
  o_weight h = o_weight g -> o_filter h = o_filter g -> o_defs h = o_defs g -> o_attach h = o_attach g ->
  (forall x, parsed_eqb x x = true) ->
  NoDup (map fst (o_defs h)) -> Forall (fun kv => snd kv <> XNum NaN) (o_defs h) -> NoDup (map fst (o_attach h)) ->
  (forall ks, node (o_content h) ks = node (o_content g) ks) -> nan_free (o_content h) ->
  hist_eqb parsed_eqb h g = true.
Proof.
  intros Hh Hg E1 E2 E3 N E4 E5 E6 E7 R N1 N2 N3 S F. unfold hist_eqb.
  unfold o_axes in N. rewrite !Forall_app in N. destruct N as (Ng & Nf & Np).
  rewrite (proj2 (axes_eqb_iff _ _) (conj E1 Ng)), (proj2 (axes_eqb_iff _ _) (conj E2 Nf)), (proj2 (axes_eqb_iff _ _) (conj E3 Np)).
  rewrite <- E4, <- E5, <- E6, <- E7, R, !dict_eqb_refl; auto.
  - cbn [andb]. rewrite andb_true_r. apply C32_contents_equal; auto.
    + unfold o_axes. congruence.
    + unfold weighted, o_layout. cbn [l_weighted]. rewrite E4, E5. auto.
    + unfold o_axes. rewrite !Forall_app. auto.
  - apply Forall_forall. intros [k v] _. apply String.eqb_refl.
  - eapply Forall_impl; [|exact N2]. intros [k v]. cbn [snd]. destruct v as [s|[]]; cbn [wsrc_eqb]; intros H; rewrite ?String.eqb_refl; auto; try (apply neqb_refl; auto).
Qed.
Theorem C32_equal_means_same parsed_eqb h g : hobj_ok h -> hobj_ok g -> weighted h = weighted g ->
  hist_eqb parsed_eqb h g = true ->
  o_axes h = o_axes g /\ (forall ks, node (o_content h) ks = node (o_content g) ks).
Proof.
  intros Hh Hg W E. unfold hist_eqb in E. repeat (apply andb_prop in E; destruct E as (E & ?)).
  repeat match goal with H : axes_eqb _ _ = true |- _ => apply axes_eqb_iff in H; destruct H as (? & ?) end.
  assert (A : o_axes h = o_axes g) by (unfold o_axes; congruence). split; auto.
  apply (C32_contents_equal h g); auto. unfold o_axes. rewrite !Forall_app. auto.
Qed.
(** A NaN breaks reflexivity: an axis whose origin is NaN is not equal to itself, and neither is a
    histogram with a NaN cell. *)
Theorem C32_nan_axis_refuted : exists a, built a /\ axis_eqb a a = false /\ compatible a a = Some false.
Proof.
  exists (AGroupbin "x" (nz 1) NaN true true). split; [|split; reflexivity]. apply (built_groupbin "x" (nz 1) NaN true true). reflexivity.
Qed.
Theorem C32_nan_content_refuted parsed_eqb : exists h, hobj_ok h /\ Forall nan_free_axis (o_axes h) /\
  hist_eqb parsed_eqb h (hist_copy h) = false.
Proof.
  exists (alg_u None (CArr [nz 1; NaN])). split; [ok_tac|]. split; [repeat constructor|]. unfold hist_eqb. cbn.
  repeat rewrite andb_false_r. reflexivity.
Qed.
Example C32_example : plain_axes alg_1 /\ hist_eqb (fun _ _ => true) alg_1 (hist_copy alg_1) = true /\
  hist_eqb (fun _ _ => true) alg_1 alg_2 = false /\ hist_compatible alg_1 alg_2 = Some true.
Proof. split; [split; repeat constructor|]. split; [|split]; vm_compute; reflexivity. Qed.

(** ** C33: JSON *)
(** Every axis a constructor returned (for split, from edges that are not NaN), and every histogram
    made of such axes with a content that fits them, comes back from tojson and fromjson exactly. *)
Theorem C33_axis_roundtrip a : built a -> exists j, axis_tojson a = Ok j /\ axis_fromjson j = Ok a.
Proof. apply axis_json_roundtrip. Qed.
Theorem C33_hist_roundtrip axis_check weight_check h : constructed axis_check weight_check h ->
  exists j, hist_tojson h = Ok j /\ hist_fromjson axis_check weight_check j = Ok h.
Proof. apply hist_json_roundtrip. Qed.
(** Through JSON text, json.loads(json.dumps(...)), it does if all group keys are strings ... *)
Theorem C33_text_roundtrip axis_check weight_check repr_num h : constructed axis_check weight_check h ->
  string_keys (o_content h) ->
  exists j, hist_tojson h = Ok j /\ hist_fromjson axis_check weight_check (through_text repr_num j) = Ok h.
Proof.
  intros H S. destruct (hist_json_roundtrip axis_check weight_check h H) as (j & E & E'). exists j. split; auto.
  rewrite (text_hist repr_num h j S E). auto.
Qed.
(** ... and does not for the numeric keys of groupbin, which come back as strings. *)
Definition c33_h : hobj := {|
  o_group := [AGroupbin "x" (nz 1) (nz 0) true true]; o_fixed := [ACut "c"]; o_prof := []; o_weight := None; o_filter := None;
  o_defs := []; o_attach := []; o_content := CDict [(GNum (nz 3), arr [1; 2]%Z)] |}.
Example c33_constructed : constructed (fun _ _ => None) (fun _ _ _ => None) c33_h.
Proof.
  split.
  - exists (o_axes c33_h). split; [|reflexivity].
    constructor; [apply (built_groupbin "x" (nz 1) (nz 0) true true); reflexivity|]. constructor; [apply built_cut|constructor].
  - right. cbn. split; [repeat constructor|]. split; [repeat constructor; cbn; intuition|]. repeat constructor. discriminate.
Qed.
Theorem C33_text_refuted repr_num :
  exists h j h', constructed (fun _ _ => None) (fun _ _ _ => None) h /\ hist_tojson h = Ok j /\
    hist_fromjson (fun _ _ => None) (fun _ _ _ => None) (through_text repr_num j) = Ok h' /\
    block (o_content h) [GNum (nz 3)] <> None /\ block (o_content h') [GNum (nz 3)] = None.
Proof.
  exists c33_h. do 2 eexists. split; [exact c33_constructed|]. split; [reflexivity|]. split; [reflexivity|].
  split; [discriminate|reflexivity].
Qed.

(** ** C56: pickling *)
Theorem C56_axis_roundtrip a : built a -> exists p, axis_pack a = Ok p /\ axis_unpack p = Ok a.
Proof. apply axis_pack_roundtrip. Qed.
Theorem C56_hist_roundtrip axis_check weight_check h : constructed axis_check weight_check h ->
  exists s, hist_getstate h = Ok s /\ hist_setstate axis_check weight_check s = Ok h.
Proof. apply hist_pickle_roundtrip. Qed.
Example C56_example : exists s, hist_getstate c33_h = Ok s /\ hist_setstate (fun _ _ => None) (fun _ _ _ => None) s = Ok c33_h.
Proof. apply C56_hist_roundtrip. exact c33_constructed. Qed.
(** The null axis that projecting away all fixed axes of a histogram leaves has neither. *)
Theorem C33_null_axis_refuted : axis_tojson ANull = Err AttributeError /\ axis_pack ANull = Err AttributeError.
Proof. split; reflexivity. Qed.

(** ** C34: grouping *)
(** Histograms with equal NaN-free axes, all filled, all weighted or none, none with a filter: the
    group has the new axis first and the block under (name, keys) is the block under keys of the
    histogram of that name; no other names occur. *)
Theorem C34_group by_ h0 n0 rest :
  let hists := (n0, h0) :: rest in
  NoDup (map fst hists) ->
  Forall (fun nx => hobj_ok (snd nx) /\ o_content (snd nx) <> CNone /\ o_axes (snd nx) = o_axes h0 /\ o_filter (snd nx) = None) hists ->
  (Forall (fun nx => o_weight (snd nx) = None) hists \/ Forall (fun nx => o_weight (snd nx) <> None) hists) ->
  Forall nan_free_axis (o_axes h0) -> ~ In (AGroupby by_) (o_axes h0) ->
  exists s, group_hists by_ hists = Ok s /\ hobj_ok s /\ o_axes s = AGroupby by_ :: o_axes h0 /\
    (forall n x ks, In (n, x) hists -> block (o_content s) (GStr n :: ks) = block (o_content x) ks) /\
    (forall k ks, (forall n, In n (map fst hists) -> k <> GStr n) -> block (o_content s) (k :: ks) = None).
Proof.
  intros hists ND F W N NI. unfold group_hists, hists. fold hists.
  assert (F' := F). rewrite Forall_forall in F'.
  assert (E1 : forallb (fun nx => axes_eqb (o_axes h0) (o_axes (snd nx))) rest = true).
  { apply forallb_forall. intros nx H. destruct (F' nx) as (_ & _ & -> & _); [right; auto|]. apply axes_eqb_iff. auto. }
  rewrite E1. cbn [negb].
  assert (E2 : existsb (axis_eqb (AGroupby by_)) (o_axes h0) = false).
  { destruct (existsb _ _) eqn:X; auto. apply existsb_exists in X. destruct X as (a & Ha & E). apply axis_eqb_eq in E. subst. contradiction. }
  rewrite E2.
  assert (E3 : exists w, group_weight None (map snd hists) = Ok w /\ (w = None <-> o_weight h0 = None) /\
    forall nx, In nx hists -> (o_weight (snd nx) = None <-> w = None)).
  { destruct W as [W|W].
    - exists None. split; [apply group_weight_none; rewrite Forall_map; auto|]. inversion W; subst. split; [tauto|].
      rewrite Forall_forall in W. intros nx H. specialize (W nx H). tauto.
    - assert (W' := W). inversion W as [|? ? W1 W2]; subst. cbn [snd] in W1. unfold hists. cbn [map snd group_weight].
      destruct (o_weight h0) as [v|] eqn:Ev; [|contradiction].
      destruct (group_weight_some (map snd rest)) with (v := v) as (v' & E); [rewrite Forall_map; auto|].
      exists (Some v'). split; auto. split; [intuition discriminate|]. rewrite Forall_forall in W'. intros nx H. specialize (W' nx H). intuition discriminate. }
  destruct E3 as (w & E3 & _ & Ew). rewrite E3. cbn [bind]. eexists. split; [reflexivity|].
  set (hl := snd (last hists ("", h0)%string)).
  assert (Hl : exists n, In (n, hl) hists).
  { unfold hl. destruct (exists_last (l := hists)) as (l & x & E); [discriminate|]. rewrite E, last_last. exists (fst x).
    rewrite in_app_iff. right. left. destruct x; auto. }
  destruct Hl as (nl & Hl). destruct (F' _ Hl) as (Ol & _ & Al & _). cbn [snd] in Ol, Al.
  split; [|split; [|split]].
  - destruct Ol as (K1 & K2 & K3 & _). split; [constructor; auto|]. split; [auto|]. split; [auto|]. right.
    cbn [o_group length content_ok o_content]. split; [|split].
    + rewrite Forall_map. apply Forall_forall. intros [n x] Hx. cbn [snd]. rewrite copycontent_id.
      destruct (F' _ Hx) as (Ox & Nx & Ax & Fx). cbn [snd] in *.
      destruct (same_layout hl x) as (G1 & G2 & G3); [apply (F' _ Hl)|auto|rewrite Al, <- Ax; apply axes_eqb_iff; rewrite Ax; auto|].
      destruct Ox as (_ & _ & _ & [Ox|Ox]); [contradiction|]. rewrite G1, G2, G3.
      assert (EL : o_layout x = {| l_tots := map totbins (o_fixed x); l_nprof := length (o_prof x);
        l_weighted := match w with None => false | Some _ => true end |}).
      { unfold o_layout. f_equal. rewrite Fx. specialize (Ew _ Hx). cbn [snd] in Ew. destruct (o_weight x), w; auto; intuition discriminate. }
      rewrite EL in Ox. unfold o_layout. cbn [o_fixed o_prof o_weight o_filter].
      destruct w; exact Ox.
    + rewrite map_map. cbn [fst]. rewrite <- (map_map fst GStr). clear - ND. induction ND as [|n l Hn ND IH]; cbn [map]; constructor; auto.
      intros H. apply in_map_iff in H. destruct H as (m & E & H). injection E as ->. contradiction.
    + rewrite map_map. rewrite Forall_map. apply Forall_forall. intros [n x] _. discriminate.
  - cbn [o_axes]. unfold o_axes in *. cbn [o_group o_fixed o_prof app]. f_equal. exact Al.
  - intros n x ks Hx. cbn [o_content block]. rewrite (in_names hists n x (fun h => copycontent (o_content h))) by auto. rewrite copycontent_id. auto.
  - intros k ks Hk. cbn [o_content block]. rewrite (not_in_names hists k (fun h => copycontent (o_content h))) by auto. auto.
Qed.
(** No histograms, different axes, or a name that is already an axis: an error. *)
Theorem C34_errors by_ n0 h0 rest :
  group_hists by_ [] = Err ValueError /\
  ((exists nx, In nx rest /\ axes_eqb (o_axes h0) (o_axes (snd nx)) = false) -> group_hists by_ ((n0, h0) :: rest) = Err TypeError) /\
  ((forall nx, In nx rest -> axes_eqb (o_axes h0) (o_axes (snd nx)) = true) -> In (AGroupby by_) (o_axes h0) ->
   group_hists by_ ((n0, h0) :: rest) = Err ValueError).
Proof.
  split; [reflexivity|]. unfold group_hists. split.
  - intros (nx & Hi & E). destruct (forallb _ rest) eqn:F; auto. rewrite forallb_forall in F. rewrite F in E; auto. discriminate.
  - intros F Hi. assert (E : forallb (fun nx => axes_eqb (o_axes h0) (o_axes (snd nx))) rest = true) by (apply forallb_forall; auto).
    rewrite E. cbn [negb]. assert (X : existsb (axis_eqb (AGroupby by_)) (o_axes h0) = true).
    { apply existsb_exists. exists (AGroupby by_). split; auto. apply axis_eqb_refl. exact I. }
    rewrite X. auto.
Qed.
(** The filter is forgotten: grouping histograms that have only a filter gives contents with a column
    of squared weights in a histogram without one. *)
Definition c34_h : hobj := {|
  o_group := []; o_fixed := [ACut "c"]; o_prof := []; o_weight := None; o_filter := Some (XStr "f");
  o_defs := []; o_attach := []; o_content := arr [1; 2; 3; 4]%Z |}.
Theorem C34_filter_refuted : exists h s, hobj_ok h /\ group_hists "source" [("a", h); ("b", h)] = Ok s /\ ~ hobj_ok s.
Proof.
  exists c34_h. eexists. split; [ok_tac|]. split; [reflexivity|].
  intros (_ & _ & _ & [H|H]); cbn in H; [discriminate|]. destruct H as (H & _). inversion H as [|? ? H1 H2]. cbn in H1. discriminate.
Qed.
(** Grouping a histogram that was never filled stores None; the group cannot be written as JSON. *)
Theorem C34_unfilled_refuted : exists h s, hobj_ok h /\ group_hists "source" [("a", h)] = Ok s /\ ~ hobj_ok s /\
  hist_tojson s = Err AttributeError.
Proof.
  exists (alg_u None CNone). eexists. split; [ok_tac|]. split; [reflexivity|]. split; [|reflexivity].
  intros (_ & _ & _ & [H|H]); cbn in H; [discriminate|]. destruct H as (H & _). inversion H as [|? ? H1 H2]. contradiction.
Qed.
(** An unweighted histogram followed by a weighted one is accepted too; the other order raises. *)
Theorem C34_mixed_weights_refuted : exists h g s, hobj_ok h /\ hobj_ok g /\ axes_eqb (o_axes h) (o_axes g) = true /\
  group_hists "source" [("a", h); ("b", g)] = Ok s /\ ~ hobj_ok s /\ group_hists "source" [("b", g); ("a", h)] = Err TypeError.
Proof.
  exists (alg_u None (arr [1; 2]%Z)), (alg_u (Some (XStr "w")) (arr [1; 2; 3; 4]%Z)). eexists.
  split; [ok_tac|]. split; [ok_tac|]. split; [reflexivity|]. split; [reflexivity|]. split; [|reflexivity].
  intros (_ & _ & _ & [H|H]); cbn in H; [discriminate|]. destruct H as (H & _). inversion H as [|? ? H1 H2]. cbn in H1. discriminate.
Qed.
Example C34_example : exists s, group_hists "source" [("u", alg_1); ("v", alg_2)] = Ok s /\
  block (o_content s) [GStr "v"; GStr "b"] = Some (map nz [5; 6; 7; 8]%Z).
Proof. eexists. split; reflexivity. Qed.

Print Assumptions C25_sum.
Print Assumptions C25_commutative.
Print Assumptions C25_associative.
Print Assumptions C25_unit.
Print Assumptions C25_mixed_weights_refuted.
Print Assumptions C26_end_to_end.
Print Assumptions C27_iadd.
Print Assumptions C27_imul.
Print Assumptions C28_sum.
Print Assumptions C28_product.
Print Assumptions C28_scaled_weights.
Print Assumptions C28_squared_weights_refuted.
Print Assumptions C32_axis_equivalence.
Print Assumptions C32_compatible_equivalence.
Print Assumptions C32_equal_histograms.
Print Assumptions C32_equal_means_same.
Print Assumptions C33_hist_roundtrip.
Print Assumptions C33_text_roundtrip.
Print Assumptions C33_text_refuted.
Print Assumptions C56_hist_roundtrip.
Print Assumptions C34_group.
