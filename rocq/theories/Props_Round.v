(** C74: filling with the arithmetic of the machine. *)
From Coq Require Import String Permutation Qabs.
From Verif Require Import Base Num NumFacts Axis Calc AxisMain Content Fill FillSpec FillProofs FillMain FillR FillRSpec FillRProofs RoundProofs FillRMain Props_Axis.

(** Whatever addition and multiplication do: every cell is changed by adding to it what its rows
    contribute, one after the other in the order of the rows, and nothing else. *)
Theorem C74_cells : forall add mul L ng m rows c, fill_pre L ng m rows c -> ~ counts_at_once L ng m ->
  exists c', fill_rowsR add mul L ng m rows c = (c', None) /\
    forall ks ss kd, in_shape L ss -> has_column L kd ->
      cell L c' ks ss (column_of L kd) =
      running add (cell L c ks ss (column_of L kd)) (map (row_addsR mul m kd) (filter (in_cell ks ss) rows)).
Proof. intros add mul L ng m rows c H N. destruct (fillR_ok add mul _ _ _ _ _ H N) as (c' & E & _ & V & _). exists c'. auto. Qed.

(** So filling chunk by chunk gives exactly the numbers that one fill gives. *)
Theorem C74_chunks : forall add mul L ng m chunks c, fill_pre L ng m (concat chunks) c -> ~ counts_at_once L ng m -> chunks <> [] ->
  exists c1 c2, fill_allR add mul L ng m chunks c = (c1, None) /\ fill_rowsR add mul L ng m (concat chunks) c = (c2, None) /\ same_cells L c1 c2.
Proof. intros add mul L ng m chunks c H N C. destruct (chunksR add mul _ _ _ _ _ H N C) as (c1 & c2 & E1 & E2 & _ & S). exists c1, c2. auto. Qed.

(** A histogram without axes, profiles and weights adds the number of rows at once. *)
Theorem C74_at_once : forall add mul L ng m rows c, fill_pre L ng m rows c -> counts_at_once L ng m ->
  exists c', fill_rowsR add mul L ng m rows c = (c', None) /\
    cell L c' [] [] (column_of L SumW) = add (cell L c [] [] (column_of L SumW)) (mul (nnat (length rows)) none1).
Proof. intros add mul L ng m rows c H N. destruct (at_onceR add mul _ _ _ _ _ H N) as (c' & E & _ & V). exists c'. auto. Qed.

(** The rounding that float64 does: to a closest number with 53 bits; monotone; exact on such numbers. *)
Theorem C74_round_closest : forall q, closest q (round53 q).
Proof. exact round53_closest. Qed.
Theorem C74_round_monotone : forall x y, (this x <= this y)%Q -> (this (round53 x) <= this (round53 y))%Q.
Proof. exact round53_mono. Qed.
Theorem C74_round_exact : forall q, float53 q -> round53 q = q.
Proof. exact round53_id. Qed.

(** Integers are added without error as long as the absolute values add up to at most 2^53, so
    everything proved about exact sums (C10 to C15) holds of them. *)
Theorem C74_integers : forall L ng m rows c, fill_pre L ng m rows c -> ~ counts_at_once L ng m -> mode_float m ->
  exists c' ce, fill_rowsR fadd fmul L ng m rows c = (c', None) /\ fill_rows L ng m rows c = (ce, None) /\
    forall ks ss kd a zs, in_shape L ss -> has_column L kd ->
      cell L c ks ss (column_of L kd) = nz a -> map (row_adds m kd) (filter (in_cell ks ss) rows) = map nz zs ->
      (Z.abs a + zabssum zs <= 2 ^ 53)%Z ->
      cell L c' ks ss (column_of L kd) = nz (a + zsum zs) /\ cell L ce ks ss (column_of L kd) = nz (a + zsum zs).
Proof.
  intros L ng m rows c H N F. destruct (fillR_ok fadd fmul _ _ _ _ _ H N) as (c' & E & _ & V & _). destruct (fill_ok _ _ _ _ _ H) as (ce & Ee & _ & Ve & _).
  exists c', ce. split; auto. split; auto. intros ks ss kd a zs I K C M B. rewrite V, Ve, C by auto. rewrite M. rewrite (rows_z m kd _ zs F M) by lia. split.
  - apply running_z; auto.
  - rewrite nsum_z. unfold nz. rewrite nadd_fin, <- qz_add. reflexivity.
Qed.

(** Counts are exact up to 2^53 ... *)
Theorem C74_counts_exact : forall L ng rows c, fill_pre L ng Unweighted rows c ->
  exists c', fill_rowsR fadd fmul L ng Unweighted rows c = (c', None) /\
    forall ks ss k, in_shape L ss -> length ks = ng -> cell L c ks ss (column_of L SumW) = nnat k ->
      (Z.of_nat (k + length (filter (in_cell ks ss) rows)) <= 2 ^ 53)%Z ->
      cell L c' ks ss (column_of L SumW) = nnat (k + length (filter (in_cell ks ss) rows)).
Proof.
  intros L ng rows c H.
  assert (D : {counts_at_once L ng Unweighted} + {~ counts_at_once L ng Unweighted}).
  { unfold counts_at_once. destruct (l_tots L); [|right; intros (X & _); discriminate]. destruct ng; [|right; intros (_ & X & _); discriminate].
    destruct (l_nprof L); [left; auto|right; intros (_ & _ & X & _); discriminate]. }
  assert (Z1 : forall n, zsum (repeat 1%Z n) = Z.of_nat n). { unfold zsum. induction n; cbn [repeat fold_right]; lia. }
  assert (Z2 : forall n, zabssum (repeat 1%Z n) = Z.of_nat n). { unfold zabssum. induction n; cbn [repeat fold_right]; lia. }
  destruct D as [D|D].
  - destruct (at_onceR fadd fmul _ _ _ _ _ H D) as (c' & E & _ & V). exists c'. split; auto. intros ks ss k I Lk C B.
    destruct D as (T & -> & P & _). destruct ks; [|discriminate]. unfold in_shape in I. rewrite T in I. inversion I; subst ss.
    assert (A : filter (in_cell [] []) rows = rows).
    { apply filter_all. intros r Hr. destruct H as (_ & _ & Hr' & _). rewrite Forall_forall in Hr'. destruct (Hr' r Hr) as (R1 & _ & R3 & _).
      unfold in_cell. destruct (r_keys r); [|discriminate]. rewrite T in R3. inversion R3. reflexivity. }
    rewrite A in *. rewrite V, C. unfold fmul. rewrite nmul_1_r. unfold nnat. rewrite rnum_z by lia. rewrite fadd_z by lia. f_equal. lia.
  - destruct (fillR_ok fadd fmul _ _ _ _ _ H D) as (c' & E & _ & V & _). exists c'. split; auto. intros ks ss k I Lk C B.
    rewrite V, C by (try exact Logic.I; auto). set (l := filter (in_cell ks ss) rows) in *.
    replace (map (row_addsR fmul Unweighted SumW) l) with (map nz (repeat 1%Z (length l))).
    2:{ rewrite repeat_map, map_map. apply map_ext. reflexivity. }
    unfold nnat. rewrite running_z; rewrite ?Z1, ?Z2; [f_equal|]; lia.
Qed.
(** ... and stop there: a count that has reached 2^53 is not changed by any fill. *)
Theorem C74_counts_stop : forall L ng rows c, fill_pre L ng Unweighted rows c -> ~ counts_at_once L ng Unweighted ->
  exists c', fill_rowsR fadd fmul L ng Unweighted rows c = (c', None) /\
    forall ks ss, in_shape L ss -> cell L c ks ss (column_of L SumW) = nz (2 ^ 53) -> cell L c' ks ss (column_of L SumW) = nz (2 ^ 53).
Proof.
  intros L ng rows c H D. destruct (fillR_ok fadd fmul _ _ _ _ _ H D) as (c' & E & _ & V & _). exists c'. split; auto. intros ks ss I C.
  rewrite V, C by (try exact Logic.I; auto). induction (filter (in_cell ks ss) rows) as [|r l IH]; [reflexivity|]. cbn [map running fold_left row_addsR row_weightR].
  replace (fadd (nz (2 ^ 53)) none1) with (nz (2 ^ 53)); [exact IH|]. unfold fadd, nz, none1, rnum, nadd. apply (f_equal Fin). apply Qc_ext. vm_compute. reflexivity.
Qed.

(** Otherwise the error of a cell after n rows is at most ((1 + 2^-53)^n - 1) times the sum of the
    absolute values of what the cell held and what was added to it. *)
Theorem C74_error : forall L ng m rows c, fill_pre L ng m rows c -> ~ counts_at_once L ng m ->
  exists c', fill_rowsR fadd fmul L ng m rows c = (c', None) /\
    forall ks ss kd x qs, in_shape L ss -> has_column L kd ->
      cell L c ks ss (column_of L kd) = Fin x -> map (row_addsR fmul m kd) (filter (in_cell ks ss) rows) = map Fin qs ->
      exists r, cell L c' ks ss (column_of L kd) = Fin r /\
        (Qabs (this r - (this x + qsum qs)) <= (growth (length qs) - 1) * (Qabs (this x) + qabssum qs))%Q.
Proof.
  intros L ng m rows c H D. destruct (fillR_ok fadd fmul _ _ _ _ _ H D) as (c' & E & _ & V & _). exists c'. split; auto. intros ks ss kd x qs I K C M.
  rewrite V, C, M by auto. apply running_error.
Qed.

(** The order of the rows matters only within twice this error. *)
Lemma perm_fins l l' : Permutation l l' -> forall qs, l = map Fin qs -> exists qs', l' = map Fin qs' /\ Permutation qs qs'.
Proof.
  induction 1 as [|x l l' P IH|x y l|l l' l'' P IH P' IH']; intros qs E.
  - destruct qs; [|discriminate]. exists []. auto.
  - destruct qs as [|q qs]; [discriminate|]. injection E as -> E. destruct (IH qs E) as (qs' & -> & Q). exists (q :: qs'). auto.
  - destruct qs as [|q [|q' qs]]; try discriminate. injection E as -> -> ->. exists (q' :: q :: qs). split; auto. apply perm_swap.
  - destruct (IH qs E) as (q1 & E1 & P1). destruct (IH' q1 E1) as (q2 & E2 & P2). exists q2. split; auto. eapply perm_trans; eauto.
Qed.
Lemma qsum_perm a b : Permutation a b -> (qsum a == qsum b)%Q.
Proof. unfold qsum. induction 1; cbn [fold_right]; [reflexivity|rewrite IHPermutation; reflexivity|ring|rewrite IHPermutation1; auto]. Qed.
Lemma qabssum_perm a b : Permutation a b -> (qabssum a == qabssum b)%Q.
Proof. unfold qabssum. induction 1; cbn [fold_right]; [reflexivity|rewrite IHPermutation; reflexivity|ring|rewrite IHPermutation1; auto]. Qed.
Theorem C74_order : forall L ng m rows rows' c, fill_pre L ng m rows c -> Permutation rows rows' -> ~ counts_at_once L ng m ->
  exists c1 c2, fill_rowsR fadd fmul L ng m rows c = (c1, None) /\ fill_rowsR fadd fmul L ng m rows' c = (c2, None) /\
    forall ks ss kd x qs, in_shape L ss -> has_column L kd ->
      cell L c ks ss (column_of L kd) = Fin x -> map (row_addsR fmul m kd) (filter (in_cell ks ss) rows) = map Fin qs ->
      exists r1 r2, cell L c1 ks ss (column_of L kd) = Fin r1 /\ cell L c2 ks ss (column_of L kd) = Fin r2 /\
        (Qabs (this r1 - this r2) <= 2 * (growth (length qs) - 1) * (Qabs (this x) + qabssum qs))%Q.
Proof.
  intros L ng m rows rows' c H P D. destruct (C74_error _ _ _ _ _ H D) as (c1 & E1 & V1).
  destruct (C74_error _ _ _ _ _ (pre_perm _ _ _ _ _ _ P H) D) as (c2 & E2 & V2). exists c1, c2. split; auto. split; auto.
  intros ks ss kd x qs I K C M. destruct (V1 ks ss kd x qs I K C M) as (r1 & X1 & B1).
  destruct (perm_fins _ _ (Permutation_map (row_addsR fmul m kd) (perm_filter (in_cell ks ss) _ _ P)) qs M) as (qs' & M' & PQ).
  destruct (V2 ks ss kd x qs' I K C M') as (r2 & X2 & B2). exists r1, r2. split; auto. split; auto.
  rewrite <- (Permutation_length PQ), <- (qabssum_perm _ _ PQ) in B2.
  rewrite (Qabs_wd _ (this r2 - (this x + qsum qs))) in B2 by (rewrite (qsum_perm _ _ PQ); reflexivity).
  set (b := ((growth (length qs) - 1) * (Qabs (this x) + qabssum qs))%Q) in *.
  apply Qle_trans with (y := (b + b)%Q); [|unfold b; lra].
  apply Qabs_Qle_condition in B1. apply Qabs_Qle_condition in B2. apply Qabs_Qle_condition. lra.
Qed.

(** The rounding of the machine meets the hypotheses of C08_bin_index_monotone. *)
Theorem C08_bin_index_monotone_float64 :
  forall e n l h u o nf cl ax v w i j,
    mk_bin e n (Fin l) (Fin h) u o nf cl = Ok ax -> nleb v w = true ->
    bin_index (fun q => Fin (round53 q)) cast_sat u o nf cl n (Fin l) (Fin h) v = Ok (Some i) ->
    bin_index (fun q => Fin (round53 q)) cast_sat u o nf cl n (Fin l) (Fin h) w = Ok (Some j) ->
    (nf = true -> i <> Z.of_nat n + b2z u + b2z o)%Z -> (nf = true -> j <> Z.of_nat n + b2z u + b2z o)%Z ->
    (i <= j)%Z.
Proof.
  intros e n l h u o nf cl ax v w i j H W I J. apply (C08_bin_index_monotone (fun q => Fin (round53 q)) e n l h u o nf cl ax v w); auto.
  - intros x y X. unfold nleb, nltb, neqb. destruct (qltb (round53 x) (round53 y)) eqn:E; auto. cbn. apply qeqb_iff. apply qltb_false in E. apply Qc_ext.
    pose proof (round53_mono x y X). lra.
  - rewrite round53_0. reflexivity.
Qed.

Print Assumptions C74_cells.
Print Assumptions C74_chunks.
Print Assumptions C74_at_once.
Print Assumptions C74_round_closest.
Print Assumptions C74_round_monotone.
Print Assumptions C74_round_exact.
Print Assumptions C74_integers.
Print Assumptions C74_counts_exact.
Print Assumptions C74_counts_stop.
Print Assumptions C74_error.
Print Assumptions C74_order.
Print Assumptions C08_bin_index_monotone_float64.

(** ** Concrete cases: one axis of two bins, weighted; no axes and no weight. *)
Definition rL : layout := {| l_tots := [2]; l_nprof := 0; l_weighted := true |}.
Definition rrow (i : Z) (w : Qc) : row :=
  {| r_keys := []; r_slots := [Some i]; r_prof := []; r_w := Fin w; r_w2 := Fin (round53 (w * w)) |}.
Definition uL : layout := {| l_tots := [2]; l_nprof := 0; l_weighted := false |}.
Definition oL : layout := {| l_tots := []; l_nprof := 0; l_weighted := false |}.
Definition orow : row := {| r_keys := []; r_slots := []; r_prof := []; r_w := none1; r_w2 := none1 |}.
Lemma rL_not_at_once ng m : ~ counts_at_once rL ng m.
Proof. intros (H & _). discriminate. Qed.
Lemma rpre m ws : mode_ok rL m -> fill_pre rL 0 m (map (rrow 1) ws) CNone.
Proof.
  intros M. split; [unfold layout_ok; cbn; lia|]. split; auto. split; [|split; [left; reflexivity|left; reflexivity]].
  apply Forall_map, Forall_forall. intros w _. split; [reflexivity|]. split; [intros k []|]. split; [|reflexivity]. repeat constructor; cbn; lia.
Qed.
Definition tenth : Qc := round53 (qfrac 1 10).
(** Three tenths: the last bit of the machine's sum is wrong, within the bound. *)
Example C74_case :
  fill_pre rL 0 ExprWeight (map (rrow 1) [tenth; tenth; tenth]) CNone /\ ~ counts_at_once rL 0 ExprWeight /\
  (exists r, cell rL (fst (fill_rowsR fadd fmul rL 0 ExprWeight (map (rrow 1) [tenth; tenth; tenth]) CNone)) [] [1] (column_of rL SumW) = Fin r /\
     ~ (this r == this tenth + this tenth + this tenth)%Q /\
     (Qabs (this r - (this tenth + this tenth + this tenth)) <= (growth 3 - 1) * (this tenth + this tenth + this tenth))%Q) /\
  (forall zs, map (row_adds ExprWeight SumW) (filter (in_cell [] [1]) (map (rrow 1) (map qz zs))) = map nz zs).
Proof.
  split; [apply rpre; reflexivity|]. split; [apply rL_not_at_once|]. split.
  - eexists. split; [vm_compute; reflexivity|]. split; [vm_compute; discriminate|vm_compute; discriminate].
  - intros zs. induction zs as [|z zs IH]; [reflexivity|]. cbn [map filter]. replace (in_cell [] [1] (rrow 1 (qz z))) with true by reflexivity. cbn [map]. rewrite IH. reflexivity.
Qed.

Ltac num_differ := intros E; apply (f_equal (fun x => match x with Fin q => Some (this q) | _ => None end)) in E; vm_compute in E; discriminate.

(** The order of the rows does matter, and so does adding two histograms instead of filling one. *)
Theorem C74_order_refuted :
  let a := map (rrow 1) [qz (2 ^ 53); qc1; qc1] in
  let b := map (rrow 1) [qc1; qc1; qz (2 ^ 53)] in
  Permutation a b /\ fill_pre rL 0 ExprWeight a CNone /\
  snd (fill_rowsR fadd fmul rL 0 ExprWeight a CNone) = None /\ snd (fill_rowsR fadd fmul rL 0 ExprWeight b CNone) = None /\
  cell rL (fst (fill_rowsR fadd fmul rL 0 ExprWeight a CNone)) [] [1] (column_of rL SumW) <>
  cell rL (fst (fill_rowsR fadd fmul rL 0 ExprWeight b CNone)) [] [1] (column_of rL SumW).
Proof.
  cbv zeta. split; [apply Permutation_map; apply (Permutation_app_comm [qz (2 ^ 53)] [qc1; qc1])|]. split; [apply rpre; reflexivity|].
  split; [vm_compute; reflexivity|]. split; [vm_compute; reflexivity|]. num_differ.
Qed.
Theorem C74_sum_refuted :
  let a := map (rrow 1) [qz (2 ^ 53)] in
  let b := map (rrow 1) [qc1; qc1] in
  fill_pre rL 0 ExprWeight (a ++ b) CNone /\
  snd (fill_rowsR fadd fmul rL 0 ExprWeight a CNone) = None /\ snd (fill_rowsR fadd fmul rL 0 ExprWeight b CNone) = None /\
  snd (fill_rowsR fadd fmul rL 0 ExprWeight (a ++ b) CNone) = None /\
  fadd (cell rL (fst (fill_rowsR fadd fmul rL 0 ExprWeight a CNone)) [] [1] (column_of rL SumW))
       (cell rL (fst (fill_rowsR fadd fmul rL 0 ExprWeight b CNone)) [] [1] (column_of rL SumW)) <>
  cell rL (fst (fill_rowsR fadd fmul rL 0 ExprWeight (a ++ b) CNone)) [] [1] (column_of rL SumW).
Proof.
  cbv zeta. split; [rewrite <- map_app; apply rpre; reflexivity|]. split; [vm_compute; reflexivity|]. split; [vm_compute; reflexivity|]. split; [vm_compute; reflexivity|]. num_differ.
Qed.
(** Where a fill is counted at once, two fills of one row are not one fill of two. *)
Theorem C74_chunks_at_once_refuted :
  let c := CArr [nz (2 ^ 53)] in
  counts_at_once oL 0 Unweighted /\ fill_pre oL 0 Unweighted [orow; orow] c /\
  snd (fill_allR fadd fmul oL 0 Unweighted [[orow]; [orow]] c) = None /\ snd (fill_rowsR fadd fmul oL 0 Unweighted [orow; orow] c) = None /\
  cell oL (fst (fill_allR fadd fmul oL 0 Unweighted [[orow]; [orow]] c)) [] [] (column_of oL SumW) <>
  cell oL (fst (fill_rowsR fadd fmul oL 0 Unweighted [orow; orow] c)) [] [] (column_of oL SumW).
Proof.
  cbv zeta. split; [repeat split|]. split.
  - split; [unfold layout_ok; cbn; lia|]. split; [reflexivity|]. split; [|split; [right; reflexivity|left; reflexivity]].
    repeat constructor; intros k [].
  - split; [vm_compute; reflexivity|]. split; [vm_compute; reflexivity|]. num_differ.
Qed.
(** A count of 2^53 can be in a cell, and the count of a fresh one is exact. *)
Example C74_counts_case :
  fill_pre uL 0 Unweighted [{| r_keys := []; r_slots := [Some 1%Z]; r_prof := []; r_w := none1; r_w2 := none1 |}] (CArr [nzero; nz (2 ^ 53)]) /\
  ~ counts_at_once uL 0 Unweighted /\ cell uL (CArr [nzero; nz (2 ^ 53)]) [] [1] (column_of uL SumW) = nz (2 ^ 53).
Proof.
  split; [|split; [intros (H & _); discriminate|reflexivity]].
  split; [unfold layout_ok; cbn; lia|]. split; [reflexivity|]. split; [|split; [right; reflexivity|left; reflexivity]].
  constructor; [|constructor]. split; [reflexivity|]. split; [intros k []|]. split; [repeat constructor; cbn; lia|reflexivity].
Qed.
Print Assumptions C74_order_refuted.
Print Assumptions C74_sum_refuted.
Print Assumptions C74_chunks_at_once_refuted.
