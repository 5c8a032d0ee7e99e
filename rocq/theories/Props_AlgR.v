(** C78: adding, scaling and projecting histograms with the arithmetic of the machine. *)
From Coq Require Import String Permutation Qabs Lqa.
From Verif Require Import Base Num NumFacts Axis Calc Content Fill FillSpec FillProofs FillProofs2 FillProofs3 FillMain FillR FillRSpec FillRProofs RoundProofs FillRMain
  HistAlg AlgSpec HistAlgProofs HistAlgMain Nd NdProofs Proj ProjSpec ProjProofs ProjMain ProjMain2 ProjLaws AlgR AlgRSpec AlgRProofs AlgRMain.
Local Open Scope list_scope.

(** ** Concrete histograms: groupby("g"), bin("x", 2, 0, 2) without flow bins *)
Definition fr_bin : axis := ABin "x" 2 (nz 0) (nz 2) false false false true.
Definition fr (c : content) : hobj := {|
  o_group := [AGroupby "g"%string]; o_fixed := [fr_bin]; o_prof := []; o_weight := None; o_filter := None;
  o_defs := []; o_attach := []; o_content := c |}.
Definition fr1 (k : string) (x y : Num) : hobj := fr (CDict [(GStr k, CArr [x; y])]).
Definition tenth : Num := rnum (Fin (qfrac 1 10)).
Lemma fr1_ok k x y : hobj_ok (fr1 k x y).
Proof.
  unfold hobj_ok. cbn. split; [repeat constructor|]. split; [repeat constructor|]. split; [constructor|]. right. cbn. split; [repeat constructor|].
  split; [constructor; [intros []|constructor]|]. repeat constructor; discriminate.
Qed.
Lemma fr1_machine k x y : machine x -> machine y -> machine_hist (fr1 k x y).
Proof.
  intros X Y ks d. destruct ks as [|j [|? ?]]; cbn [o_content fr1 fr block assoc]; try discriminate.
  - destruct (gkey_eqb j (GStr k)); [|discriminate]. cbn. intros [= <-]. repeat constructor; auto.
  - destruct (gkey_eqb j (GStr k)); discriminate.
Qed.
Lemma fr1_alike k x y k' x' y' : machine x' -> machine y' -> alike (fr1 k x y) (fr1 k' x' y').
Proof. intros X Y. split; [apply fr1_ok|]. split; [apply fr1_machine; auto|]. split; reflexivity. Qed.
Lemma tenth_machine : machine tenth. Proof. apply rnum_idem. Qed.
Ltac differ := intros E; apply (f_equal (fun x => match x with Fin q => Some (this q) | _ => None end)) in E; vm_compute in E; discriminate.
Ltac small_z := apply machine_z; cbn; lia.

(** With exact operations this is the arithmetic of HistAlg.v and the projection of Proj.v. *)
Theorem C78_exact_instance : forall h g v,
  hist_addR nadd h g = hist_add h g /\ hist_iaddR nadd h g = hist_iadd h g /\ hist_mulR nmul h v = hist_mul h v /\ hist_imulR nmul h v = hist_imul h v.
Proof. intros h g v. repeat split; reflexivity. Qed.
Lemma keeps_repeat h axes : keeps_groups h axes -> map (fun x => axis_in x axes) (o_group h) = repeat true (length (o_group h)).
Proof. unfold keeps_groups. induction (o_group h) as [|a l IH]; cbn; intros H; auto. apply andb_prop in H. destruct H as (-> & H). rewrite IH; auto. Qed.
Theorem C78_exact_projection : forall h axes, keeps_groups h axes -> projectR nsum (view h) axes = project (view h) axes.
Proof.
  intros h axes K. unfold projectR, project. cbn [view p_head p_content with_content o_group o_fixed o_prof].
  assert (X : forall n f c, projcontentR nsum n f c = projcontent (repeat true n) f c).
  { induction n as [|n IH]; intros f c; [reflexivity|]. cbn [projcontentR projcontent repeat]. destruct c as [|sh d|l|l]; auto.
    assert (Y : proj_items (projcontentR nsum n f) l = proj_items (projcontent (repeat true n) f) l).
    { induction l as [|(k, x) l IHl]; auto. cbn [proj_items]. fold (proj_items (projcontentR nsum n f) l). fold (proj_items (projcontent (repeat true n) f) l). rewrite IH, IHl. reflexivity. }
    rewrite Y. reflexivity. }
  change (o_group (with_content h CNone)) with (o_group h). rewrite (keeps_repeat h axes K). destruct (negb _); auto. destruct (embed _ _); auto; rewrite X; reflexivity.
Qed.

(** ** Sums *)
(** The sum of two histograms adds cell by cell, as the machine adds; a block of only one of them
    is taken as it is, which is the same. *)
Theorem C78_sum : forall h g, hobj_ok h -> hobj_ok g -> addable h g -> machine_hist h -> machine_hist g ->
  exists s, hist_addR fadd h g = Ok s /\ hobj_ok s /\ machine_hist s /\ o_axes s = o_axes h /\ weighted s = weighted h /\
    (forall ks ss kd, hcell s ks ss kd = fadd (hcell h ks ss kd) (hcell g ks ss kd)) /\
    (forall ks, has_block s ks <-> has_block h ks \/ has_block g ks).
Proof. intros h g Hh Hg A Mh Mg. apply sum_main; auto. Qed.
(** Whatever addition does: [+=] leaves what [+] returns. *)
Theorem C78_iadd : forall add h g s, hobj_ok h -> hobj_ok g -> addable h g -> hist_addR add h g = Ok s -> hist_iaddR add h g = (s, None).
Proof.
  intros add h g s Hh Hg (E & W). destruct (same_layout' h g Hh Hg E W) as (EL & EG). unfold hist_addR, hist_iaddR. rewrite E, EL.
  destruct Hh as (_ & _ & _ & Hh), Hg as (_ & _ & _ & Hg). rewrite EL, EG in Hg.
  destruct (content_addR add _ _ (o_content h) (o_content g)) as [c|e] eqn:A; cbn [bind]; [|discriminate]. intros [= <-].
  rewrite (content_iadd_okR add _ _ _ _ _ c Hh Hg A). reflexivity.
Qed.
(** If the addition of numbers does not depend on the order of its two operands, neither does that
    of histograms; the machine's does not. *)
Theorem C78_commutative : forall add, (forall x y, add x y = add y x) -> forall h g, hobj_ok h -> hobj_ok g -> addable h g ->
  exists s t, hist_addR add h g = Ok s /\ hist_addR add g h = Ok t /\ same_hist s t.
Proof.
  intros add C h g Hh Hg (E & W). destruct (hist_addR_main add h g Hh Hg E W) as (c & A & _ & _ & B).
  destruct (hist_addR_main add g h Hg Hh (axes_eqb_swap _ _ E) (eq_sym W)) as (c' & A' & _ & _ & B').
  exists (with_content h c), (with_content g c'). split; auto. split; auto. split; [apply axes_eqb_eq; exact E|].
  intros ks. cbn [with_content o_content]. rewrite B, B'.
  assert (Z : forall d e, map2 add d e = map2 add e d). { induction d as [|x d IH]; intros [|y e]; cbn [map2]; auto. rewrite C, IH. reflexivity. }
  destruct (block (o_content h) ks), (block (o_content g) ks); cbn [joinR]; auto. rewrite Z. reflexivity.
Qed.
Theorem C78_commutative_machine : forall h g, hobj_ok h -> hobj_ok g -> addable h g ->
  exists s t, hist_addR fadd h g = Ok s /\ hist_addR fadd g h = Ok t /\ same_hist s t.
Proof. apply C78_commutative. exact fadd_comm. Qed.
(** The cleared histogram changes nothing, whatever addition does. *)
Theorem C78_unit : forall add h, axes_eqb (o_axes h) (o_axes h) = true ->
  hist_addR add h (hist_cleared h) = Ok h /\ hist_addR add (hist_cleared h) h = Ok h.
Proof.
  intros add h E. unfold hist_addR, hist_cleared. change (o_axes (with_content h CNone)) with (o_axes h). rewrite E.
  cbn [o_content with_content]. destruct h as [hg hf hp hw hfl hd ha c]; cbn [o_content] in *.
  destruct c; cbn [content_addR bind]; rewrite ?copycontent_id; auto.
Qed.
Theorem C78_different_axes : forall add h g, axes_eqb (o_axes h) (o_axes g) = false -> hist_addR add h g = Err TypeError /\ hist_iaddR add h g = (h, Some TypeError).
Proof. intros add h g E. unfold hist_addR, hist_iaddR. rewrite E. auto. Qed.

Example C78_sum_case :
  let h := fr1 "a" tenth (nz 1) in let g := fr1 "b" (nz 2) tenth in
  hobj_ok h /\ hobj_ok g /\ addable h g /\ machine_hist h /\ machine_hist g /\ axes_eqb (o_axes h) (o_axes h) = true /\ has_block h [GStr "a"].
Proof.
  cbv zeta. split; [apply fr1_ok|]. split; [apply fr1_ok|]. split; [split; reflexivity|]. split; [apply fr1_machine; [apply tenth_machine|small_z]|].
  split; [apply fr1_machine; [small_z|apply tenth_machine]|]. split; [reflexivity|discriminate].
Qed.

(** ** Any number of histograms, in any order and with any bracketing *)
Theorem C78_merge : forall h0 t, Forall (alike h0) (parts t) ->
  exists s, merged t = Ok s /\ hobj_ok s /\ addable h0 s /\
    (forall ks, has_block s ks <-> exists h, In h (parts t) /\ has_block h ks) /\
    forall ks ss kd,
      (forall zs, map (fun h => hcell h ks ss kd) (parts t) = map nz zs -> (zabssum zs <= 2 ^ 53)%Z -> hcell s ks ss kd = nz (zsum zs)) /\
      (forall qs, map (fun h => hcell h ks ss kd) (parts t) = map Fin qs ->
         exists r, hcell s ks ss kd = Fin r /\ (Qabs (this r - qsum qs) <= (growth (pred (length qs)) - 1) * qabssum qs)%Q).
Proof.
  intros h0 t F. destruct (merged_main h0 t F) as (s & E & (O & M & A) & S & B). exists s. split; auto. split; auto. split; auto. split; auto. intros ks ss kd. split.
  - intros zs Z BZ. apply (some_sum_z _ _ (S ks ss kd)); auto.
  - intros qs Q. destruct (some_sum_error _ _ (S ks ss kd) qs Q) as (_ & r & R & BR & _); [|exists r; auto].
    apply Forall_map. eapply Forall_impl; [|exact F]. intros h (_ & Mh & _). apply machine_cell. auto.
Qed.
(** Two ways to merge the same histograms agree where the numbers are integers, and otherwise within
    twice the error. *)
Theorem C78_merge_order : forall h0 t t', Forall (alike h0) (parts t) -> Permutation (parts t) (parts t') ->
  exists s s', merged t = Ok s /\ merged t' = Ok s' /\ (forall ks, has_block s ks <-> has_block s' ks) /\
    forall ks ss kd,
      (forall zs, map (fun h => hcell h ks ss kd) (parts t) = map nz zs -> (zabssum zs <= 2 ^ 53)%Z -> hcell s ks ss kd = hcell s' ks ss kd) /\
      (forall qs, map (fun h => hcell h ks ss kd) (parts t) = map Fin qs ->
         exists r r', hcell s ks ss kd = Fin r /\ hcell s' ks ss kd = Fin r' /\
           (Qabs (this r - this r') <= 2 * (growth (pred (length qs)) - 1) * qabssum qs)%Q).
Proof.
  intros h0 t t' F P. assert (F' : Forall (alike h0) (parts t')) by (eapply Permutation_Forall; eauto).
  destruct (C78_merge h0 t F) as (s & E & _ & _ & B & V). destruct (C78_merge h0 t' F') as (s' & E' & _ & _ & B' & V'). exists s, s'. split; auto. split; auto. split.
  - intros ks. rewrite B, B'. split; intros (h & I & X); exists h; split; auto; [|apply Permutation_sym in P]; eapply Permutation_in; eauto.
  - intros ks ss kd. pose proof (Permutation_map (fun h => hcell h ks ss kd) P) as PM. destruct (V ks ss kd) as (VZ & VQ), (V' ks ss kd) as (VZ' & VQ'). split.
    + intros zs Z BZ. rewrite Z in PM. apply Permutation_sym in PM. apply perm_map_inv in PM. destruct PM as (ys & Y & PY). destruct (zsum_perm _ _ PY) as (P1 & P2).
      rewrite (VZ zs Z BZ), (VZ' ys Y) by lia. congruence.
    + intros qs Q. rewrite Q in PM. apply Permutation_sym in PM. apply perm_map_inv in PM. destruct PM as (ys & Y & PY). destruct (qsum_perm _ _ PY) as (P1 & P2).
      destruct (VQ qs Q) as (r & R & BR), (VQ' ys Y) as (r' & R' & BR'). exists r, r'. split; auto. split; auto. rewrite (Permutation_length PY), P1, P2 in BR'.
      setoid_replace (this r - this r')%Q with ((this r - qsum qs) + - (this r' - qsum qs))%Q by ring. eapply Qle_trans; [apply Qabs_triangle|]. rewrite Qabs_opp. lra.
Qed.
(** In particular + is associative on integers, and within the error of two additions otherwise ... *)
Theorem C78_associative : forall h g k, hobj_ok h -> hobj_ok g -> hobj_ok k -> addable h g -> addable h k -> machine_hist h -> machine_hist g -> machine_hist k ->
  exists hg gk s t, hist_addR fadd h g = Ok hg /\ hist_addR fadd hg k = Ok s /\ hist_addR fadd g k = Ok gk /\ hist_addR fadd h gk = Ok t /\
    (forall ks, has_block s ks <-> has_block t ks) /\
    forall ks ss kd,
      (forall x y z, hcell h ks ss kd = nz x -> hcell g ks ss kd = nz y -> hcell k ks ss kd = nz z -> (Z.abs x + Z.abs y + Z.abs z <= 2 ^ 53)%Z ->
         hcell s ks ss kd = nz (x + y + z) /\ hcell t ks ss kd = nz (x + y + z)) /\
      (forall x y z, hcell h ks ss kd = Fin x -> hcell g ks ss kd = Fin y -> hcell k ks ss kd = Fin z ->
         exists r r', hcell s ks ss kd = Fin r /\ hcell t ks ss kd = Fin r' /\
           (Qabs (this r - this r') <= 2 * (growth 2 - 1) * (Qabs (this x) + Qabs (this y) + Qabs (this z)))%Q).
Proof.
  intros h g k Hh Hg Hk A1 A2 Mh Mg Mk. assert (A0 : addable h h) by (eapply addable_trans; [exact A1|apply addable_sym; exact A1]).
  assert (F : Forall (alike h) (parts (Both (Both (One h) (One g)) (One k)))). { cbn [parts app]. constructor; [split; auto|]. constructor; [split; auto|]. constructor; [split; auto|]. constructor. }
  assert (F' : Forall (alike h) (parts (Both (One h) (Both (One g) (One k))))) by exact F.
  destruct (C78_merge h _ F) as (s & E & _ & _ & B & V). destruct (C78_merge h _ F') as (t & E' & _ & _ & B' & V').
  destruct (C78_merge_order h _ (Both (One h) (Both (One g) (One k))) F (Permutation_refl _)) as (s0 & t0 & Es & Et & _ & W).
  cbn [merged bind] in E, E', Es, Et. destruct (hist_addR fadd h g) as [hg|] eqn:Ehg; [|discriminate]. destruct (hist_addR fadd g k) as [gk|] eqn:Egk; [|discriminate]. cbn [bind] in *.
  exists hg, gk, s, t. do 4 (split; auto). split; [intros ks; rewrite B, B'; reflexivity|]. intros ks ss kd. cbn [parts app map] in *.
  assert (s0 = s) by congruence. assert (t0 = t) by congruence. subst s0 t0. split.
  - intros x y z X Y Z BZ. destruct (V ks ss kd) as (VZ & _), (V' ks ss kd) as (VZ' & _). rewrite X, Y, Z in *.
    rewrite (VZ [x; y; z]), (VZ' [x; y; z]) by (auto; cbn; lia). split; f_equal; cbn; lia.
  - intros x y z X Y Z. destruct (W ks ss kd) as (_ & WQ). rewrite X, Y, Z in WQ. destruct (WQ [x; y; z] eq_refl) as (r & r' & R & R' & BR). exists r, r'. split; auto. split; auto.
    eapply Qle_trans; [exact BR|]. cbn [length pred]. unfold qabssum. cbn [fold_right]. apply Qle_lteq. right. ring.
Qed.
(** ... but not associative. *)
Theorem C78_associative_refuted : exists h g k hg gk s t, alike h h /\ alike h g /\ alike h k /\
  hist_addR fadd h g = Ok hg /\ hist_addR fadd hg k = Ok s /\ hist_addR fadd g k = Ok gk /\ hist_addR fadd h gk = Ok t /\
  hcell s [GStr "a"%string] [0] SumW <> hcell t [GStr "a"%string] [0] SumW.
Proof.
  exists (fr1 "a" (nz (2 ^ 53)) (nz 0)), (fr1 "a" (nz 1) (nz 0)), (fr1 "a" (nz 1) (nz 0)). do 4 eexists.
  do 3 (split; [apply fr1_alike; small_z|]). do 4 (split; [reflexivity|]). differ.
Qed.
Example C78_merge_case : let t := Both (Both (One (fr1 "a" (nz 1) (nz 2))) (One (fr1 "b" (nz 3) (nz 4)))) (Both (One (fr1 "a" (nz 10) tenth)) (One (fr1 "a" (nz 100) tenth))) in
  Forall (alike (fr1 "a" (nz 1) (nz 2))) (parts t) /\ map (fun h => hcell h [GStr "a"%string] [0] SumW) (parts t) = map nz [1; 0; 10; 100]%Z /\
  (exists qs, map (fun h => hcell h [GStr "a"%string] [1] SumW) (parts t) = map Fin qs).
Proof.
  cbv zeta. split; [cbn [parts app]; repeat (constructor; [apply fr1_alike; first [apply tenth_machine|small_z]|]); constructor|]. split; [reflexivity|].
  eexists [qz 2; qc0; _; _]. reflexivity.
Qed.

(** ** Filling and adding *)
Definition machine_content (c : content) : Prop := forall ks d, block c ks = Some d -> Forall machine d.
(** Filling one histogram with [a], another one with [b] and adding them, or filling with [a] and
    then [b]: the same numbers for integers, and otherwise both within the error of as many
    additions. *)
Theorem C78_sum_of_fills : forall L ng m k a b c, fill_pre L ng m a c -> fill_pre L ng m b CNone -> ~ counts_at_once L ng m -> machine_content c ->
  exists ca cb cab s, fill_rowsR fadd fmul L ng m a c = (ca, None) /\ fill_rowsR fadd fmul L ng m b CNone = (cb, None) /\
    fill_rowsR fadd fmul L ng m (a ++ b) c = (cab, None) /\ content_addR fadd k k ca cb = Ok s /\
    forall ks ss kd, in_shape L ss -> has_column L kd ->
      (forall x zs, cell L c ks ss (column_of L kd) = nz x -> map (row_addsR fmul m kd) (filter (in_cell ks ss) (a ++ b)) = map nz zs ->
         (Z.abs x + zabssum zs <= 2 ^ 53)%Z ->
         cell L s ks ss (column_of L kd) = nz (x + zsum zs) /\ cell L cab ks ss (column_of L kd) = nz (x + zsum zs)) /\
      (forall x qs, cell L c ks ss (column_of L kd) = Fin x -> map (row_addsR fmul m kd) (filter (in_cell ks ss) (a ++ b)) = map Fin qs ->
         Forall machine (map Fin qs) ->
         exists r r', cell L s ks ss (column_of L kd) = Fin r /\ cell L cab ks ss (column_of L kd) = Fin r' /\
           (Qabs (this r - (this x + qsum qs)) <= (growth (length qs) - 1) * (Qabs (this x) + qabssum qs))%Q /\
           (Qabs (this r' - (this x + qsum qs)) <= (growth (length qs) - 1) * (Qabs (this x) + qabssum qs))%Q).
Proof.
  intros L ng m k a b c Ha Hb N M. assert (Hab : fill_pre L ng m (a ++ b) c).
  { apply pre_app. split; auto. destruct Ha as (? & ? & ? & ? & ?), Hb as (? & ? & ? & ? & ?). repeat split; auto. }
  destruct (fillR_ok fadd fmul _ _ _ _ _ Ha N) as (ca & Ea & Oa & Va & _). destruct (fillR_ok fadd fmul _ _ _ _ _ Hb N) as (cb & Eb & Ob & Vb & _).
  destruct (fillR_ok fadd fmul _ _ _ _ _ Hab N) as (cab & Eab & Oab & Vab & _). destruct (content_add_okR fadd L k ng ca cb Oa Ob) as (s & Es & Os & Bs).
  exists ca, cb, cab, s. do 4 (split; [auto|]). intros ks ss kd I K.
  assert (MC : machine (cell L c ks ss (column_of L kd))). { unfold cell. destruct (block c ks) as [d|] eqn:E; [|apply machine_0]. apply machine_nth. eapply M; eauto. }
  assert (MR : forall x l, machine x -> machine (running fadd x l)). { intros x l. revert x. induction l as [|y l IH]; intros x X; [exact X|]. cbn [running fold_left]. apply IH. apply machine_fadd. }
  set (x0 := cell L c ks ss (column_of L kd)) in *. set (la := map (row_addsR fmul m kd) (filter (in_cell ks ss) a)). set (lb := map (row_addsR fmul m kd) (filter (in_cell ks ss) b)).
  assert (Eapp : map (row_addsR fmul m kd) (filter (in_cell ks ss) (a ++ b)) = la ++ lb) by (rewrite filter_app, map_app; reflexivity).
  specialize (Va ks ss kd I K). specialize (Vb ks ss kd I K). specialize (Vab ks ss kd I K). rewrite Eapp in *. fold x0 la in Va. fold x0 in Vab. fold lb in Vb.
  assert (C0 : cell L CNone ks ss (column_of L kd) = nzero) by (rewrite cell_at, block_none; reflexivity). rewrite C0 in Vb.
  assert (Ss : some_sum fadd ((x0 :: la) ++ lb) (cell L s ks ss (column_of L kd))).
  { rewrite cell_at, Bs, at_joinR; [|apply (blocks_fit L ng); right; auto|rewrite <- cell_at, Va; apply MR; auto|rewrite <- cell_at, Vb; apply MR, machine_0].
    rewrite <- !cell_at, Va, Vb. constructor; [apply (running_sum fadd la x0 [x0]); constructor|apply (running_sum fadd lb nzero []); constructor]. }
  assert (Sc : some_sum fadd ((x0 :: la) ++ lb) (cell L cab ks ss (column_of L kd))).
  { rewrite Vab. cbn [app]. apply (running_sum fadd (la ++ lb) x0 [x0]). constructor. }
  split.
  - intros x zs X Z BZ. cbn [app] in Ss, Sc. rewrite Z, X in Ss, Sc. rewrite (some_sum_z _ _ Ss (x :: zs)), (some_sum_z _ _ Sc (x :: zs)); auto; unfold zabssum; cbn [fold_right]; exact BZ.
  - intros x qs X Q MQ. cbn [app] in Ss, Sc. rewrite Q, X in Ss, Sc. rewrite X in MC. assert (MM : Forall machine (Fin x :: map Fin qs)) by (constructor; auto).
    destruct (some_sum_error _ _ Ss (x :: qs) eq_refl MM) as (_ & r & R & BR & _). destruct (some_sum_error _ _ Sc (x :: qs) eq_refl MM) as (_ & r' & R' & BR' & _).
    exists r, r'. auto.
Qed.

(** ** Products *)
(** Whatever multiplication does: every number in the histogram is multiplied, [*=] leaves what [*]
    returns. *)
Theorem C78_product : forall mul h v, hobj_ok h -> o_content h <> CNone ->
  exists s, hist_mulR mul h v = Ok s /\ hist_imulR mul h v = (s, None) /\ hobj_ok s /\ o_axes s = o_axes h /\ weighted s = weighted h /\
    (forall ks, has_block s ks <-> has_block h ks) /\
    (forall ks, block (o_content s) ks = option_map (map (fun x => mul x v)) (block (o_content h) ks)).
Proof.
  intros mul h v O N. destruct (mul_blocksR mul h v O N) as (s & E & E' & Os & _ & A & L & B). exists s. split; auto. split; auto. split; auto. split; auto.
  split; [unfold weighted; rewrite L; reflexivity|]. split; auto. intros ks. unfold has_block. rewrite B. destruct (block (o_content h) ks); cbn; split; congruence.
Qed.
(** The machine's product is within a relative error of 2^-53. *)
Theorem C78_product_error : forall h v s, hobj_ok h -> hist_mulR fmul h (Fin v) = Ok s ->
  forall ks ss kd x, hcell h ks ss kd = Fin x ->
    exists r, hcell s ks ss kd = Fin r /\ (Qabs (this r - this x * this v) <= (1 # 2 ^ 53) * Qabs (this x * this v))%Q.
Proof.
  intros h v s O E ks ss kd x X. assert (N : o_content h <> CNone). { intros C. unfold hist_mulR in E. rewrite C in E. discriminate. }
  destruct (mul_blocksR fmul h (Fin v) O N) as (s' & E' & _ & _ & _ & _ & L & B). assert (s' = s) by congruence. subst s'.
  exists (round53 (x * v)). split.
  - unfold hcell in *. rewrite L. rewrite cell_at in *. rewrite B. destruct (block (o_content h) ks) as [d|]; cbn [option_map at_] in *.
    + replace nzero with (fmul nzero (Fin v)); [rewrite (map_nth (fun y => fmul y (Fin v))), X; reflexivity|].
      unfold fmul, nzero. cbn [nmul rnum]. f_equal. replace (qc0 * v)%Qc with qc0 by (apply Qc_ext; rewrite this_mul, this_qc0; ring). apply round53_0.
    + injection X as <-. unfold nzero. f_equal. replace (qc0 * v)%Qc with qc0 by (apply Qc_ext; rewrite this_mul, this_qc0; ring). symmetry. apply round53_0.
  - pose proof (round53_error (x * v)) as R. change (this (p2 (-53))) with (1 # 2 ^ 53) in R. rewrite this_mul in R. exact R.
Qed.
(** Adding a histogram to itself doubles it, exactly. *)
Theorem C78_double : forall h, hobj_ok h -> o_content h <> CNone -> axes_eqb (o_axes h) (o_axes h) = true ->
  exists s t, hist_addR fadd h h = Ok s /\ hist_mulR fmul h (nz 2) = Ok t /\ same_hist s t.
Proof.
  intros h O N E. destruct (hist_addR_main fadd h h O O E eq_refl) as (c & A & _ & _ & B). destruct (mul_blocksR fmul h (nz 2) O N) as (t & T & _ & _ & _ & AT & _ & BT).
  exists (with_content h c), t. split; auto. split; auto. split; [symmetry; exact AT|]. intros ks. cbn [with_content o_content]. rewrite B, BT.
  destruct (block (o_content h) ks) as [d|]; cbn [joinR option_map]; auto. f_equal. induction d as [|x d IH]; cbn [map2 map]; auto. rewrite IH, fmul_two. reflexivity.
Qed.
(** Powers of two scale without any error: the product is exact, it can be undone, and it
    distributes over sums. *)
Theorem C78_power_of_two : forall h k, hobj_ok h -> machine_hist h -> o_content h <> CNone ->
  exists s t, hist_mulR fmul h (Fin (p2 k)) = Ok s /\ hist_mul h (Fin (p2 k)) = Ok s /\ hist_mulR fmul s (Fin (p2 (- k))) = Ok t /\
    machine_hist s /\ (forall ks d, block (o_content h) ks = Some d -> Forall (fun x => isfin x = true) d -> block (o_content t) ks = Some d).
Proof.
  intros h k O M N. destruct (mul_blocksR fmul h (Fin (p2 k)) O N) as (s & E & _ & Os & Ns & _ & _ & B). destruct (mul_blocksR fmul s (Fin (p2 (- k))) Os Ns) as (t & T & _ & _ & _ & _ & _ & BT).
  assert (Ms : machine_hist s).
  { intros ks d Ed. rewrite B in Ed. destruct (block (o_content h) ks); [|discriminate]. injection Ed as <-. apply Forall_map, Forall_forall. intros x _. apply machine_fmul. }
  exists s, t. split; auto. split.
  - rewrite <- E. unfold hist_mulR, hist_mul. f_equal.
    assert (X : forall n c, content_ok (o_layout h) n c -> (forall ks d, block c ks = Some d -> Forall machine d) -> content_mul (Fin (p2 k)) c = content_mulR fmul (Fin (p2 k)) c).
    { induction n as [|n IH]; intros [|d|l] C F; try contradiction.
      - cbn [content_mul content_mulR]. do 2 f_equal. apply map_ext_in. intros x Hx. symmetry. apply fmul_p2. specialize (F [] d eq_refl). rewrite Forall_forall in F. auto.
      - cbn [content_mul content_mulR]. f_equal. destruct C as (C & ND & K).
        assert (F' : forall j x, In (j, x) l -> forall ks d, block x ks = Some d -> Forall machine d).
        { intros j x I ks d Ed. apply (F (j :: ks)). cbn [block]. rewrite (assoc_of_in j x l); auto. rewrite Forall_forall in K. apply K. apply (in_map fst) in I. exact I. }
        clear F ND K. induction l as [|(j, x) l IHl]; auto. inversion C; subst. cbn [mul_items]. cbn [snd] in *. rewrite (IH x) by (auto; apply (F' j); left; auto).
        fold (mul_items (content_mul (Fin (p2 k))) l). fold (mul_items (content_mulR fmul (Fin (p2 k))) l). rewrite IHl; auto. intros j' x' I. apply (F' j'). right. auto. }
    destruct O as (_ & _ & _ & [C|C]); [contradiction|]. apply (X _ _ C). exact M.
  - split; auto. split; auto. intros ks d Ed Fd. rewrite BT, B, Ed. cbn [option_map]. f_equal. rewrite map_map. rewrite <- (map_id d) at 2. apply map_ext_in. intros x Hx.
    rewrite Forall_forall in Fd. specialize (Fd x Hx). pose proof (M ks d Ed) as Md. rewrite Forall_forall in Md. specialize (Md x Hx). rewrite fmul_p2 by apply machine_fmul. rewrite fmul_p2 by auto.
    destruct x as [q| | |]; try discriminate. cbn [nmul]. f_equal. rewrite <- Qcmult_assoc, p2_mul, Z.add_opp_diag_r. apply Qc_ext. rewrite this_mul. change (this (p2 0)) with 1%Q. ring.
Qed.
Theorem C78_power_distributes : forall h g k, hobj_ok h -> hobj_ok g -> addable h g -> machine_hist h -> machine_hist g -> o_content h <> CNone -> o_content g <> CNone ->
  exists s p q u v, hist_addR fadd h g = Ok s /\ hist_mulR fmul s (Fin (p2 k)) = Ok u /\
    hist_mulR fmul h (Fin (p2 k)) = Ok p /\ hist_mulR fmul g (Fin (p2 k)) = Ok q /\ hist_addR fadd p q = Ok v /\ same_hist u v.
Proof.
  intros h g k Hh Hg (E & W) Mh Mg Nh Ng. destruct (hist_addR_main fadd h g Hh Hg E W) as (c & A & Oc & CA & B).
  assert (Nc : o_content (with_content h c) <> CNone). { cbn [with_content o_content]. intros ->. destruct (o_content h), (o_content g); cbn in CA; try congruence; try (destruct (arr_addR _ _ _ _ _); discriminate); try (destruct (add_items _ _ _); discriminate). }
  destruct (mul_blocksR fmul _ (Fin (p2 k)) Oc Nc) as (u & U & _ & _ & _ & Au & _ & Bu).
  destruct (mul_blocksR fmul h (Fin (p2 k)) Hh Nh) as (p & P & _ & Op & _ & Ap & Lp & Bp). destruct (mul_blocksR fmul g (Fin (p2 k)) Hg Ng) as (q & Q & _ & Oq & _ & Aq & Lq & Bq).
  assert (E' : axes_eqb (o_axes p) (o_axes q) = true) by (rewrite Ap, Aq; exact E). assert (W' : weighted p = weighted q) by (unfold weighted in *; rewrite Lp, Lq; exact W).
  destruct (hist_addR_main fadd p q Op Oq E' W') as (c' & A' & _ & _ & B'). exists (with_content h c), p, q, u, (with_content p c'). do 5 (split; [auto|]).
  split; [rewrite Au; symmetry; exact Ap|]. intros ks. rewrite Bu. cbn [with_content o_content]. rewrite B, B', Bp, Bq.
  pose proof (Mh ks) as X. pose proof (Mg ks) as Y. destruct (block (o_content h) ks) as [d|], (block (o_content g) ks) as [e|]; cbn [joinR option_map]; auto. f_equal.
  specialize (X d eq_refl). specialize (Y e eq_refl). clear -X Y. revert e Y. induction X as [|x d Mx _ IH]; intros [|y e] Y; cbn [map2 map]; auto. inversion Y; subst. rewrite fadd_p2, IH; auto.
Qed.
(** Other factors do not: (h*a)*b is not h*(a*b), and (h + g)*a is not h*a + g*a. *)
Theorem C78_product_refuted : exists h a b p u v, hobj_ok h /\ machine_hist h /\ machine a /\ machine b /\
  hist_mulR fmul h a = Ok p /\ hist_mulR fmul p b = Ok u /\ hist_mulR fmul h (fmul a b) = Ok v /\
  hcell u [GStr "a"%string] [0] SumW <> hcell v [GStr "a"%string] [0] SumW.
Proof.
  exists (fr1 "a" (nz 3) (nz 0)), tenth, (nz 5). do 3 eexists. split; [apply fr1_ok|]. split; [apply fr1_machine; small_z|]. split; [apply tenth_machine|]. split; [small_z|].
  do 3 (split; [reflexivity|]). differ.
Qed.
Theorem C78_distributes_refuted : exists h g a s u p q v, alike h h /\ alike h g /\ machine a /\
  hist_addR fadd h g = Ok s /\ hist_mulR fmul s a = Ok u /\ hist_mulR fmul h a = Ok p /\ hist_mulR fmul g a = Ok q /\ hist_addR fadd p q = Ok v /\
  hcell u [GStr "a"%string] [0] SumW <> hcell v [GStr "a"%string] [0] SumW.
Proof.
  exists (fr1 "a" (nz 1) (nz 0)), (fr1 "a" (nz 5) (nz 0)), tenth. do 5 eexists. do 2 (split; [apply fr1_alike; small_z|]). split; [apply tenth_machine|].
  do 5 (split; [reflexivity|]). differ.
Qed.
Example C78_product_case : let h := fr1 "a" tenth (nz 7) in
  hobj_ok h /\ machine_hist h /\ o_content h <> CNone /\ axes_eqb (o_axes h) (o_axes h) = true /\ hcell h [GStr "a"%string] [1] SumW = nz 7 /\
  Forall (fun x => isfin x = true) [tenth; nz 7].
Proof. cbv zeta. split; [apply fr1_ok|]. split; [apply fr1_machine; [apply tenth_machine|small_z]|]. split; [discriminate|]. split; [reflexivity|]. split; [reflexivity|]. repeat constructor. Qed.

(** ** Projections that keep the groups, however numpy orders the additions *)
Theorem C78_project_integers : forall total_of, (forall l, some_sum fadd l (total_of l)) -> forall h axes, hobj_ok h -> keeps_groups h axes ->
  (forall ks d, block (o_content h) ks = Some d -> exists zs, d = map nz zs /\ (zabssum zs <= 2 ^ 53)%Z) ->
  projectR total_of (view h) axes = project (view h) axes.
Proof.
  intros total_of T h axes O K Z. unfold projectR, project. cbn [view p_head p_content with_content o_group o_fixed o_prof].
  change (o_group (with_content h CNone)) with (o_group h). rewrite (keeps_repeat h axes K). destruct (negb _); auto.
  destruct O as (_ & _ & _ & [C|C]); [rewrite C; reflexivity|]. pose proof (projcontentR_z total_of T (o_layout h) (map (fun x => axis_in x axes) (o_fixed h)) _ _ C Z) as X.
  destruct (o_content h) as [|d|l]; [destruct (length (o_group h)); contradiction| |]; cbn [embed] in *; rewrite X; reflexivity.
Qed.
Theorem C78_project_error : forall total_of, (forall l, some_sum fadd l (total_of l)) -> forall h axes B, hobj_ok h -> machine_hist h -> keeps_groups h axes ->
  all_in axes (o_group h ++ o_fixed h) = true ->
  (forall ks d, block (o_content h) ks = Some d -> exists qs, d = map Fin qs /\ ((growth (pred (length qs)) - 1) * qabssum qs <= B)%Q) ->
  exists g c, project (view h) axes = Ok (view g) /\ projectR total_of (view h) axes = Ok (PH (with_content g CNone) c) /\
    related (within B) (embed (o_layout g) (o_content g)) c.
Proof.
  intros total_of T h axes B O M K Ha Z. pose proof (project_hist h axes O Ha K) as E. exists (proj_hist h axes).
  assert (R : rebuild (with_content h CNone) (filter (fun x => axis_in x axes) (o_group h ++ o_fixed h) ++ o_prof h) = with_content (proj_hist h axes) CNone) by (exact (rebuild_proj h axes O)).
  assert (EQ := E). unfold projectR. unfold project in EQ. cbn [view p_head p_content with_content o_group o_fixed o_prof] in *. change (o_group (with_content h CNone)) with (o_group h) in *.
  rewrite (keeps_repeat h axes K) in EQ. rewrite Ha, R in *. cbn [negb] in *.
  destruct O as (_ & _ & _ & [C|C]).
  - exists PNone. split; [exact E|]. rewrite C in *. cbn [embed] in *. split; [reflexivity|]. apply (f_equal (fun r => match r with Ok p => p_content p | Err _ => PNone end)) in EQ. cbn [p_content view] in EQ. rewrite <- EQ. constructor.
  - pose proof (projcontentR_error total_of T (o_layout h) (map (fun x => axis_in x axes) (o_fixed h)) B _ _ C (fun ks d Ed => conj (M ks d Ed) (Z ks d Ed))) as X.
    assert (NE : embed (o_layout h) (o_content h) <> PNone) by (destruct (o_content h); [destruct (length (o_group h)); contradiction|discriminate|discriminate]).
    destruct (projcontent _ _ (embed _ _)) as [x|e] eqn:PX; [|exfalso; destruct (embed (o_layout h) (o_content h)); try congruence; rewrite PX in EQ; discriminate].
    destruct (projcontentR _ _ _ (embed _ _)) as [y|e] eqn:PY; [|contradiction]. exists y. split; [exact E|].
    assert (Ex : x = embed (o_layout (proj_hist h axes)) (o_content (proj_hist h axes))).
    { destruct (embed (o_layout h) (o_content h)); try congruence; rewrite PX in EQ; apply (f_equal (fun r => match r with Ok p => p_content p | Err _ => PNone end)) in EQ; exact EQ. }
    subst x. split; [|exact X]. destruct (embed (o_layout h) (o_content h)); try congruence; rewrite PY; reflexivity.
Qed.
(** Adding one after the other, from the left or from the right, is such a sum. *)
Example C78_project_case : let h := fr1 "a" (nz 3) (nz 4) in
  (forall l, some_sum fadd l (fold_left fadd l nzero)) /\ (forall l, some_sum fadd l (fold_right fadd nzero l)) /\
  hobj_ok h /\ machine_hist h /\ keeps_groups h (o_group h) /\ all_in (o_group h) (o_group h ++ o_fixed h) = true /\
  (forall ks d, block (o_content h) ks = Some d -> exists zs, d = map nz zs /\ (zabssum zs <= 2 ^ 53)%Z) /\
  (forall ks d, block (o_content h) ks = Some d -> exists qs, d = map Fin qs /\ ((growth (pred (length qs)) - 1) * qabssum qs <= 1 # 1000)%Q) /\
  exists g, project (view h) (o_group h) = Ok (view g) /\ hcell g [GStr "a"%string] [] SumW = nz 7.
Proof.
  assert (X : forall ks d, block (o_content (fr1 "a" (nz 3) (nz 4))) ks = Some d -> d = map nz [3; 4]%Z).
  { intros ks d. destruct ks as [|j [|? ?]]; cbn [o_content fr1 fr block assoc]; try discriminate; destruct (gkey_eqb j (GStr "a")); try discriminate. cbn. congruence. }
  cbv zeta. split; [intros l; apply (running_sum fadd l nzero []); constructor|]. split.
  { induction l as [|x l IH]; [constructor|]. cbn [fold_right]. apply (sum_two fadd [x] l); auto. constructor. }
  split; [apply fr1_ok|]. split; [apply fr1_machine; small_z|]. split; [reflexivity|]. split; [reflexivity|].
  split; [intros ks d E; exists [3; 4]%Z; split; [apply (X ks d E)|cbn; lia]|].
  split; [intros ks d E; exists [qz 3; qz 4]; split; [apply (X ks d E)|vm_compute; discriminate]|].
  exists (proj_hist (fr1 "a" (nz 3) (nz 4)) [AGroupby "g"%string]). split; [apply project_hist; try reflexivity; apply fr1_ok|].
  vm_compute. reflexivity.
Qed.
(** ... and the hypotheses of C78_sum_of_fills are met by filling a weighted bin. *)
Example C78_fills_case :
  let L := {| l_tots := [2]; l_nprof := 0; l_weighted := true |} in
  let row w := {| r_keys := []; r_slots := [Some 1%Z]; r_prof := []; r_w := w; r_w2 := fmul w w |} in
  fill_pre L 0 ExprWeight [row tenth; row (nz 2)] CNone /\ fill_pre L 0 ExprWeight [row (nz 3)] CNone /\ ~ counts_at_once L 0 ExprWeight /\ machine_content CNone /\
  map (row_addsR fmul ExprWeight SumW) (filter (in_cell [] [1]) ([row tenth; row (nz 2)] ++ [row (nz 3)])) = [tenth; nz 2; nz 3] /\ Forall machine [tenth; nz 2; nz 3].
Proof.
  cbv zeta. assert (P : forall ws, fill_pre {| l_tots := [2]; l_nprof := 0; l_weighted := true |} 0 ExprWeight (map (fun w => {| r_keys := []; r_slots := [Some 1%Z]; r_prof := []; r_w := w; r_w2 := fmul w w |}) ws) CNone).
  { intros ws. split; [unfold layout_ok; cbn; lia|]. split; [reflexivity|]. split; [|split; [left; reflexivity|left; reflexivity]].
    apply Forall_map, Forall_forall. intros w _. split; [reflexivity|]. split; [intros k []|]. split; [|reflexivity]. repeat constructor; cbn; lia. }
  split; [apply (P [tenth; nz 2])|]. split; [apply (P [nz 3])|]. split; [intros (H & _); discriminate|]. split; [intros [|? ?] d; discriminate|]. split; [reflexivity|].
  repeat constructor; first [apply tenth_machine|small_z].
Qed.

Print Assumptions C78_exact_instance.
Print Assumptions C78_exact_projection.
Print Assumptions C78_sum.
Print Assumptions C78_iadd.
Print Assumptions C78_commutative.
Print Assumptions C78_commutative_machine.
Print Assumptions C78_unit.
Print Assumptions C78_different_axes.
Print Assumptions C78_merge.
Print Assumptions C78_merge_order.
Print Assumptions C78_associative.
Print Assumptions C78_associative_refuted.
Print Assumptions C78_sum_of_fills.
Print Assumptions C78_product.
Print Assumptions C78_product_error.
Print Assumptions C78_double.
Print Assumptions C78_power_of_two.
Print Assumptions C78_power_distributes.
Print Assumptions C78_product_refuted.
Print Assumptions C78_distributes_refuted.
Print Assumptions C78_project_integers.
Print Assumptions C78_project_error.
