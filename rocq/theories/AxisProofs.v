(** Proofs about axes and binning (C01-C08). *)
From Coq Require Import String Sorted.
From Verif Require Import Base Num NumFacts Axis Calc AxisSpec.

(** ** Keys with flow bins *)
Definition fkeys (u o nf : bool) (under : key) (fins : list key) (over : key) : list key :=
  (if u then [under] else []) ++ fins ++ (if o then [over] else []) ++ (if nf then [KNaN] else []).

Lemma fkeys_length u o nf under fins over :
  length (fkeys u o nf under fins over) = length fins + b2n u + b2n o + b2n nf.
Proof. unfold fkeys. rewrite !app_length. destruct u, o, nf; simpl; lia. Qed.

Lemma fkeys_under o nf under fins over : nth_error (fkeys true o nf under fins over) 0 = Some under.
Proof. reflexivity. Qed.
Lemma fkeys_fin u o nf under fins over j : j < length fins ->
  nth_error (fkeys u o nf under fins over) (b2n u + j) = nth_error fins j.
Proof.
  intro H. unfold fkeys. destruct u; simpl; rewrite nth_error_app1 by exact H; reflexivity.
Qed.
Lemma fkeys_over u nf under fins over :
  nth_error (fkeys u true nf under fins over) (b2n u + length fins) = Some over.
Proof.
  unfold fkeys. destruct u; simpl; rewrite nth_error_app2 by lia; rewrite Nat.sub_diag; reflexivity.
Qed.
Lemma fkeys_nan u o under fins over :
  nth_error (fkeys u o true under fins over) (b2n u + length fins + b2n o) = Some KNaN.
Proof.
  unfold fkeys. rewrite nth_error_app2 by (destruct u; simpl; lia).
  rewrite nth_error_app2 by (destruct u; simpl; lia).
  rewrite nth_error_app2 by (destruct u, o; simpl; lia).
  match goal with |- nth_error _ ?k = _ => replace k with 0 by (destruct u, o; simpl; lia) end.
  reflexivity.
Qed.
(** Every position of the key list is one of the four kinds. *)
Lemma fkeys_inv u o nf under fins over j k :
  nth_error (fkeys u o nf under fins over) j = Some k ->
  (u = true /\ j = 0 /\ k = under) \/
  (exists i, j = b2n u + i /\ nth_error fins i = Some k) \/
  (o = true /\ j = b2n u + length fins /\ k = over) \/
  (nf = true /\ j = b2n u + length fins + b2n o /\ k = KNaN).
Proof.
  intro H. unfold fkeys in H.
  destruct (Nat.lt_ge_cases j (b2n u)) as [Hu|Hu].
  - left. destruct u; simpl in Hu; [|lia]. assert (j = 0) by lia; subst. simpl in H. inversion H; auto.
  - right. rewrite nth_error_app2 in H by (destruct u; simpl in *; lia).
    replace (length (if u then [under] else [])) with (b2n u) in H by (destruct u; reflexivity).
    destruct (Nat.lt_ge_cases (j - b2n u) (length fins)) as [Hf|Hf].
    + left. rewrite nth_error_app1 in H by lia. exists (j - b2n u). split; [lia|exact H].
    + right. rewrite nth_error_app2 in H by lia.
      destruct (Nat.lt_ge_cases (j - b2n u - length fins) (b2n o)) as [Ho|Ho].
      * left. destruct o; simpl in Ho; [|lia]. assert (E : j - b2n u - length fins = 0) by lia.
        rewrite E in H. simpl in H. inversion H. repeat split; lia.
      * right. rewrite nth_error_app2 in H by (destruct o; simpl in *; lia).
        replace (length (if o then [over] else [])) with (b2n o) in H by (destruct o; reflexivity).
        destruct nf.
        -- destruct (j - b2n u - length fins - b2n o) eqn:E; simpl in H.
           ++ inversion H. repeat split; lia.
           ++ destruct n; discriminate.
        -- destruct (j - b2n u - length fins - b2n o); discriminate.
Qed.
Lemma fkeys_In u o nf under fins over k :
  In k (fkeys u o nf under fins over) ->
  (u = true /\ k = under) \/ In k fins \/ (o = true /\ k = over) \/ (nf = true /\ k = KNaN).
Proof.
  intro H. apply In_nth_error in H. destruct H as [j Hj]. apply fkeys_inv in Hj.
  destruct Hj as [(?&?&?)|[(i&?&Hi)|[(?&?&?)|(?&?&?)]]]; auto.
  right; left. eapply nth_error_In; eauto.
Qed.

(** ** Positions: the exact place of a value relative to the bins.
    [PUnder], [PBin j], [POver] or [PNan]; [slot_of] is the slot a correct binning gives it. *)
Inductive pos := PUnder | PBin (j : nat) | POver | PNan.
Definition slot_of (u o nf : bool) (n : nat) (p : pos) : option Z :=
  match p with
  | PUnder => if u then Some 0%Z else None
  | PBin j => Some (b2z u + Z.of_nat j)%Z
  | POver => if o then Some (b2z u + Z.of_nat n)%Z else None
  | PNan => if nf then Some (b2z u + b2z o + Z.of_nat n)%Z else None
  end.

Definition pos_holds (under : key) (fins : list key) (over : key) (p : pos) (v : Num) : Prop :=
  match p with
  | PUnder => contains under v
  | PBin j => exists k, nth_error fins j = Some k /\ contains k v
  | POver => contains over v
  | PNan => v = NaN
  end.

(** A slot computed from the position in which the value really is matches the keys, provided the
    keys are pairwise disjoint. *)
Lemma slot_of_matches u o nf under fins over p v :
  pos_holds under fins over p v ->
  (forall p', pos_holds under fins over p' v -> p' = p) ->
  slot_matches_key (fkeys u o nf under fins over) (slot_of u o nf (length fins) p) v.
Proof.
  intros Hp Huniq. unfold slot_matches_key. destruct p as [|j| |]; simpl in Hp |- *.
  - destruct u.
    + exists 0, under. repeat split; auto.
    + intros k Hk Hc. apply fkeys_In in Hk. destruct Hk as [[? ?]|[Hk|[[? ?]|[? ?]]]]; subst; try discriminate.
      * apply In_nth_error in Hk. destruct Hk as [j Hj].
        specialize (Huniq (PBin j)). simpl in Huniq. discriminate Huniq. eauto.
      * specialize (Huniq POver Hc). discriminate.
      * specialize (Huniq PNan Hc). discriminate.
  - destruct Hp as (k & Hk & Hc). exists (b2n u + j), k.
    assert (j < length fins) by (apply nth_error_Some; congruence).
    split; [destruct u; unfold b2n, b2z; lia|]. split; [rewrite fkeys_fin by assumption; exact Hk|exact Hc].
  - destruct o.
    + exists (b2n u + length fins), over. split; [destruct u; unfold b2n, b2z; lia|].
      split; [apply fkeys_over|exact Hp].
    + intros k Hk Hc. apply fkeys_In in Hk. destruct Hk as [[? ?]|[Hk|[[? ?]|[? ?]]]]; subst; try discriminate.
      * specialize (Huniq PUnder Hc). discriminate.
      * apply In_nth_error in Hk. destruct Hk as [j Hj].
        specialize (Huniq (PBin j)). simpl in Huniq. discriminate Huniq. eauto.
      * specialize (Huniq PNan Hc). discriminate.
  - destruct nf.
    + exists (b2n u + length fins + b2n o), KNaN. split; [destruct u, o; unfold b2n, b2z; lia|].
      split; [apply fkeys_nan|exact Hp].
    + intros k Hk Hc. apply fkeys_In in Hk. destruct Hk as [[? ?]|[Hk|[[? ?]|[? ?]]]]; subst; try discriminate.
      * specialize (Huniq PUnder Hc). discriminate.
      * apply In_nth_error in Hk. destruct Hk as [j Hj].
        specialize (Huniq (PBin j)). simpl in Huniq. discriminate Huniq. eauto.
      * specialize (Huniq POver Hc). discriminate.
Qed.

(** Disjointness and coverage follow from the same two facts. *)
Lemma fkeys_disjoint u o nf under fins over :
  (forall v p p', pos_holds under fins over p v -> pos_holds under fins over p' v -> p' = p) ->
  disjoint_keys (fkeys u o nf under fins over).
Proof.
  intros Huniq i j ki kj v Hi Hj Hci Hcj.
  assert (Hpos : forall m k, nth_error (fkeys u o nf under fins over) m = Some k -> contains k v ->
    exists p, pos_holds under fins over p v /\
      m = match p with PUnder => 0 | PBin q => b2n u + q | POver => b2n u + length fins
                  | PNan => b2n u + length fins + b2n o end).
  { intros m k Hm Hc. apply fkeys_inv in Hm.
    destruct Hm as [(?&?&?)|[(q&?&Hq)|[(?&?&?)|(?&?&?)]]]; subst.
    - exists PUnder; auto.
    - exists (PBin q); split; [simpl; eauto|reflexivity].
    - exists POver; auto.
    - exists PNan; auto. }
  destruct (Hpos i ki Hi Hci) as (p & Hp & ->). destruct (Hpos j kj Hj Hcj) as (p' & Hp' & ->).
  rewrite (Huniq v p p' Hp Hp'). reflexivity.
Qed.

(** ** Interval arithmetic *)
Lemma in_interval_unfold lo hi cl v : v <> NaN ->
  in_interval lo hi cl (negb cl) v <->
  if cl then nleb lo v = true /\ nltb v hi = true else nltb lo v = true /\ nleb v hi = true.
Proof.
  intro Hv. unfold in_interval. destruct cl; simpl; rewrite nleb_iff.
  - split.
    + intros [[H1|(_&H1&_)] [H2|(H2&_)]]; try discriminate; split; auto.
      right. subst. split; [reflexivity|]. destruct lo; simpl; congruence.
    + intros [[H1|[H1 H1']] H2]; split; auto.
  - split.
    + intros [[H1|(H1&_)] [H2|(_&H2&_)]]; try discriminate; split; auto.
      right. subst. split; [reflexivity|]. destruct hi; simpl; congruence.
    + intros [H1 [H2|[H2 H2']]]; split; auto.
Qed.
Lemma in_interval_nan lo hi cl ch : ~ in_interval lo hi cl ch NaN.
Proof.
  unfold in_interval. intros [[H|(_&_&H)] _]; [|congruence]. destruct lo; discriminate.
Qed.

(** Case analysis on every integer comparison in the goal. *)
Ltac zcmp := repeat match goal with
      | |- context [(?a <? ?b)%Z] => destruct (Z.ltb_spec a b)
      | |- context [(?a <=? ?b)%Z] => destruct (Z.leb_spec a b)
      | |- context [(?a =? ?b)%Z] => destruct (Z.eqb_spec a b)
      end.
Ltac clamp_tac u o :=
  unfold bin_clamp, int_min, int_max in *; destruct u, o; cbn [b2z] in *;
  zcmp; try lia; try reflexivity; try (f_equal; lia).

(** ** bin: exact edges *)
Section BinExact.
  Variables (n : nat) (l h : Qc).
  Hypothesis Hn : 0 < n.
  Hypothesis Hlh : (this l < this h)%Q.

  Definition edge (i : nat) : Qc := (qz (Z.of_nat i) / qz (Z.of_nat n) * (h - l) + l)%Qc.
  (* the scaled value, a real number of bins above [low] *)
  Definition tval (v : Qc) : Qc := ((v - l) * (qz (Z.of_nat n) / (h - l)))%Qc.

  Lemma qn_pos : (0 < inject_Z (Z.of_nat n))%Q.
  Proof. change 0%Q with (inject_Z 0). rewrite <- Zlt_Qlt. lia. Qed.

  Lemma nnat_n_nz : qeqb (qz (Z.of_nat n)) qc0 = false.
  Proof.
    apply qeqb_false. intro H. apply qz_inj in H. lia.
  Qed.

  Lemma i2x_edge i : i2x n (Fin l) (Fin h) i = Fin (edge i).
  Proof. unfold i2x, nnat, nz, nsub, ndiv. rewrite nnat_n_nz. reflexivity. Qed.

  Lemma edge_tval i v : (this (edge i) <= this v)%Q <-> (inject_Z (Z.of_nat i) <= this (tval v))%Q.
  Proof.
    unfold edge, tval. pose proof qn_pos as Hp. rewrite ?this_add, ?this_mul, ?this_div, ?this_sub, ?this_qz.
    set (N := inject_Z (Z.of_nat n)) in *. set (I := inject_Z (Z.of_nat i)).
    set (L := this l) in *. set (H := this h) in *. set (V := this v).
    assert (Hd : (0 < H - L)%Q) by lra.
    assert (E1 : (I / N * (H - L) + L <= V <-> I * (H - L) <= (V - L) * N)%Q).
    { split; intro Hx.
      - assert (I / N * (H - L) <= V - L)%Q by lra.
        assert (I / N * (H - L) * N <= (V - L) * N)%Q by (apply Qmult_le_compat_r; lra).
        assert ((I / N * (H - L) * N == I * (H - L))%Q) by (field; lra). lra.
      - assert ((I * (H - L) == I / N * (H - L) * N)%Q) by (field; lra).
        assert (I / N * (H - L) * N <= (V - L) * N)%Q by lra.
        apply Qmult_le_r in H1; lra. }
    assert (E2 : (I <= (V - L) * (N / (H - L)) <-> I * (H - L) <= (V - L) * N)%Q).
    { split; intro Hx.
      - assert (I * (H - L) <= (V - L) * (N / (H - L)) * (H - L))%Q by (apply Qmult_le_compat_r; lra).
        assert (((V - L) * (N / (H - L)) * (H - L) == (V - L) * N)%Q) by (field; lra). lra.
      - assert (((V - L) * N == (V - L) * (N / (H - L)) * (H - L))%Q) by (field; lra).
        assert (I * (H - L) <= (V - L) * (N / (H - L)) * (H - L))%Q by lra.
        apply Qmult_le_r in H1; lra. }
    rewrite E1, E2. reflexivity.
  Qed.

  Lemma edge_tval_ge i v : (this v <= this (edge i))%Q <-> (this (tval v) <= inject_Z (Z.of_nat i))%Q.
  Proof.
    (* the two are equal when they touch, so use antisymmetry through the reflected value *)
    unfold edge, tval. pose proof qn_pos as Hp. rewrite ?this_add, ?this_mul, ?this_div, ?this_sub, ?this_qz.
    set (N := inject_Z (Z.of_nat n)) in *. set (I := inject_Z (Z.of_nat i)).
    set (L := this l) in *. set (H := this h) in *. set (V := this v).
    assert (Hd : (0 < H - L)%Q) by lra.
    assert (E1 : (V <= I / N * (H - L) + L <-> (V - L) * N <= I * (H - L))%Q).
    { split; intro Hx.
      - assert (V - L <= I / N * (H - L))%Q by lra.
        assert ((V - L) * N <= I / N * (H - L) * N)%Q by (apply Qmult_le_compat_r; lra).
        assert ((I / N * (H - L) * N == I * (H - L))%Q) by (field; lra). lra.
      - assert ((I * (H - L) == I / N * (H - L) * N)%Q) by (field; lra).
        assert ((V - L) * N <= I / N * (H - L) * N)%Q by lra.
        apply Qmult_le_r in H1; lra. }
    assert (E2 : ((V - L) * (N / (H - L)) <= I <-> (V - L) * N <= I * (H - L))%Q).
    { split; intro Hx.
      - assert ((V - L) * (N / (H - L)) * (H - L) <= I * (H - L))%Q by (apply Qmult_le_compat_r; lra).
        assert (((V - L) * (N / (H - L)) * (H - L) == (V - L) * N)%Q) by (field; lra). lra.
      - assert (((V - L) * N == (V - L) * (N / (H - L)) * (H - L))%Q) by (field; lra).
        assert ((V - L) * (N / (H - L)) * (H - L) <= I * (H - L))%Q by lra.
        apply Qmult_le_r in H1; lra. }
    rewrite E1, E2. reflexivity.
  Qed.

  Lemma edge_0 : edge 0 = l.
  Proof.
    unfold edge. qc_eq. pose proof qn_pos. intro; lra.
  Qed.
  Lemma edge_n : edge n = h.
  Proof. unfold edge. qc_eq. pose proof qn_pos. intro; lra. Qed.

  (** integer position of a finite value *)
  Definition zpos (cl : bool) (v : Qc) : Z := if cl then qfloor (tval v) else (qceil (tval v) - 1)%Z.

  Lemma zpos_interval cl v j : zpos cl v = Z.of_nat j <->
    in_interval (Fin (edge j)) (Fin (edge (j + 1))) cl (negb cl) (Fin v).
  Proof.
    rewrite in_interval_unfold by discriminate. unfold zpos.
    pose proof (edge_tval j v) as E1. pose proof (edge_tval (j + 1) v) as E2.
    pose proof (edge_tval_ge j v) as E3. pose proof (edge_tval_ge (j + 1) v) as E4.
    destruct (qfloor_spec (tval v)) as [F1 F2]. destruct (qceil_spec (tval v)) as [C1 C2].
    replace (Z.of_nat (j + 1)) with (Z.of_nat j + 1)%Z in * by lia.
    destruct cl.
    - rewrite nleb_nltb by reflexivity. simpl. rewrite negb_true_iff, qltb_false, qltb_iff. split.
      + intro Hz. rewrite Hz in *. split; [apply E1; exact F1|].
        destruct (Qlt_le_dec (this v) (this (edge (j + 1)))) as [Hl|Hl]; [exact Hl|].
        apply E2 in Hl. lra.
      + intros [Ha Hb]. apply qfloor_unique; [apply E1; exact Ha|].
        destruct (Qlt_le_dec (this (tval v)) (inject_Z (Z.of_nat j + 1))) as [Hl|Hl]; [exact Hl|].
        apply E2 in Hl. lra.
    - rewrite nleb_nltb by reflexivity. simpl. rewrite negb_true_iff, qltb_false, qltb_iff. split.
      + intro Hz. assert (Hc : qceil (tval v) = (Z.of_nat j + 1)%Z) by lia. rewrite Hc in *.
        replace (Z.of_nat j + 1 - 1)%Z with (Z.of_nat j) in * by lia. split; [|apply E4; exact C2].
        destruct (Qlt_le_dec (this (edge j)) (this v)) as [Hl|Hl]; [exact Hl|].
        apply E3 in Hl. lra.
      + intros [Ha Hb]. enough (qceil (tval v) = (Z.of_nat j + 1)%Z) by lia.
        apply qceil_unique; [|apply E4; exact Hb].
        replace (Z.of_nat j + 1 - 1)%Z with (Z.of_nat j) by lia.
        destruct (Qlt_le_dec (inject_Z (Z.of_nat j)) (this (tval v))) as [Hl|Hl]; [exact Hl|].
        apply E3 in Hl. lra.
  Qed.

  Lemma zpos_under cl v : (zpos cl v < 0)%Z <-> in_interval NInf (Fin l) true (negb cl) (Fin v).
  Proof.
    unfold zpos. pose proof (edge_tval 0 v) as E1. pose proof (edge_tval_ge 0 v) as E2.
    rewrite edge_0 in E1, E2. change (inject_Z (Z.of_nat 0)) with 0%Q in *.
    unfold in_interval. simpl.
    pose proof (qfloor_le_iff (tval v) 0) as F. pose proof (qceil_le_iff (tval v) 0) as C.
    change (inject_Z 0) with 0%Q in *.
    destruct cl; simpl.
    - split.
      + intro Hz. split; [auto|]. left. apply qltb_iff.
        destruct (Qlt_le_dec (this v) (this l)) as [H|H]; [exact H|]. apply E1, F in H. lia.
      + intros [_ [H|[H _]]]; [|discriminate]. apply qltb_iff in H.
        destruct (Z_lt_ge_dec (qfloor (tval v)) 0) as [H'|H']; [exact H'|].
        assert (0 <= qfloor (tval v))%Z as H2 by lia. apply F, E1 in H2. lra.
    - split.
      + intro Hz. split; [auto|]. assert (Hc : (qceil (tval v) <= 0)%Z) by lia.
        apply C, E2 in Hc. destruct (Qlt_le_dec (this v) (this l)) as [H|H].
        * left. apply qltb_iff; exact H.
        * right. split; [reflexivity|]. split; [|discriminate]. f_equal. apply Qc_ext. lra.
      + intros [_ H]. assert (Hle : (this v <= this l)%Q).
        { destruct H as [H|(_&H&_)]; [apply qltb_iff in H; lra|]. inversion H; subst; lra. }
        apply E2, C in Hle. lia.
  Qed.

  Lemma zpos_over cl v : (Z.of_nat n <= zpos cl v)%Z <-> in_interval (Fin h) PInf cl true (Fin v).
  Proof.
    unfold zpos. pose proof (edge_tval n v) as E1. pose proof (edge_tval_ge n v) as E2.
    rewrite edge_n in E1, E2. unfold in_interval. simpl.
    pose proof (qfloor_le_iff (tval v) (Z.of_nat n)) as F. pose proof (qceil_le_iff (tval v) (Z.of_nat n)) as C.
    destruct cl; simpl.
    - split.
      + intro Hz. apply F, E1 in Hz. split; [|auto].
        destruct (Qlt_le_dec (this h) (this v)) as [H|H].
        * left. apply qltb_iff; exact H.
        * right. split; [reflexivity|]. split; [|discriminate]. f_equal. apply Qc_ext. lra.
      + intros [H _]. apply F, E1. destruct H as [H|(_&H&_)]; [apply qltb_iff in H; lra|].
        inversion H; subst; lra.
    - split.
      + intro Hz. split; [|auto]. left. apply qltb_iff.
        destruct (Qlt_le_dec (this h) (this v)) as [H|H]; [exact H|]. apply E2, C in H. lia.
      + intros [[H|[H _]] _]; [|discriminate]. apply qltb_iff in H.
        destruct (Z_lt_ge_dec (Z.of_nat n) (qceil (tval v))) as [H'|H']; [lia|].
        assert (qceil (tval v) <= Z.of_nat n)%Z as H2 by lia. apply C, E2 in H2. lra.
  Qed.

  Definition bin_fins (cl : bool) : list key :=
    map (fun i => KIv (i2x n (Fin l) (Fin h) i) (i2x n (Fin l) (Fin h) (i + 1)) cl (negb cl)) (seq 0 n).
  Definition bin_under cl := KIv NInf (Fin l) true (negb cl).
  Definition bin_over cl := KIv (Fin h) PInf cl true.

  Lemma keys_bin_fkeys u o nf cl :
    keys_bin n (Fin l) (Fin h) u o nf cl = fkeys u o nf (bin_under cl) (bin_fins cl) (bin_over cl).
  Proof. reflexivity. Qed.
  Lemma bin_fins_length cl : length (bin_fins cl) = n.
  Proof. unfold bin_fins. rewrite map_length, seq_length. reflexivity. Qed.
  Lemma bin_fins_nth cl j k : nth_error (bin_fins cl) j = Some k ->
    j < n /\ k = KIv (Fin (edge j)) (Fin (edge (j + 1))) cl (negb cl).
  Proof.
    intro H. assert (Hj : j < n) by (rewrite <- (bin_fins_length cl); apply nth_error_Some; congruence).
    split; [exact Hj|]. unfold bin_fins in H. rewrite nth_error_map in H.
    rewrite (nth_error_nth' _ 0) in H by (rewrite seq_length; exact Hj).
    rewrite seq_nth in H by exact Hj. simpl in H. rewrite !i2x_edge in H. congruence.
  Qed.
  Lemma bin_fins_nth_some cl j : j < n ->
    nth_error (bin_fins cl) j = Some (KIv (Fin (edge j)) (Fin (edge (j + 1))) cl (negb cl)).
  Proof.
    intro Hj. destruct (nth_error (bin_fins cl) j) eqn:E.
    - apply bin_fins_nth in E. destruct E as [_ ->]. reflexivity.
    - apply nth_error_None in E. rewrite bin_fins_length in E. lia.
  Qed.

  (** the position of every value *)
  Definition bin_pos (cl : bool) (v : Num) : pos :=
    match v with
    | NaN => PNan
    | PInf => POver
    | NInf => PUnder
    | Fin q => let z := zpos cl q in
               if (z <? 0)%Z then PUnder else if (Z.of_nat n <=? z)%Z then POver else PBin (Z.to_nat z)
    end.

  Lemma bin_pos_holds cl v p :
    pos_holds (bin_under cl) (bin_fins cl) (bin_over cl) p v <-> p = bin_pos cl v.
  Proof.
    assert (Hlt0 : (this (edge 0) < this (edge n))%Q) by (rewrite edge_0, edge_n; exact Hlh).
    destruct v as [q| | |].
    - (* finite *)
      assert (Hfin : forall j, pos_holds (bin_under cl) (bin_fins cl) (bin_over cl) (PBin j) (Fin q) <->
                               j < n /\ zpos cl q = Z.of_nat j).
      { intro j. simpl. split.
        - intros (k & Hk & Hc). apply bin_fins_nth in Hk. destruct Hk as [Hj ->]. split; [exact Hj|].
          apply zpos_interval. exact Hc.
        - intros [Hj Hz]. eexists. split; [apply bin_fins_nth_some; exact Hj|]. apply zpos_interval; exact Hz. }
      pose proof (zpos_under cl q) as HU. pose proof (zpos_over cl q) as HO.
      unfold bin_pos. cbv zeta.
      destruct (Z.ltb_spec (zpos cl q) 0) as [Hz|Hz];
        [|destruct (Z.leb_spec (Z.of_nat n) (zpos cl q)) as [Hz2|Hz2]].
      + split; [|intros ->; apply HU; exact Hz]. destruct p as [|j| |]; intro Hp; try reflexivity; exfalso.
        * apply Hfin in Hp. lia.
        * apply HO in Hp. lia.
        * discriminate Hp.
      + split; [|intros ->; apply HO; exact Hz2]. destruct p as [|j| |]; intro Hp; try reflexivity; exfalso.
        * apply HU in Hp. lia.
        * apply Hfin in Hp. lia.
        * discriminate Hp.
      + split.
        * destruct p as [|j| |]; intro Hp.
          -- apply HU in Hp. lia.
          -- apply Hfin in Hp. f_equal. lia.
          -- apply HO in Hp. lia.
          -- discriminate Hp.
        * intros ->. apply Hfin. lia.
    - split; [|intros ->; simpl; unfold in_interval; simpl; split; [auto|right; split; [reflexivity|split; [reflexivity|discriminate]]]].
      destruct p as [|j| |]; intro Hp; try reflexivity; exfalso; simpl in Hp.
      + unfold in_interval in Hp. simpl in Hp. destruct Hp as [_ [H|(_&H&_)]]; discriminate.
      + destruct Hp as (k & Hk & Hc). apply bin_fins_nth in Hk. destruct Hk as [_ ->].
        unfold contains, in_interval in Hc. simpl in Hc. destruct Hc as [_ [H|(_&H&_)]]; discriminate.
      + discriminate.
    - split; [|intros ->; simpl; unfold in_interval; simpl; split; [right; split; [reflexivity|split; [reflexivity|discriminate]]|auto]].
      destruct p as [|j| |]; intro Hp; try reflexivity; exfalso; simpl in Hp.
      + destruct Hp as (k & Hk & Hc). apply bin_fins_nth in Hk. destruct Hk as [_ ->].
        unfold contains, in_interval in Hc. simpl in Hc. destruct Hc as [[H|(_&H&_)] _]; discriminate.
      + unfold in_interval in Hp. simpl in Hp. destruct Hp as [[H|(_&H&_)] _]; discriminate.
      + discriminate.
    - split; [|intros ->; reflexivity].
      destruct p as [|j| |]; intro Hp; try reflexivity; exfalso; simpl in Hp.
      + eapply in_interval_nan; eauto.
      + destruct Hp as (k & Hk & Hc). apply bin_fins_nth in Hk. destruct Hk as [_ ->].
        eapply in_interval_nan; eauto.
      + eapply in_interval_nan; eauto.
  Qed.

  (** *** the code's index *)
  Lemma qhl_nz : neqb (rn Fin (nsub (Fin h) (Fin l))) nzero = false.
  Proof. simpl. apply qeqb_false. intro H. apply Qc_ext_iff in H. qc_push. lra. Qed.

  Lemma bin_scale_exact : bin_scale Fin n (Fin l) (Fin h) = Ok (Fin (qz (Z.of_nat n) / (h - l))%Qc).
  Proof.
    unfold bin_scale. rewrite qhl_nz. unfold nsub, nnat, nz. simpl.
    assert (E : qeqb (h + - l)%Qc qc0 = false).
    { apply qeqb_false. intro H. apply Qc_ext_iff in H. qc_push. lra. }
    rewrite E. reflexivity.
  Qed.
  Lemma scale_pos : (0 < this (qz (Z.of_nat n) / (h - l))%Qc)%Q.
  Proof.
    pose proof qn_pos. qc_push. apply Qlt_shift_div_l; lra.
  Qed.

  Lemma bin_scaled_fin u cl q :
    bin_scaled Fin u cl n (Fin l) (Fin h) (Fin q) = Ok (nz (zpos cl q + b2z u)).
  Proof.
    unfold bin_scaled. rewrite bin_scale_exact. simpl. f_equal. unfold zpos, tval. unfold Qcminus.
    destruct cl; cbn [b2z].
    - destruct u; cbn [b2z]; unfold nz; f_equal; rewrite <- ?qz_add; f_equal; lia.
    - unfold nz. f_equal. rewrite <- qz_add. f_equal. destruct u; cbn [b2z]; lia.
  Qed.
  Lemma bin_scaled_pinf u cl : bin_scaled Fin u cl n (Fin l) (Fin h) PInf = Ok PInf.
  Proof.
    unfold bin_scaled. rewrite bin_scale_exact. simpl.
    pose proof scale_pos as Hs.
    assert (E : ninf_sign (qz (Z.of_nat n) / (h - l))%Qc = PInf).
    { destruct (ninf_sign_cases (qz (Z.of_nat n) / (h - l))%Qc) as [[_ H]|[[H _]|[H _]]];
        [exact H|lra|]. rewrite H in Hs. rewrite this_qc0 in Hs. lra. }
    rewrite E. simpl. destruct cl, u; reflexivity.
  Qed.
  Lemma bin_scaled_ninf u cl : bin_scaled Fin u cl n (Fin l) (Fin h) NInf = Ok NInf.
  Proof.
    unfold bin_scaled. rewrite bin_scale_exact. simpl.
    pose proof scale_pos as Hs.
    assert (E : ninf_sign (qz (Z.of_nat n) / (h - l))%Qc = PInf).
    { destruct (ninf_sign_cases (qz (Z.of_nat n) / (h - l))%Qc) as [[_ H]|[[H _]|[H _]]];
        [exact H|lra|]. rewrite H in Hs. rewrite this_qc0 in Hs. lra. }
    rewrite E. simpl. destruct cl, u; reflexivity.
  Qed.
  Lemma bin_scaled_nan u cl : bin_scaled Fin u cl n (Fin l) (Fin h) NaN = Ok NaN.
  Proof.
    unfold bin_scaled. rewrite bin_scale_exact. simpl. destruct cl, u; reflexivity.
  Qed.

  Lemma bin_clamp_slot u o nf z : bin_clamp u o n (z + b2z u) =
    slot_of u o nf n (if (z <? 0)%Z then PUnder else if (Z.of_nat n <=? z)%Z then POver else PBin (Z.to_nat z)).
  Proof.
    unfold bin_clamp, slot_of.
    destruct (Z.ltb_spec z 0), (Z.leb_spec (Z.of_nat n) z); destruct u, o; simpl b2z in *;
      repeat match goal with
      | |- context [(?a <? ?b)%Z] => destruct (Z.ltb_spec a b)
      | |- context [(?a <=? ?b)%Z] => destruct (Z.leb_spec a b)
      end; try lia; try reflexivity; try (f_equal; lia).
  Qed.

  (** The cast agrees with the integer on the values it is given: [cast_good z] says the cast of the
      integral float [z] clamps like [z] itself. *)
  Lemma cast_sat_clamp u o z : (Z.of_nat n + 1 <= int_max)%Z ->
    bin_clamp u o n (cast_sat (nz z)) = bin_clamp u o n z.
  Proof.
    intro Hsz. unfold cast_sat, nz.
    assert (Ht : qtrunc (qz z) = z).
    { unfold qtrunc, qz, Q2Qc, inject_Z. cbn [this].
      rewrite Qred_identity by (cbn; apply Z.gcd_1_r). simpl. apply Z.quot_1_r. }
    rewrite Ht. destruct (in_int32 z) eqn:E; [reflexivity|].
    unfold in_int32 in E. apply andb_false_iff in E.
    unfold int_max, int_min in *.
    assert (Hneg : qltb (qz z) qc0 = (z <? 0)%Z).
    { destruct (Z.ltb_spec z 0) as [H|H]; qc_bool; qc_push; change 0%Q with (inject_Z 0);
        [rewrite <- Zlt_Qlt; exact H | rewrite <- Zle_Qle; lia]. }
    rewrite Hneg.
    assert (Hbig : (z < - 2 ^ 31 \/ z > 2 ^ 31 - 1)%Z) by (destruct E as [E|E]; apply Z.leb_gt in E; lia).
    unfold bin_clamp.
    destruct (Z.ltb_spec z 0); destruct u, o; simpl b2z;
      repeat match goal with
      | |- context [(?a <? ?b)%Z] => destruct (Z.ltb_spec a b)
      | |- context [(?a <=? ?b)%Z] => destruct (Z.leb_spec a b)
      end; try lia; try reflexivity; try (f_equal; lia).
  Qed.
  Lemma cast_x86_clamp u o z : (z <= int_max)%Z ->
    bin_clamp u o n (cast_x86 (nz z)) = bin_clamp u o n z.
  Proof.
    intro Hsz. unfold cast_x86, nz.
    assert (Ht : qtrunc (qz z) = z).
    { unfold qtrunc, qz, Q2Qc, inject_Z. cbn [this].
      rewrite Qred_identity by (cbn; apply Z.gcd_1_r). simpl. apply Z.quot_1_r. }
    rewrite Ht. destruct (in_int32 z) eqn:E; [reflexivity|].
    unfold in_int32 in E. apply andb_false_iff in E.
    unfold int_max, int_min in *.
    assert (Hbig : (z < - 2 ^ 31)%Z) by (destruct E as [E|E]; apply Z.leb_gt in E; lia).
    unfold bin_clamp.
    destruct u, o; simpl b2z;
      repeat match goal with
      | |- context [(?a <? ?b)%Z] => destruct (Z.ltb_spec a b)
      | |- context [(?a <=? ?b)%Z] => destruct (Z.leb_spec a b)
      end; try lia; try reflexivity; try (f_equal; lia).
  Qed.

  Lemma bin_index_sat_pos u o nf cl v : (Z.of_nat n + 1 <= int_max)%Z ->
    bin_index Fin cast_sat u o nf cl n (Fin l) (Fin h) v = Ok (slot_of u o nf n (bin_pos cl v)).
  Proof.
    intro Hsz. unfold bin_index. destruct v as [q| | |].
    - rewrite bin_scaled_fin. simpl isnan. cbn [bind]. f_equal. change (isnan (nz (zpos cl q + b2z u))) with false.
      cbv iota. rewrite cast_sat_clamp by exact Hsz. apply bin_clamp_slot.
    - rewrite bin_scaled_pinf. cbn [bind isnan]. f_equal. cbn [cast_sat bin_pos slot_of]. clamp_tac u o.
    - rewrite bin_scaled_ninf. cbn [bind isnan]. f_equal. cbn [cast_sat bin_pos slot_of]. clamp_tac u o.
    - rewrite bin_scaled_nan. reflexivity.
  Qed.

  Lemma bin_index_x86_pos u o nf cl v :
    match v with PInf => False | Fin q => (zpos cl q + b2z u <= int_max)%Z | _ => True end ->
    bin_index Fin cast_x86 u o nf cl n (Fin l) (Fin h) v = Ok (slot_of u o nf n (bin_pos cl v)).
  Proof.
    intro Hsz. unfold bin_index. destruct v as [q| | |]; [| contradiction | |].
    - rewrite bin_scaled_fin. cbn [bind]. f_equal. change (isnan (nz (zpos cl q + b2z u))) with false.
      cbv iota. rewrite cast_x86_clamp by exact Hsz. apply bin_clamp_slot.
    - rewrite bin_scaled_ninf. cbn [bind isnan]. f_equal. cbn [cast_x86 bin_pos slot_of]. clamp_tac u o.
    - rewrite bin_scaled_nan. reflexivity.
  Qed.

  Lemma bin_slot_matches u o nf cl v :
    slot_matches_key (keys_bin n (Fin l) (Fin h) u o nf cl) (slot_of u o nf n (bin_pos cl v)) v.
  Proof.
    rewrite keys_bin_fkeys.
    pose proof (slot_of_matches u o nf (bin_under cl) (bin_fins cl) (bin_over cl) (bin_pos cl v) v) as H.
    rewrite bin_fins_length in H. apply H; [apply bin_pos_holds; reflexivity|].
    intros p' Hp'. apply bin_pos_holds. exact Hp'.
  Qed.
End BinExact.

(** ** Order of the keys, from a position function *)
Definition prank (n : nat) (p : pos) : nat :=
  match p with PUnder => 0 | PBin j => 1 + j | POver => 1 + n | PNan => 2 + n end.

Lemma fkeys_pos u o nf under fins over m k v :
  nth_error (fkeys u o nf under fins over) m = Some k -> contains k v ->
  exists p, pos_holds under fins over p v /\
    match p with PUnder => u = true /\ m = 0 | PBin q => m = b2n u + q /\ q < length fins
    | POver => o = true /\ m = b2n u + length fins
    | PNan => nf = true /\ m = b2n u + length fins + b2n o end.
Proof.
  intros Hm Hc. apply fkeys_inv in Hm.
  destruct Hm as [(?&?&?)|[(q&?&Hq)|[(?&?&?)|(?&?&?)]]]; subst.
  - exists PUnder; auto.
  - exists (PBin q); split; [simpl; eauto|]. split; [reflexivity|]. apply nth_error_Some. congruence.
  - exists POver; auto.
  - exists PNan; auto.
Qed.

Lemma fkeys_increasing u o nf under fins over (posf : Num -> pos) :
  (forall v p, pos_holds under fins over p v <-> p = posf v) ->
  (forall v w, nleb w v = true -> prank (length fins) (posf w) <= prank (length fins) (posf v)) ->
  increasing_keys (fkeys u o nf under fins over).
Proof.
  intros Hpos Hmono i j ki kj v w Hij Hi Hj Hci Hcj.
  destruct (fkeys_pos _ _ _ _ _ _ _ _ _ Hi Hci) as (p & Hp & Hpi).
  destruct (fkeys_pos _ _ _ _ _ _ _ _ _ Hj Hcj) as (p' & Hp' & Hpj).
  assert (Hr : prank (length fins) p < prank (length fins) p' /\ p <> PNan).
  { destruct p, p'; simpl in *; destruct u, o, nf; simpl in *; intuition (try discriminate; lia). }
  destruct Hr as [Hr Hn].
  assert (Hv : v <> NaN).
  { intro Hv. subst. assert (PNan = posf NaN) as E by (apply Hpos; reflexivity).
    apply Hpos in Hp. congruence. }
  split; [exact Hv|].
  destruct (isnan w) eqn:Ew; [right; destruct w; simpl in Ew; congruence|left].
  assert (Hvn : isnan v = false) by (destruct v; simpl; congruence).
  pose proof (nleb_nltb w v Ew Hvn) as Hle.
  destruct (nltb v w) eqn:El; [reflexivity|]. simpl in Hle. apply Hmono in Hle.
  apply Hpos in Hp. apply Hpos in Hp'. subst. lia.
Qed.

Section BinOrder.
  Variables (n : nat) (l h : Qc).
  Hypothesis Hn : 0 < n.
  Hypothesis Hlh : (this l < this h)%Q.

  Lemma tval_mono x y : (this x <= this y)%Q -> (this (tval n l h x) <= this (tval n l h y))%Q.
  Proof.
    intro H. unfold tval. rewrite !(this_mul _ _).
    apply Qmult_le_compat_r; [qc_push; lra|].
    apply Qlt_le_weak. apply (scale_pos n l h Hn Hlh).
  Qed.
  Lemma zpos_mono cl x y : (this x <= this y)%Q -> (zpos n l h cl x <= zpos n l h cl y)%Z.
  Proof.
    intro H. apply tval_mono in H. unfold zpos. destruct cl.
    - apply qfloor_mono; exact H.
    - apply qceil_mono in H. lia.
  Qed.
  Lemma bin_pos_mono cl v w : nleb w v = true ->
    prank n (bin_pos n l h cl w) <= prank n (bin_pos n l h cl v).
  Proof.
    intro H. destruct w as [q| | |], v as [q'| | |]; simpl in *; try discriminate; try lia;
    try (unfold bin_pos; cbv zeta; zcmp; simpl; lia).
    assert (Hq : (this q <= this q')%Q).
    { apply nleb_iff in H. destruct H as [H|[H _]]; [simpl in H; qlra|inversion H; subst; lra]. }
    pose proof (zpos_mono cl _ _ Hq). unfold bin_pos; cbv zeta; zcmp; simpl; lia.
  Qed.
  Lemma bin_keys_increasing u o nf cl : increasing_keys (keys_bin n (Fin l) (Fin h) u o nf cl).
  Proof.
    rewrite (keys_bin_fkeys n l h). apply (fkeys_increasing _ _ _ _ _ _ (bin_pos n l h cl)).
    - intros v p. apply bin_pos_holds; assumption.
    - intros v w. rewrite bin_fins_length. apply bin_pos_mono.
  Qed.
  Lemma bin_keys_disjoint u o nf cl : disjoint_keys (keys_bin n (Fin l) (Fin h) u o nf cl).
  Proof.
    rewrite (keys_bin_fkeys n l h). apply fkeys_disjoint.
    intros v p p' Hp Hp'. apply (bin_pos_holds n l h Hn Hlh) in Hp, Hp'. congruence.
  Qed.
End BinOrder.

(** ** split *)
Definition strictly_sorted (l : list Num) : Prop := StronglySorted (fun a b => nltb a b = true) l.

Lemma insert_num_in x l y : In y (insert_num x l) <-> y = x \/ In y l.
Proof.
  induction l as [|z l IH]; simpl; [intuition|]. destruct (nltb x z); simpl; [intuition|].
  rewrite IH. intuition.
Qed.
Lemma sort_num_in l y : In y (sort_num l) <-> In y l.
Proof.
  induction l as [|x l IH]; simpl; [reflexivity|]. rewrite insert_num_in, IH. intuition.
Qed.
Lemma insert_num_length x l : length (insert_num x l) = S (length l).
Proof. induction l as [|z l IH]; simpl; [reflexivity|]. destruct (nltb x z); simpl; congruence. Qed.
Lemma sort_num_length l : length (sort_num l) = length l.
Proof. induction l as [|x l IH]; simpl; [reflexivity|]. rewrite insert_num_length. congruence. Qed.
Definition nonan (l : list Num) : Prop := forall x, In x l -> x <> NaN.
Lemma insert_num_sorted x l : x <> NaN -> nonan l ->
  StronglySorted (fun a b => nleb a b = true) l -> StronglySorted (fun a b => nleb a b = true) (insert_num x l).
Proof.
  intros Hx Hn. induction l as [|z l IH]; intro Hs; simpl.
  - constructor; constructor.
  - inversion Hs as [|? ? Hs' Hf]; subst. rewrite Forall_forall in Hf.
    assert (Hz : z <> NaN) by (apply Hn; left; reflexivity).
    destruct (nltb x z) eqn:E.
    + constructor; [exact Hs|]. apply Forall_forall. intros y [<-|Hy].
      * apply nltb_nleb; exact E.
      * apply nltb_nleb. eapply nltb_nleb_trans; [exact E|apply Hf, Hy].
    + constructor; [apply IH; [intros y Hy; apply Hn; right; exact Hy|exact Hs']|].
      apply Forall_forall. intros y Hy. apply insert_num_in in Hy. destruct Hy as [->|Hy]; [|apply Hf, Hy].
      rewrite nleb_nltb; [rewrite E; reflexivity| |]; destruct x, z; simpl; congruence.
Qed.
Lemma sort_num_sorted l : nonan l -> StronglySorted (fun a b => nleb a b = true) (sort_num l).
Proof.
  induction l as [|x l IH]; intro Hn; simpl; [constructor|].
  apply insert_num_sorted.
  - apply Hn; left; reflexivity.
  - intros y Hy. apply (proj1 (sort_num_in _ _)) in Hy. apply Hn; right; exact Hy.
  - apply IH. intros y Hy. apply Hn; right; exact Hy.
Qed.
Lemma sorted_nodup_strict l : StronglySorted (fun a b => nleb a b = true) l -> has_dup l = false ->
  strictly_sorted l.
Proof.
  induction 1 as [|x l Hs IH Hf]; intro Hd; [constructor|].
  simpl in Hd. apply orb_false_iff in Hd. destruct Hd as [Hd1 Hd2]. constructor; [apply IH, Hd2|].
  rewrite Forall_forall in *. intros y Hy. specialize (Hf y Hy). apply nleb_iff in Hf.
  destruct Hf as [Hf|[<- Hf]]; [exact Hf|]. exfalso.
  assert (existsb (neqb x) l = true); [|congruence].
  apply existsb_exists. exists x. split; [exact Hy|apply neqb_refl, Hf].
Qed.
Lemma mk_split_ok e raw u o nf cl ax : mk_split e raw u o nf cl = Ok ax ->
  ax = ASplit e (sort_num raw) u o nf cl /\ raw <> [] /\ has_dup (sort_num raw) = false.
Proof.
  unfold mk_split. destruct raw as [|x raw]; [discriminate|]. intro H.
  destruct (has_dup (sort_num (x :: raw))) eqn:E; [discriminate|].
  destruct (Nat.eqb _ 0) in H; [discriminate|]. inversion H. repeat split; congruence.
Qed.
Lemma mk_split_edges e raw u o nf cl es : nonan raw -> mk_split e raw u o nf cl = Ok (ASplit e es u o nf cl) ->
  strictly_sorted es /\ es <> [] /\ nonan es.
Proof.
  intros Hn H. apply mk_split_ok in H. destruct H as (H1 & H2 & H3). inversion H1; subst. repeat split.
  - apply sorted_nodup_strict; [apply sort_num_sorted, Hn|exact H3].
  - intro E. apply H2. apply length_zero_iff_nil. rewrite <- sort_num_length, E. reflexivity.
  - intros y Hy. apply (proj1 (sort_num_in _ _)) in Hy. apply Hn, Hy.
Qed.

Section Split.
  Variable edges : list Num.
  Hypothesis Hs : strictly_sorted edges.
  Hypothesis Hne : edges <> [].
  Hypothesis Hnan : nonan edges.

  Definition below (cl : bool) (v e : Num) : bool := if cl then nleb e v else nltb e v.
  Definition cnt (cl : bool) (v : Num) (l : list Num) : nat := length (filter (below cl v) l).

  Lemma below_down cl v a b : nltb a b = true -> below cl v b = true -> below cl v a = true.
  Proof.
    intros H1 H2. unfold below in *. destruct cl.
    - apply nltb_nleb. eapply nltb_nleb_trans; eauto.
    - eapply nltb_trans; eauto.
  Qed.
  Lemma cnt_le cl v l : cnt cl v l <= length l.
  Proof. unfold cnt. induction l as [|x l IH]; simpl; [lia|]. destruct (below cl v x); simpl; lia. Qed.
  Lemma cnt_nth cl v l : strictly_sorted l -> forall i e, nth_error l i = Some e ->
    (below cl v e = true <-> i < cnt cl v l).
  Proof.
    induction 1 as [|x l Hl IH Hf]; intros i e Hi; [destruct i; discriminate|].
    rewrite Forall_forall in Hf. unfold cnt in *. simpl. destruct i as [|i]; simpl in Hi.
    - inversion Hi; subst. destruct (below cl v e) eqn:E; simpl.
      + split; [lia|reflexivity].
      + split; [discriminate|]. intro Hc. exfalso.
        destruct (filter (below cl v) l) as [|y f] eqn:Ef; simpl in Hc; [lia|].
        assert (Hy : In y (filter (below cl v) l)) by (rewrite Ef; left; reflexivity).
        apply filter_In in Hy. destruct Hy as [Hy1 Hy2].
        rewrite (below_down cl v e y (Hf y Hy1) Hy2) in E. discriminate.
    - destruct (below cl v x) eqn:E; simpl.
      + rewrite (IH i e Hi). lia.
      + assert (He : below cl v e = false).
        { destruct (below cl v e) eqn:Ee; [|reflexivity].
          apply nth_error_In in Hi. rewrite (below_down cl v x e (Hf e Hi) Ee) in E. discriminate. }
        rewrite He. split; [discriminate|]. intro Hc. exfalso.
        specialize (IH i e Hi). rewrite He in IH. assert (Hc' : i < length (filter (below cl v) l)) by lia.
        apply IH in Hc'. discriminate.
  Qed.

  Definition split_pos (cl : bool) (v : Num) : pos :=
    if isnan v then PNan
    else let c := cnt cl v edges in
         if Nat.eqb c 0 then PUnder else if Nat.eqb c (length edges) then POver else PBin (c - 1).

  Definition split_fins (cl : bool) := map (fun p : Num * Num => KIv (fst p) (snd p) cl (negb cl)) (pairs_of edges).
  Definition split_under (cl : bool) := KIv NInf (hd NaN edges) true (negb cl).
  Definition split_over (cl : bool) := KIv (last edges NaN) PInf cl true.

  Lemma pairs_of_nth {A} (l : list A) i a b : nth_error (pairs_of l) i = Some (a, b) <->
    nth_error l i = Some a /\ nth_error l (S i) = Some b.
  Proof.
    revert i. induction l as [|x l IH]; intro i.
    - destruct i; simpl; intuition discriminate.
    - destruct l as [|y t].
      + simpl. destruct i; simpl; intuition; try discriminate; destruct i; discriminate.
      + destruct i as [|i].
        * simpl. intuition; try congruence.
        * change (nth_error (pairs_of (x :: y :: t)) (S i)) with (nth_error (pairs_of (y :: t)) i).
          rewrite IH. reflexivity.
  Qed.
  Lemma pairs_of_length {A} (l : list A) : length (pairs_of l) = length l - 1.
  Proof.
    induction l as [|x l IH]; [reflexivity|]. destruct l as [|y t]; [reflexivity|].
    change (length (pairs_of (x :: y :: t))) with (S (length (pairs_of (y :: t)))). rewrite IH. simpl. lia.
  Qed.
  Lemma split_fins_length cl : length (split_fins cl) = length edges - 1.
  Proof. unfold split_fins. rewrite map_length. apply pairs_of_length. Qed.

  Lemma hd_nth : nth_error edges 0 = Some (hd NaN edges).
  Proof. destruct edges; [congruence|reflexivity]. Qed.
  Lemma last_nth : nth_error edges (length edges - 1) = Some (last edges NaN).
  Proof.
    assert (E : edges = removelast edges ++ [last edges NaN]) by (apply app_removelast_last, Hne).
    set (r := removelast edges) in *. set (x := last edges NaN) in *. rewrite E.
    rewrite app_length. simpl. rewrite nth_error_app2 by lia.
    replace (length r + 1 - 1 - length r) with 0 by lia. reflexivity.
  Qed.
  Lemma len_pos : 0 < length edges.
  Proof. destruct edges; simpl; [congruence|lia]. Qed.

  Lemma above_iff cl v e : v <> NaN -> e <> NaN ->
    (nltb v e = true \/ (negb cl = true /\ v = e /\ v <> NaN)) <-> below cl v e = false.
  Proof.
    intros Hv He. assert (Hv' : isnan v = false) by (destruct v; simpl; congruence).
    assert (He' : isnan e = false) by (destruct e; simpl; congruence).
    unfold below. destruct cl; simpl.
    - rewrite nleb_nltb by assumption. rewrite negb_false_iff. intuition discriminate.
    - pose proof (nleb_nltb v e Hv' He') as H. split.
      + intros [H1|(_&H1&_)]; [apply nltb_asym, H1|subst; apply nltb_irrefl].
      + intro H1. rewrite H1 in H. simpl in H. apply nleb_iff in H. destruct H as [H|[H _]]; auto.
  Qed.
  Lemma below_iff cl v e : v <> NaN -> 
    (nltb e v = true \/ (cl = true /\ v = e /\ v <> NaN)) <-> below cl v e = true.
  Proof.
    intro Hv. unfold below. destruct cl.
    - rewrite nleb_iff. split.
      + intros [H|(_&H&_)]; [auto|]. right. subst. split; [reflexivity|]. destruct e; simpl; congruence.
      + intros [H|[H _]]; auto.
    - intuition discriminate.
  Qed.
  Lemma low_inf v : v <> NaN -> nltb NInf v = true \/ (true = true /\ v = NInf /\ v <> NaN).
  Proof. destruct v; simpl; auto; congruence. Qed.
  Lemma high_inf v : v <> NaN -> nltb v PInf = true \/ (true = true /\ v = PInf /\ v <> NaN).
  Proof. destruct v; simpl; auto; congruence. Qed.

  Lemma split_pos_holds cl v p :
    pos_holds (split_under cl) (split_fins cl) (split_over cl) p v <-> p = split_pos cl v.
  Proof.
    pose proof len_pos as Hlen. pose proof (cnt_le cl v edges) as Hcnt.
    destruct (isnan v) eqn:Ev.
    - assert (v = NaN) by (destruct v; simpl in Ev; congruence). subst. unfold split_pos. simpl isnan. cbv iota.
      split; [|intros ->; reflexivity]. destruct p as [|j| |]; simpl; intro H; try reflexivity; exfalso.
      + eapply in_interval_nan; eauto.
      + destruct H as (k & Hk & Hc). unfold split_fins in Hk. rewrite nth_error_map in Hk.
        destruct (nth_error (pairs_of edges) j) as [[a b]|]; [|discriminate]. simpl in Hk. inversion Hk; subst.
        eapply in_interval_nan; eauto.
      + eapply in_interval_nan; eauto.
    - assert (Hv : v <> NaN) by (destruct v; simpl in Ev; congruence).
      assert (HU : contains (split_under cl) v <-> cnt cl v edges = 0).
      { pose proof (cnt_nth cl v edges Hs 0 _ hd_nth) as H0. simpl. unfold in_interval.
        rewrite above_iff; [|exact Hv|apply Hnan; eapply nth_error_In, hd_nth].
        destruct (below cl v (hd NaN edges)); split; intro H.
        - destruct H; discriminate.
        - destruct H0 as [H0 _]. specialize (H0 eq_refl). lia.
        - destruct H0 as [_ H0]. destruct (cnt cl v edges); [reflexivity|]. exfalso.
          enough (false = true) by discriminate. apply H0. lia.
        - split; [apply low_inf, Hv|reflexivity]. }
      assert (HO : contains (split_over cl) v <-> cnt cl v edges = length edges).
      { pose proof (cnt_nth cl v edges Hs _ _ last_nth) as H0. simpl. unfold in_interval.
        rewrite below_iff by exact Hv. rewrite H0. split; [lia|]. intro H. split; [lia|apply high_inf, Hv]. }
      assert (HB : forall j, pos_holds (split_under cl) (split_fins cl) (split_over cl) (PBin j) v <->
                             cnt cl v edges = S j /\ S j < length edges).
      { intro j. simpl. split.
        - intros (k & Hk & Hc). unfold split_fins in Hk. rewrite nth_error_map in Hk.
          destruct (nth_error (pairs_of edges) j) as [[a b]|] eqn:E; [|discriminate]. simpl in Hk. inversion Hk; subst.
          apply pairs_of_nth in E. destruct E as [Ea Eb]. simpl in Hc. unfold in_interval in Hc.
          rewrite below_iff in Hc by exact Hv.
          rewrite above_iff in Hc; [|exact Hv|apply Hnan; eapply nth_error_In, Eb].
          pose proof (cnt_nth cl v edges Hs _ _ Ea) as H1. pose proof (cnt_nth cl v edges Hs _ _ Eb) as H2.
          destruct Hc as [Hc1 Hc2]. apply H1 in Hc1. rewrite Hc2 in H2.
          assert (S j < length edges) by (apply nth_error_Some; congruence).
          split; [|assumption]. destruct (Nat.lt_ge_cases (S j) (cnt cl v edges)) as [Hx|Hx]; [|lia].
          apply H2 in Hx. discriminate.
        - intros [Hc Hj].
          destruct (nth_error edges j) as [a|] eqn:Ea; [|apply nth_error_None in Ea; lia].
          destruct (nth_error edges (S j)) as [b|] eqn:Eb; [|apply nth_error_None in Eb; lia].
          exists (KIv a b cl (negb cl)). split.
          + unfold split_fins. rewrite nth_error_map.
            assert (E : nth_error (pairs_of edges) j = Some (a, b)) by (apply pairs_of_nth; auto).
            rewrite E. reflexivity.
          + simpl. unfold in_interval. rewrite below_iff by exact Hv.
            rewrite above_iff; [|exact Hv|apply Hnan; eapply nth_error_In, Eb].
            pose proof (cnt_nth cl v edges Hs _ _ Ea) as H1. pose proof (cnt_nth cl v edges Hs _ _ Eb) as H2.
            split; [apply H1; lia|]. destruct (below cl v b); [|reflexivity].
            destruct H2 as [H2 _]. specialize (H2 eq_refl). lia. }
      unfold split_pos. rewrite Ev. cbv zeta.
      destruct (Nat.eqb_spec (cnt cl v edges) 0) as [E0|E0];
        [|destruct (Nat.eqb_spec (cnt cl v edges) (length edges)) as [E1|E1]].
      + split; [|intros ->; apply HU, E0]. destruct p as [|j| |]; intro H; try reflexivity; exfalso.
        * apply HB in H. lia.
        * apply HO in H. lia.
        * simpl in H. congruence.
      + split; [|intros ->; apply HO, E1]. destruct p as [|j| |]; intro H; try reflexivity; exfalso.
        * apply HU in H. lia.
        * apply HB in H. lia.
        * simpl in H. congruence.
      + split.
        * destruct p as [|j| |]; intro H.
          -- apply HU in H. lia.
          -- apply HB in H. f_equal. lia.
          -- apply HO in H. lia.
          -- simpl in H. congruence.
        * intros ->. apply HB. lia.
  Qed.

  (** digitize, corrected for closed-high bins, counts the edges below. *)
  Lemma filter_split_eq v l : v <> NaN -> nonan l -> strictly_sorted l ->
    length (filter (fun e => nleb e v) l) =
    length (filter (fun e => nltb e v) l) + b2n (existsb (neqb v) l).
  Proof.
    intros Hv. induction l as [|x l IH]; intros Hn Hl; [reflexivity|].
    inversion Hl as [|? ? Hl' Hf]; subst. rewrite Forall_forall in Hf.
    simpl. unfold nleb at 1. rewrite (neqb_sym v x).
    assert (IH' := IH (fun y Hy => Hn y (or_intror Hy)) Hl').
    destruct (neqb x v) eqn:E.
    - apply neqb_eq in E. subst. rewrite nltb_irrefl. simpl.
      assert (E0 : existsb (neqb v) l = false).
      { destruct (existsb (neqb v) l) eqn:E; [|reflexivity]. apply existsb_exists in E.
        destruct E as (y & Hy & Hy'). apply neqb_eq in Hy'. subst. specialize (Hf y Hy).
        rewrite nltb_irrefl in Hf. discriminate. }
      rewrite E0 in IH'. simpl in IH'. lia.
    - rewrite orb_false_r. destruct (nltb x v); simpl; lia.
  Qed.

  Lemma split_index_pos u o nf cl v :
    split_index u o nf cl edges v = slot_of u o nf (length edges - 1) (split_pos cl v).
  Proof.
    pose proof len_pos as Hlen. pose proof (cnt_le cl v edges) as Hcnt.
    unfold split_index, split_pos, digitize. destruct (isnan v) eqn:Ev.
    - assert (v = NaN) by (destruct v; simpl in Ev; congruence). subst.
      assert (E : existsb (neqb NaN) edges = false).
      { destruct (existsb (neqb NaN) edges) eqn:E; [|reflexivity]. apply existsb_exists in E.
        destruct E as (y & _ & Hy). discriminate. }
      cbv zeta. simpl slot_of. destruct nf; [|destruct u; reflexivity].
      destruct u; simpl b2z; [f_equal; lia|].
      destruct o; simpl b2z; zcmp; try lia; f_equal; lia.
    - assert (Hv : v <> NaN) by (destruct v; simpl in Ev; congruence). cbv zeta.
      match goal with |- context [if negb cl && existsb (neqb v) edges then ?a else ?b] =>
        set (i1 := if negb cl && existsb (neqb v) edges then a else b) end.
      assert (Hi : i1 = Z.of_nat (cnt cl v edges)).
      { subst i1. unfold cnt, below. destruct cl; simpl.
        - reflexivity.
        - rewrite (filter_split_eq v edges Hv Hnan Hs). destruct (existsb (neqb v) edges); simpl b2n; lia. }
      rewrite Hi. clearbody i1. clear Hi i1.
      destruct (Nat.eqb_spec (cnt cl v edges) 0) as [E0|E0];
        [|destruct (Nat.eqb_spec (cnt cl v edges) (length edges)) as [E1|E1]];
        destruct u, o; simpl negb; cbn [andb slot_of b2z]; zcmp; try lia; try reflexivity;
        try (f_equal; lia).
  Qed.

  Lemma keys_split_fkeys u o nf cl :
    keys_split edges u o nf cl = fkeys u o nf (split_under cl) (split_fins cl) (split_over cl).
  Proof. reflexivity. Qed.

  Lemma split_slot_matches u o nf cl v :
    slot_matches_key (keys_split edges u o nf cl) (split_index u o nf cl edges v) v.
  Proof.
    rewrite keys_split_fkeys, split_index_pos.
    pose proof (slot_of_matches u o nf (split_under cl) (split_fins cl) (split_over cl) (split_pos cl v) v) as H.
    rewrite split_fins_length in H. apply H; [apply split_pos_holds; reflexivity|].
    intros p' Hp'. apply split_pos_holds. exact Hp'.
  Qed.
  Lemma cnt_mono cl v w l : nleb w v = true -> cnt cl w l <= cnt cl v l.
  Proof.
    intro H. unfold cnt. induction l as [|x l IH]; simpl; [lia|].
    destruct (below cl w x) eqn:E; destruct (below cl v x) eqn:E'; simpl; try lia.
    exfalso. unfold below in *. destruct cl.
    - rewrite (nleb_trans _ _ _ E H) in E'. discriminate.
    - rewrite (nltb_nleb_trans _ _ _ E H) in E'. discriminate.
  Qed.
  Lemma split_pos_mono cl v w : nleb w v = true ->
    prank (length edges - 1) (split_pos cl w) <= prank (length edges - 1) (split_pos cl v).
  Proof.
    intro H. destruct (nleb_notnan _ _ H) as [Hw Hv]. unfold split_pos. rewrite Hw, Hv. cbv zeta.
    pose proof (cnt_mono cl v w edges H). pose proof (cnt_le cl v edges). pose proof (cnt_le cl w edges).
    repeat match goal with |- context [Nat.eqb ?a ?b] => destruct (Nat.eqb_spec a b) end; simpl; lia.
  Qed.
  Lemma split_keys_increasing u o nf cl : increasing_keys (keys_split edges u o nf cl).
  Proof.
    rewrite keys_split_fkeys. apply (fkeys_increasing _ _ _ _ _ _ (split_pos cl)).
    - intros v p. apply split_pos_holds.
    - intros v w. rewrite split_fins_length. apply split_pos_mono.
  Qed.
  Lemma split_keys_disjoint u o nf cl : disjoint_keys (keys_split edges u o nf cl).
  Proof.
    rewrite keys_split_fkeys. apply fkeys_disjoint.
    intros v p p' Hp Hp'. apply split_pos_holds in Hp, Hp'. congruence.
  Qed.
End Split.
