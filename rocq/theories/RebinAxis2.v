(** Rebinning a bin or intbin axis is rebinning the split axis with its edges. *)
From Coq Require Import String Sorted.
From Verif Require Import Base Num NumFacts Axis AxisSpec AxisProofs AxisProofs2 AxisMain Calc Content Fill FillSpec Expr HistAlg AlgSpec Nd Proj HistFillProofs FillProofs FillProofs2 FillProofs3 Select SelSpec SelAxis SelAxis2 Rebin RebinSpec RebinAxis.
Local Open Scope list_scope.

(** ** With both flow bins no old bin is left out *)
Lemma range_chain l : forall a, StronglySorted lt (a :: l) -> flat_map range_list (pairs_of (a :: l)) = seq a (last (a :: l) 0 - a) /\ a <= last (a :: l) 0.
Proof.
  induction l as [|b l IH]; intros a H; [cbn; rewrite Nat.sub_diag; auto|]. inversion H as [|? ? H1 H2]; subst. destruct (IH b H1) as (E & Hb).
  rewrite pairs_of_cons. cbn [flat_map]. rewrite E. change (last (a :: b :: l) 0) with (last (b :: l) 0). inversion H2; subst. split; [|lia].
  unfold range_list; cbn [fst snd]. replace (last (b :: l) 0 - a) with ((b - a) + (last (b :: l) 0 - b)) by lia. rewrite seq_app. do 2 f_equal. lia.
Qed.
Lemma positions_sorted es news js : strictly_sorted es -> strictly_sorted news -> positions es news js -> StronglySorted lt js.
Proof.
  intros Hs Hs' Hp. induction Hp as [|e news j js Ej Hp IH]; [constructor|]. inversion Hs' as [|? ? H1 H2]; subst. constructor; auto.
  rewrite Forall_forall in *. intros i Hi. apply In_nth_error in Hi. destruct Hi as (k & Hk). destruct (positions_nth _ _ _ Hp k i Hk) as (y & Ey & Ey').
  apply (lt_position es j i e y); auto. apply H2. eapply nth_error_In; eauto.
Qed.
Lemma flat_map_nth {A B} (f : A -> list B) d l : flat_map (fun i => f (nth i l d)) (seq 0 (length l)) = flat_map f l.
Proof.
  rewrite !flat_map_concat_map. f_equal. rewrite <- (map_map (fun i => nth i l d) f). f_equal.
  induction l as [|x l IH]; auto. cbn [length seq map nth]. rewrite <- seq_shift, map_map. cbn [nth]. rewrite IH. reflexivity.
Qed.
Lemma sorted_map_S js : StronglySorted lt js -> StronglySorted lt (map S js).
Proof. induction 1 as [|x l H IH F]; cbn; constructor; auto. apply Forall_map. eapply Forall_impl; [|exact F]. cbn. intros; lia. Qed.
Lemma last_map_S js : js <> [] -> last (map S js) 0 = S (last js 0).
Proof. induction js as [|x [|y l] IH]; intros H; [congruence|reflexivity|]. change (last (map S (y :: l)) 0 = S (last (y :: l) 0)). apply IH. congruence. Qed.
Lemma split_all_parts es news js nf : strictly_sorted es -> strictly_sorted news -> news <> [] -> positions es news js ->
  let rs := ranges (length es - 1) true true nf js in
  flat_map (part rs) (seq 0 (length rs)) = seq 0 (length es - 1 + 2 + b2n nf).
Proof.
  intros Hs Hs' Hne Hp rs. unfold part. rewrite (flat_map_nth range_list). unfold rs, ranges. change (b2n true) with 1. change (Nat.add 1) with S. rewrite !flat_map_app.
  assert (js <> []) as Hj by (intros ->; apply Hne; inversion Hp; auto). pose proof (positions_sorted _ _ _ Hs Hs' Hp) as Hl.
  destruct js as [|j0 js]; [congruence|]. apply sorted_map_S in Hl. cbn [map] in *.
  destruct (range_chain _ _ Hl) as (-> & H). change (S j0 :: map S js) with (map S (j0 :: js)) in *. rewrite last_map_S in * by auto.
  assert (last (j0 :: js) 0 <= length es - 1) as Hm.
  { assert (In (last (j0 :: js) 0) (j0 :: js)) as Hi by (apply (in_last_of j0 js) || (clear; revert j0; induction js as [|y l IH]; intros j0; [left; auto|right; exact (IH y)])).
    apply In_nth_error in Hi. destruct Hi as (k & Hk). destruct (positions_nth _ _ _ Hp k _ Hk) as (e & _ & Ee). assert (last (j0 :: js) 0 < length es) by (apply nth_error_Some; congruence). lia. }
  set (la := last (j0 :: js) 0) in *. cbn [flat_map hd fst snd app]. unfold range_list; cbn [fst snd]. rewrite !app_nil_r.
  replace (length es - 1 + 2 + b2n nf) with (S j0 + ((S la - S j0) + ((length es - 1 + 1 + 1 - S la) + b2n nf))) by lia.
  rewrite (seq_app (S j0)), (seq_app (S la - S j0)), (seq_app (length es - 1 + 1 + 1 - S la)). rewrite Nat.sub_0_r. f_equal. cbn [plus].
  replace (S (j0 + (S la - S j0))) with (S la) by lia. f_equal. f_equal. replace (S (la + (length es - 1 + 1 + 1 - S la))) with (length es - 1 + 1 + 1) by lia.
  destruct nf; cbn [b2n flat_map]; auto. rewrite app_nil_r. cbn [fst snd]. f_equal; lia.
Qed.
Lemma ranges_length m u o nf js : js <> [] -> length (ranges m u o nf js) = length js - 1 + b2n u + b2n o + b2n nf.
Proof. intros H. unfold ranges. rewrite !app_length, pairs_of_length, map_length. destruct u, o, nf; cbn; lia. Qed.

(** ** The edges of a split axis *)
Lemma sort_sorted l : strictly_sorted l -> sort_num l = l.
Proof.
  induction 1 as [|x l H IH F]; auto. cbn [sort_num fold_right]. fold (sort_num l). rewrite IH. destruct l as [|y l]; auto. cbn [insert_num].
  inversion F as [|? ? Hxy ?]; subst. rewrite Hxy. reflexivity.
Qed.
Lemma sorted_no_dup l : strictly_sorted l -> has_dup l = false.
Proof.
  induction 1 as [|x l H IH F]; auto. cbn [has_dup]. rewrite IH, orb_false_r. rewrite Forall_forall in F.
  destruct (existsb (neqb x) l) eqn:E; auto. apply existsb_exists in E. destruct E as (y & Hy & E). apply F in Hy. apply neqb_eq in E. subst. rewrite nltb_irrefl in Hy. discriminate.
Qed.
Lemma sorted_nodup l : strictly_sorted l -> NoDup l.
Proof.
  induction 1 as [|x l H IH F]; constructor; auto. rewrite Forall_forall in F. intros Hx. apply F in Hx. rewrite nltb_irrefl in Hx. discriminate.
Qed.
Lemma nodup_no_dup l : NoDup l -> has_dup l = false.
Proof.
  induction 1 as [|x l H Hl IH]; auto. cbn [has_dup]. rewrite IH, orb_false_r. destruct (existsb (neqb x) l) eqn:E; auto.
  apply existsb_exists in E. destruct E as (y & Hy & E). apply neqb_eq in E. congruence.
Qed.
Lemma mk_split_sorted e l u o nf cl : strictly_sorted l -> l <> [] -> length l - 1 + b2n u + b2n o + b2n nf <> 0 -> mk_split e l u o nf cl = Ok (ASplit e l u o nf cl).
Proof.
  intros Hs Hne Ht. unfold mk_split. rewrite sort_sorted, sorted_no_dup by auto. destruct l; [congruence|].
  destruct (Nat.eqb_spec (length (n :: l) - 1 + b2n u + b2n o + b2n nf) 0); [congruence|reflexivity].
Qed.

(** The axis [es u o nf cl] with the same bins as [a]. *)
Definition split_like (a : axis) (es : list Num) (u o nf cl : bool) : Prop :=
  strictly_sorted es /\ nonan es /\ es <> [] /\ to_split a = Ok (ASplit (axis_expr a) es u o nf cl) /\ (forall e, In e es <-> rebin_edge a e) /\
  (match a with
   | ABin _ _ _ _ u0 o0 nf0 cl0 | ASplit _ _ u0 o0 nf0 cl0 => u = u0 /\ o = o0 /\ nf = nf0 /\ cl = cl0
   | AIntbin _ _ _ u0 o0 => u = u0 /\ o = o0 /\ nf = false
   | _ => False
   end) /\
  Forall2 (fun k k' => forall x, possible a x -> (contains k x <-> contains k' x)) (keys a) (keys_split es u o nf cl).
Lemma Forall2_same {A} (R : A -> A -> Prop) l : (forall x, R x x) -> Forall2 R l l.
Proof. intros H. induction l; constructor; auto. Qed.
Lemma bin_split_like e n l h u o nf cl : numeric_axis (ABin e n l h u o nf cl) -> exists es, split_like (ABin e n l h u o nf cl) es u o nf cl.
Proof.
  intros H. destruct (numeric_bin _ _ _ _ _ _ _ _ H) as (l' & h' & -> & -> & Hn & Hlt). exists (bin_edges n l' h').
  pose proof (bin_edges_sorted n l' h' Hn Hlt) as Hs. assert (Hne : bin_edges n l' h' <> []) by (unfold bin_edges; cbn; congruence).
  split; [exact Hs|split; [apply bin_edges_nonan; auto|split; [exact Hne|split; [|split; [|split; [auto|]]]]]].
  - cbn [to_split bin_to_split axis_expr]. unfold bin_to_split.
    assert (map (i2x n (Fin l') (Fin h')) (seq 0 n) ++ [Fin h'] = bin_edges n l' h') as ->.
    { unfold bin_edges. rewrite seq_S, map_app. f_equal. cbn [map plus]. rewrite i2x_edge by auto. rewrite edge_n by auto. reflexivity. }
    apply mk_split_sorted; auto. rewrite bin_edges_length. lia.
  - intros x. unfold bin_edges. rewrite in_map_iff. cbn [rebin_edge]. split.
    + intros (j & <- & Hj). apply in_seq in Hj. exists j. split; [lia|reflexivity].
    + intros (j & Hj & ->). exists j. split; [reflexivity|]. apply in_seq. lia.
  - cbn [keys]. rewrite (keys_bin_as_split n l' h' Hn). apply Forall2_same. intros; reflexivity.
Qed.
Lemma split_split_like e es u o nf cl : numeric_axis (ASplit e es u o nf cl) -> split_like (ASplit e es u o nf cl) es u o nf cl.
Proof.
  intros H. destruct (numeric_split _ _ _ _ _ _ H) as (H1 & H2 & H3). split; [exact H1|split; [exact H3|split; [exact H2|split; [reflexivity|split; [|split; [auto|]]]]]].
  - intros x. cbn. reflexivity.
  - apply Forall2_same. intros; reflexivity.
Qed.
Lemma nsub_fin a b : nsub (Fin a) (Fin b) = Fin (a - b)%Qc. Proof. reflexivity. Qed.
Lemma half_edge mn mx i : (mn <= mx)%Z ->
  i2x (Z.to_nat (mx - mn + 1)) (nsub (nz mn) half) (nadd (nz mx) half) i = nsub (nz (mn + Z.of_nat i)) half.
Proof.
  intros H. unfold half, nz. rewrite !nsub_fin. cbn [nadd]. rewrite i2x_edge by lia. f_equal. apply Qc_ext. unfold edge.
  assert (Hz : Z.of_nat (Z.to_nat (mx - mn + 1)) = (mx - mn + 1)%Z) by lia. rewrite Hz.
  assert (0 < inject_Z (mx - mn + 1))%Q as Hp by (change 0%Q with (inject_Z 0); rewrite <- Zlt_Qlt; lia).
  assert (E : (inject_Z (mx - mn + 1) == inject_Z mx - inject_Z mn + 1)%Q) by (unfold Z.sub; rewrite !inject_Z_plus, inject_Z_opp; reflexivity).
  qc_push. rewrite E in *. rewrite inject_Z_plus. field. intros ?; lra.
Qed.
Lemma half_next mx : nadd (nz mx) half = nsub (nz (mx + 1)) half.
Proof. unfold half, nz. rewrite !nsub_fin. cbn [nadd]. f_equal. apply Qc_ext. qc_push. rewrite inject_Z_plus. ring. Qed.
Lemma half_lt a z : nltb (nsub (nz a) half) (nz z) = (a <=? z)%Z.
Proof.
  unfold half, nz. rewrite !nsub_fin. cbn [nltb]. apply Bool.eq_iff_eq_true. rewrite qltb_iff, Z.leb_le. qc_push. split; intros H.
  - assert (inject_Z a < inject_Z (z + 1))%Q by (rewrite inject_Z_plus; change (inject_Z 1) with 1%Q; lra). rewrite <- Zlt_Qlt in *. lia.
  - rewrite Zle_Qle in H. lra.
Qed.
Lemma lt_half a z : nltb (nz z) (nsub (nz a) half) = (z <? a)%Z.
Proof.
  unfold half, nz. rewrite !nsub_fin. cbn [nltb]. apply Bool.eq_iff_eq_true. rewrite qltb_iff, Z.ltb_lt. qc_push. split; intros H.
  - rewrite Zlt_Qlt. lra.
  - assert (z + 1 <= a)%Z as H' by lia. rewrite Zle_Qle, inject_Z_plus in H'. change (inject_Z 1) with 1%Q in H'. lra.
Qed.
Lemma half_not_int a z : nz z <> nsub (nz a) half.
Proof. intros E. pose proof (half_lt a z) as H1. pose proof (lt_half a z) as H2. rewrite <- E, nltb_irrefl in *. symmetry in H1, H2. apply Z.leb_gt in H1. apply Z.ltb_ge in H2. lia. Qed.
Lemma nz_not_nan z : nz z <> NaN. Proof. discriminate. Qed.
Lemma intbin_split_like e mn mx u o : numeric_axis (AIntbin e mn mx u o) -> exists es, split_like (AIntbin e mn mx u o) es u o false true.
Proof.
  intros H. apply numeric_intbin in H. set (n := Z.to_nat (mx - mn + 1)). assert (Hn : 0 < n) by (unfold n; lia).
  pose (l := (qz mn - qfrac 1 2)%Qc). pose (h := (qz mx + qfrac 1 2)%Qc).
  assert (El : nsub (nz mn) half = Fin l) by reflexivity. assert (Eh : nadd (nz mx) half = Fin h) by reflexivity.
  assert (Hlt : (this l < this h)%Q) by (unfold l, h; qc_push; rewrite Zle_Qle in H; lra).
  assert (Hb : mk_bin e n (Fin l) (Fin h) u o false true = Ok (ABin e n (Fin l) (Fin h) u o false true)).
  { unfold mk_bin. assert (nleb (Fin h) (Fin l) = false) as -> by (rewrite <- Bool.not_true_iff_false, nleb_fin; lra).
    assert (nltb (Fin h) (Fin l) = false) as -> by (change (qltb h l = false); rewrite <- Bool.not_true_iff_false, qltb_iff; lra). rewrite andb_false_r. cbn [orb].
    destruct (Nat.eqb_spec (n + b2n u + b2n o + b2n false) 0); [lia|reflexivity]. }
  destruct (bin_split_like e n (Fin l) (Fin h) u o false true) as (es & S1 & S2 & S3 & S4 & S5 & _ & S7); [split; [auto|split; [exact Hb|auto]]|].
  assert (HE : forall i, i2x n (Fin l) (Fin h) i = nsub (nz (mn + Z.of_nat i)) half) by (intros i; rewrite <- El, <- Eh; apply half_edge; auto).
  exists es. split; [exact S1|split; [exact S2|split; [exact S3|split; [|split; [|split; [auto|]]]]]].
  - cbn [to_split axis_expr]. fold n. rewrite El, Eh, Hb. exact S4.
  - intros x. rewrite S5. cbn [rebin_edge]. split.
    + intros (j & Hj & ->). exists (mn + Z.of_nat j)%Z. rewrite HE. split; [unfold n in Hj; lia|reflexivity].
    + intros (z & Hz & ->). exists (Z.to_nat (z - mn)). rewrite HE. split; [unfold n; lia|]. do 2 f_equal. lia.
  - assert (G : forall ks, Forall2 (fun k k' => forall x, contains k x <-> contains k' x) ks (keys_split es u o false true) ->
        Forall2 (fun k k' => forall x, possible (AIntbin e mn mx u o) x -> (contains k x <-> contains k' x)) (keys (AIntbin e mn mx u o)) ks ->
        Forall2 (fun k k' => forall x, possible (AIntbin e mn mx u o) x -> (contains k x <-> contains k' x)) (keys (AIntbin e mn mx u o)) (keys_split es u o false true)).
    { intros ks F1 F2. revert F1. generalize (keys_split es u o false true) as ks2. induction F2 as [|a b la lb Hab F2 IH]; intros ks2 F1; inversion F1 as [|? c ? lc Hbc F1']; subst; constructor; auto.
      intros x Hx. rewrite (Hab x Hx). apply Hbc. }
    apply (G (keys (ABin e n (Fin l) (Fin h) u o false true))); clear G.
    + revert S7. clear. induction 1 as [|a b la lb Hab F IH]; constructor; auto. intros x. apply Hab. exact I.
    + cbn [keys keys_intbin keys_bin]. unfold keys_intbin, keys_bin. fold n. rewrite app_nil_r.
      apply Forall2_app; [|apply Forall2_app].
      * destruct u; constructor; [|constructor]. intros x (z & ->). cbn [contains in_interval negb]. unfold in_interval. rewrite <- El.
        rewrite lt_half, nz_lt. intuition congruence.
      * assert (Z0 : forall (P : key -> key -> Prop) (f g : nat -> key) m, (forall i, P (f i) (g i)) -> Forall2 P (map f m) (map g m)).
        { intros P f g m HP. induction m; cbn; constructor; auto. }
        apply Z0. intros i x (z & ->). rewrite !HE. cbn [contains negb]. unfold in_interval. rewrite half_lt, lt_half.
        rewrite Z.leb_le, Z.ltb_lt. change (Fin (qz (mn + Z.of_nat i))) with (nz (mn + Z.of_nat i)). split.
        -- intros E. apply nz_inj in E. lia.
        -- intros ([E|(_ & E & _)] & [E'|(E' & _)]); try congruence; [|exfalso; revert E; apply half_not_int]. f_equal. lia.
      * destruct o; constructor; [|constructor]. intros x (z & ->). cbn [contains negb]. unfold in_interval. rewrite <- Eh, half_next.
        rewrite half_lt, nz_lt. assert (nltb (nz z) PInf = true) as -> by reflexivity. rewrite Z.leb_le, Z.ltb_lt.
        pose proof (half_not_int (mx + 1) z). intuition (try congruence; try lia).
Qed.

Lemma numeric_split_like a : numeric_axis a -> exists es u o nf cl, split_like a es u o nf cl.
Proof.
  intros H. destruct a; try contradiction.
  - destruct (bin_split_like _ _ _ _ _ _ _ _ H) as (es & E). eauto 10.
  - destruct (intbin_split_like _ _ _ _ _ H) as (es & E). eauto 10.
  - exists edges, underflow, overflow, nanflow, closedlow. apply split_split_like; auto.
Qed.

(** ** The new bins *)
Lemma Forall2_nth_l {A B} (R : A -> B -> Prop) l m i x : Forall2 R l m -> nth_error l i = Some x -> exists y, nth_error m i = Some y /\ R x y.
Proof. intros H. revert i. induction H; intros [|i] E; cbn in *; try discriminate; [inversion E; subst; eauto|auto]. Qed.
Lemma Forall2_nth_r {A B} (R : A -> B -> Prop) l m i y : Forall2 R l m -> nth_error m i = Some y -> exists x, nth_error l i = Some x /\ R x y.
Proof. intros H. revert i. induction H; intros [|i] E; cbn in *; try discriminate; [inversion E; subst; eauto|auto]. Qed.
Lemma unions_like a es u o nf cl ks' parts : split_like a es u o nf cl -> unions_of (fun _ => True) (keys_split es u o nf cl) ks' parts -> unions_of (possible a) (keys a) ks' parts.
Proof.
  intros (_ & _ & _ & _ & _ & _ & F) H i k' Hk. destruct (H i k' Hk) as (H1 & H2 & H3). pose proof (Forall2_length _ _ _ F) as El.
  split; [auto|split; [intros j Hj; rewrite El; auto|]]. intros x Hx. rewrite (H3 x I). split; intros (j & k & Hj & Ek & C).
  - destruct (Forall2_nth_r _ _ _ _ _ F Ek) as (k0 & Ek0 & Hk0). exists j, k0. split; [auto|split; [auto|]]. apply Hk0; auto.
  - destruct (Forall2_nth_l _ _ _ _ _ F Ek) as (k0 & Ek0 & Hk0). exists j, k0. split; [auto|split; [auto|]]. apply Hk0; auto.
Qed.
