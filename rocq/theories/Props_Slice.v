(** Properties of hist[...] with slices, lists of numbers and masks: C81. *)
From Coq Require Import String Sorted Lia.
From Verif Require Import Num NumFacts Base Axis Calc CompareProofs Content Fill FillSpec FillProofs FillProofs2 FillProofs3 FillMain HistFillProofs Order Expr ExprFacts
  Access AccessSpec AccessProofs SliceSpec Props_Access.
Local Open Scope list_scope.

(** * The elements that are picked *)
Lemma len_up a b step i : (0 < step)%Z ->
  i < Z.to_nat (if a <? b then (b - a - 1) / step + 1 else 0)%Z <-> (a + Z.of_nat i * step < b)%Z.
Proof.
  intros Hs. destruct (Z.ltb_spec a b) as [H|H]; [|split; [cbn; lia|intros; nia]].
  pose proof (Z.div_pos (b - a - 1) step ltac:(lia) Hs) as H0. split; intros Hi.
  - assert (Z.of_nat i <= (b - a - 1) / step)%Z by lia. pose proof (Z.mul_div_le (b - a - 1) step Hs). nia.
  - assert (Z.of_nat i <= (b - a - 1) / step)%Z by (apply Z.div_le_lower_bound; nia). lia.
Qed.
Lemma len_down a b step i : (step < 0)%Z ->
  i < Z.to_nat (if b <? a then (a - b - 1) / (- step) + 1 else 0)%Z <-> (b < a + Z.of_nat i * step)%Z.
Proof.
  intros Hs. pose proof (len_up b a (- step) i ltac:(lia)) as H. rewrite H. split; nia.
Qed.
Lemma sorted_map_seq (f : nat -> nat) (R : nat -> nat -> Prop) len : (forall i j, i < j -> j < len -> R (f i) (f j)) -> StronglySorted R (map f (seq 0 len)).
Proof.
  intros H. assert (G : forall s n, s + n <= len -> StronglySorted R (map f (seq s n))).
  { intros s n. revert s. induction n as [|n IH]; intros s Hn; cbn [seq map]; constructor; [apply IH; lia|].
    apply Forall_forall. intros y Hy. apply in_map_iff in Hy. destruct Hy as (j & <- & Hj). apply in_seq in Hj. apply H; lia. }
  apply G. lia.
Qed.
Lemma slice_ok n start stop step : step <> 0%Z -> exists js, slice_indices n start stop step = Ok js /\ selects n (AtSlice start stop step) js.
Proof.
  intros H0. unfold slice_indices. destruct (Z.eqb_spec step 0) as [E|_]; [contradiction|]. eexists. split; [reflexivity|].
  set (N := Z.of_nat n). assert (HN : (0 <= N)%Z) by lia. unfold selects, in_slice, begins. fold N. destruct (Z.ltb_spec step 0) as [Hs|Hs].
  - set (a := slice_bound N (-1) (N - 1) (N - 1) start). set (b := slice_bound N (-1) (N - 1) (-1) stop).
    assert (Ha : (-1 <= a <= N - 1)%Z) by (unfold a, slice_bound; destruct start as [z|]; [destruct (Z.ltb_spec z 0)|]; lia).
    assert (Hb : (-1 <= b <= N - 1)%Z) by (unfold b, slice_bound; destruct stop as [z|]; [destruct (Z.ltb_spec z 0)|]; lia).
    split.
    + intros j. rewrite in_map_iff.
      assert (HA : forall i, (0 <= a + Z.of_nat i * step)%Z -> a = (match start with None => N - 1 | Some z => Z.min (N - 1) (place_of n z) end)%Z).
      { intros i Hi. assert (0 <= a)%Z by nia. unfold a, slice_bound, place_of in *. fold N. destruct start as [z|]; auto. destruct (Z.ltb_spec z 0); lia. }
      assert (HB : (Z.of_nat j < N)%Z -> (b < Z.of_nat j)%Z -> match stop with None => True | Some z => (place_of n z < Z.of_nat j)%Z end).
      { intros Hn Hj. unfold b, slice_bound, place_of in *. fold N. destruct stop as [z|]; auto. destruct (Z.ltb_spec z 0); lia. }
      assert (HB' : (Z.of_nat j < N)%Z -> match stop with None => True | Some z => (place_of n z < Z.of_nat j)%Z end -> (b < Z.of_nat j)%Z).
      { intros Hn Hj. unfold b, slice_bound, place_of in *. fold N in Hj |- *. destruct stop as [z|]; [destruct (Z.ltb_spec z 0); lia|lia]. }
      split.
      * intros (i & <- & Hi). apply in_seq in Hi. destruct Hi as (_ & Hi). cbn [plus] in Hi. apply len_down in Hi; auto.
        assert (Hj : (0 <= a + Z.of_nat i * step)%Z) by lia. rewrite Z2Nat.id in * by auto. assert (HjN : (a + Z.of_nat i * step < N)%Z) by nia. split; [apply Nat2Z.inj_lt; rewrite Z2Nat.id by auto; auto|].
        split; [exists i; rewrite <- (HA i Hj); reflexivity|apply HB; auto].
      * intros (Hn & (i & Hi) & Hst). 
        assert (Ea : a = (match start with None => N - 1 | Some z => Z.min (N - 1) (place_of n z) end)%Z).
        { unfold a, slice_bound, place_of in *. fold N in Hi |- *. destruct start as [z|]; auto. destruct (Z.ltb_spec z 0); nia. }
        rewrite <- Ea in Hi. exists i. rewrite <- Hi, Nat2Z.id. split; auto. apply in_seq. split; [lia|]. cbn [plus]. apply len_down; auto. rewrite <- Hi. apply HB'; auto. lia.
    + apply sorted_map_seq. intros i j Hij Hj. apply len_down in Hj; auto. apply Z2Nat.inj_lt; nia.
  - assert (Hs' : (0 < step)%Z) by lia. set (a := slice_bound N 0 N 0 start). set (b := slice_bound N 0 N N stop).
    assert (Ha : (0 <= a <= N)%Z) by (unfold a, slice_bound; destruct start as [z|]; [destruct (Z.ltb_spec z 0)|]; lia).
    assert (Hb : (0 <= b <= N)%Z) by (unfold b, slice_bound; destruct stop as [z|]; [destruct (Z.ltb_spec z 0)|]; lia).
    split.
    + intros j. rewrite in_map_iff. split.
      * intros (i & <- & Hi). apply in_seq in Hi. destruct Hi as (_ & Hi). cbn [plus] in Hi. apply len_up in Hi; auto.
        assert (Hj : (0 <= a + Z.of_nat i * step)%Z) by nia. rewrite Z2Nat.id in * by auto. split; [apply Nat2Z.inj_lt; rewrite Z2Nat.id by auto; lia|].
        assert (Han : (a < N)%Z) by nia. split.
        -- exists i. f_equal. unfold a, slice_bound, place_of in *. fold N. destruct start as [z|]; auto. destruct (Z.ltb_spec z 0); lia.
        -- unfold b, slice_bound, place_of in *. fold N. destruct stop as [z|]; auto. destruct (Z.ltb_spec z 0); lia.
      * intros (Hn & (i & Hi) & Hst).
        assert (Ea : a = (match start with None => 0 | Some z => Z.max 0 (place_of n z) end)%Z).
        { unfold a, slice_bound, place_of in *. fold N in Hi |- *. destruct start as [z|]; auto. destruct (Z.ltb_spec z 0); nia. }
        rewrite <- Ea in Hi. exists i. rewrite <- Hi, Nat2Z.id. split; auto. apply in_seq. split; [lia|]. cbn [plus]. apply len_up; auto. rewrite <- Hi.
        unfold b, slice_bound, place_of in *. fold N in Hst. destruct stop as [z|]; [destruct (Z.ltb_spec z 0); lia|lia].
    + apply sorted_map_seq. intros i j Hij Hj. apply len_up in Hj; auto. apply Z2Nat.inj_lt; nia.
Qed.
Lemma list_ok n zs : Forall (fun z => - Z.of_nat n <= z < Z.of_nat n)%Z zs -> exists js, norm_indexes n zs = Some js /\ Forall2 (means_index n) zs js.
Proof.
  induction 1 as [|z zs Hz H (js & E & F)]; [exists []; split; [reflexivity|constructor]|].
  assert (X : exists i, means_index n z i).
  { destruct (Z.le_gt_cases 0 z); [exists (Z.to_nat z)|exists (Z.to_nat (z + Z.of_nat n))]; split; lia. }
  destruct X as (i & Hi). exists (i :: js). cbn [norm_indexes]. rewrite (proj2 (means_index_iff n z i) Hi), E. split; auto.
Qed.
Lemma list_refused n zs : ~ Forall (fun z => - Z.of_nat n <= z < Z.of_nat n)%Z zs -> norm_indexes n zs = None.
Proof.
  intros H. destruct (norm_indexes n zs) as [js|] eqn:E; auto. exfalso. apply H. clear H. revert js E. induction zs as [|z zs IH]; intros js E; constructor; cbn [norm_indexes] in E; destruct (norm_index n z) as [i|] eqn:Ei; try discriminate.
  - apply means_index_iff in Ei. destruct Ei as (Hi & [->| ->]); lia.
  - destruct (norm_indexes n zs); [|discriminate]. eapply IH; reflexivity.
Qed.
Lemma mask_ok bs : selects (List.length bs) (AtMask bs) (mask_indices bs).
Proof.
  unfold mask_indices. cbn [selects]. 
  assert (G : forall s, (forall j, In j (map fst (filter snd (combine (seq s (List.length bs)) bs))) <-> s <= j /\ nth_error bs (j - s) = Some true) /\
    StronglySorted lt (map fst (filter snd (combine (seq s (List.length bs)) bs)))).
  { induction bs as [|b bs IH]; intros s; cbn [List.length seq combine filter map].
    - split; [|constructor]. intros j. split; [intros []|]. intros (_ & H). destruct (j - s); discriminate.
    - destruct (IH (S s)) as (I & S). assert (I' : forall j, In j (map fst (filter snd (combine (seq (Datatypes.S s) (List.length bs)) bs))) <-> s < j /\ nth_error (b :: bs) (j - s) = Some true).
      { intros j. rewrite I. split; intros (H1 & H2); (split; [lia|]); replace (j - s) with (Datatypes.S (j - Datatypes.S s)) in * by lia; auto. }
      cbn [snd]. destruct b; cbn [map fst].
      + split; [|constructor; auto; apply Forall_forall; intros j Hj; apply I' in Hj; lia]. intros j. cbn [In]. rewrite I'. split.
        * intros [<-|(H1 & H2)]; [split; [lia|rewrite Nat.sub_diag; reflexivity]|split; [lia|auto]].
        * intros (H1 & H2). destruct (Nat.eq_dec s j); [left; auto|right; split; [lia|auto]].
      + split; auto. intros j. rewrite I'. split; intros (H1 & H2); (split; [|auto]); [lia|]. destruct (Nat.eq_dec s j) as [<-|]; [rewrite Nat.sub_diag in H2; discriminate|lia]. }
  destruct (G 0) as (I & S). split; auto. intros j. rewrite I, Nat.sub_0_r. split; [tauto|]. intros H. split; [lia|auto].
Qed.
Lemma picked_ok n i : acceptable n i -> exists js, picked n i = Ok js /\ selects n i js.
Proof.
  destruct i as [z|x|s|a b c|zs|bs| |]; cbn [acceptable]; try contradiction; intros H; cbn [picked].
  - apply slice_ok; auto.
  - destruct (list_ok n zs H) as (js & -> & F). eauto.
  - rewrite H, Nat.eqb_refl. eexists. split; [reflexivity|]. rewrite <- H. apply mask_ok.
Qed.
Lemma selects_lt n i js : acceptable n i -> selects n i js -> Forall (fun j => j < n) js.
Proof.
  destruct i as [z|x|s|a b c|zs|bs| |]; cbn [selects acceptable]; try contradiction; intros Ha H.
  - apply Forall_forall. intros j Hj. apply (proj1 H) in Hj. apply Hj.
  - clear Ha. induction H as [|z j zs js Hm H IH]; constructor; auto. apply Hm.
  - apply Forall_forall. intros j Hj. apply (proj1 H) in Hj. rewrite <- Ha. apply nth_error_Some. congruence.
Qed.

(** * Arrays have as many numbers as their dimensions say *)
Definition sized (L : layout) (f : found) : Prop :=
  match f with
  | Arr sh d => List.length d = fold_right Nat.mul 1 sh
  | Dict l => exists n, content_ok L n (CDict l)
  | Nothing => True
  end.
Lemma enter_sized L n c : content_ok L n c -> sized L (enter L c).
Proof.
  destruct c as [|d|l]; cbn [enter sized]; auto.
  - destruct n; [|contradiction]. cbn [content_ok]. intros ->. rewrite prod_app. cbn [fold_right]. rewrite Nat.mul_1_r. reflexivity.
  - intros H. exists n. exact H.
Qed.
Lemma row_at_length m d k n : List.length d = n * m -> k < n -> List.length (row_at m d k) = m.
Proof. intros H Hk. unfold row_at. rewrite firstn_length, skipn_length. nia. Qed.
Lemma rows_length m d js n : List.length d = n * m -> Forall (fun j => j < n) js -> List.length (flat_map (row_at m d) js) = List.length js * m.
Proof. intros H F. induction F as [|j js Hj F IH]; auto. cbn [flat_map List.length]. rewrite app_length, IH, (row_at_length m d j n) by auto. lia. Qed.
Lemma row_of_rows m d n : List.length d = n * m -> forall js q j, Forall (fun j => j < n) js -> nth_error js q = Some j ->
  row_at m (flat_map (row_at m d) js) q = row_at m d j.
Proof.
  intros H js. induction js as [|x js IH]; intros q j F E; [destruct q; discriminate|]. inversion F as [|? ? Hx F']; subst. pose proof (row_at_length m d x n H Hx) as Lx.
  destruct q as [|q]; cbn [nth_error] in E.
  - injection E as ->. cbn [flat_map]. unfold row_at at 1. cbn [Nat.mul skipn]. rewrite firstn_app, Lx, Nat.sub_diag. cbn [firstn]. rewrite app_nil_r. rewrite <- Lx at 1. apply firstn_all.
  - rewrite <- (IH q j F' E). cbn [flat_map]. unfold row_at at 1 3. f_equal. rewrite skipn_app, Lx. replace (S q * m - m) with (q * m) by lia.
    rewrite skipn_all2 by (rewrite Lx; lia). reflexivity.
Qed.
Lemma picked_shape n i js : picked n i = Ok js -> acceptable n i.
Proof.
  destruct i as [z|x|s|a b c|zs|bs| |]; cbn [picked acceptable]; try discriminate.
  - unfold slice_indices. destruct (Z.eqb_spec c 0); [discriminate|auto].
  - destruct (norm_indexes n zs) eqn:E; [|discriminate]. intros _. revert l E. induction zs as [|z zs IH]; intros l E; constructor; cbn [norm_indexes] in E; destruct (norm_index n z) as [i|] eqn:Ei; try discriminate.
    + apply means_index_iff in Ei. destruct Ei as (Hi & [->| ->]); lia.
    + destruct (norm_indexes n zs); [|discriminate]. eapply IH. reflexivity.
  - destruct (Nat.eqb_spec (List.length bs) n); [auto|discriminate].
Qed.
Lemma get1_sized L o i o' : sized L o -> get1 L o i = Ok o' -> sized L o'.
Proof.
  destruct o as [l|[|n sh] d|]; cbn [get1]; try discriminate; intros H E.
  - destruct (item_key i) as [k|]; [|discriminate]. destruct (assoc k l) as [c|] eqn:A; [|discriminate]. injection E as <-.
    destruct H as ([|m] & H); [contradiction|]. destruct H as (H & _). rewrite Forall_forall in H. apply assoc_in in A. apply (enter_sized L m c). apply (H _ A).
  - destruct i; try discriminate; injection E as <-; cbn [sized fold_right] in *; lia.
  - cbn [sized fold_right] in H. set (m := fold_right Nat.mul 1 sh) in *.
    assert (P : (do js <- picked n i; Ok (Arr (List.length js :: sh) (flat_map (row_at m d) js))) = Ok o' -> sized L o').
    { intros E'. destruct (picked n i) as [js|] eqn:Ep; [|discriminate]. cbn [bind] in E'. injection E' as <-. cbn [sized fold_right].
      pose proof (picked_shape _ _ _ Ep) as Ha. destruct (picked_ok n i Ha) as (js' & Ep' & Hs). rewrite Ep in Ep'. injection Ep' as <-. apply rows_length with (n := n); auto. apply (selects_lt n i); auto. }
    destruct i as [z| | | | | | |]; auto; try (injection E as <-; cbn [sized fold_right]; fold m; lia). destruct (norm_index n z) as [k|] eqn:Ek; [|discriminate]. injection E as <-. apply means_index_iff in Ek. cbn [sized]. apply (row_at_length m d k n); auto. apply Ek.
Qed.
Lemma get_all_sized L its : forall o o', sized L o -> get_all L o its = Ok o' -> sized L o'.
Proof.
  induction its as [|i its IH]; intros o o' H E; cbn [get_all] in E; [injection E as <-; auto|].
  destruct (get1 L o i) as [o1|] eqn:E1; [|discriminate]. cbn [bind] in E. apply (IH o1 o'); auto. apply (get1_sized L o i); auto.
Qed.
Lemma getitem_sized L ng c pre o : hist_ok L ng c -> snd (getitem L ng c pre) = Ok o -> sized L o.
Proof.
  intros H E. unfold getitem in E. cbn [snd] in E. apply (get_all_sized L pre _ _) in E; auto. apply (enter_sized L ng).
  destruct H as [->|H]; [unfold prefill; destruct ng; cbn; [apply repeat_length|repeat split; constructor]|]. unfold prefill. destruct c; auto. destruct ng; contradiction.
Qed.

(** ** C81 *)
(** A slice, a list or a mask after indexes that lead to an array gives the elements it picks, in order:
    the following index [q] is the one of the element picked at place [q]. *)
Theorem C81_picks_the_elements : forall L ng c pre n sh d i, hist_ok L ng c -> snd (getitem L ng c pre) = Ok (Arr (n :: sh) d) -> acceptable n i ->
  exists js, selects n i js /\
    (exists d', snd (getitem L ng c (pre ++ [i])) = Ok (Arr (List.length js :: sh) d')) /\
    (forall q j rest, nth_error js q = Some j ->
       snd (getitem L ng c (pre ++ i :: AtInt (Z.of_nat q) :: rest)) = snd (getitem L ng c (pre ++ AtInt (Z.of_nat j) :: rest))) /\
    forall q rest, List.length js <= q -> snd (getitem L ng c (pre ++ i :: AtInt (Z.of_nat q) :: rest)) = Err IndexError.
Proof.
  intros L ng c pre n sh d i Hok E Ha. pose proof (getitem_sized L ng c pre _ Hok E) as Hd. cbn [sized fold_right] in Hd. set (m := fold_right Nat.mul 1 sh) in *.
  destruct (picked_ok n i Ha) as (js & Ep & Hs). pose proof (selects_lt n i js Ha Hs) as Hlt.
  assert (E1 : get1 L (Arr (n :: sh) d) i = Ok (Arr (List.length js :: sh) (flat_map (row_at m d) js))).
  { cbn [get1]. fold m. destruct i; try contradiction; rewrite Ep; reflexivity. }
  exists js. split; auto. split; [|split].
  - eexists. rewrite C68_index_in_steps, E. cbn [bind get_all]. rewrite E1. reflexivity.
  - intros q j rest Hq. rewrite !C68_index_in_steps, E. cbn [bind get_all]. rewrite E1. cbn [bind get1]. fold m.
    assert (Hq' : q < List.length js) by (apply nth_error_Some; congruence).
    assert (Hj : j < n) by (rewrite Forall_forall in Hlt; apply Hlt; eapply nth_error_In; eauto).
    rewrite (proj2 (means_index_iff (List.length js) (Z.of_nat q) q)) by (split; auto). rewrite (proj2 (means_index_iff n (Z.of_nat j) j)) by (split; auto). cbn [bind].
    rewrite (row_of_rows m d n Hd js q j) by auto. reflexivity.
  - intros q rest Hq. rewrite C68_index_in_steps, E. cbn [bind get_all]. rewrite E1. cbn [bind get1].
    destruct (norm_index (List.length js) (Z.of_nat q)) as [k|] eqn:Ek; [|reflexivity]. apply means_index_iff in Ek. destruct Ek as (Hk & [X|X]); lia.
Qed.
Print Assumptions C81_picks_the_elements.

(** With all group keys, bins for some axes, a slice for the next one and the rest: the numbers are those of
    the cells of the bins that are picked. *)
Theorem C81_shows_the_cells : forall L ng c its ks zs1 i n sh d, content_ok L ng c -> Forall2 writes_key its ks -> List.length ks = ng -> block c ks <> None ->
  snd (getitem L ng c (its ++ map AtInt zs1)) = Ok (Arr (n :: sh) d) -> acceptable n i ->
  exists js, selects n i js /\
    forall q j zs2 ss z col, nth_error js q = Some j -> means_slots L (zs1 ++ Z.of_nat j :: zs2) ss -> means_index (l_last L) z col ->
      snd (getitem L ng c (its ++ map AtInt zs1 ++ i :: map AtInt (Z.of_nat q :: zs2 ++ [z]))) = Ok (Arr [] [cell L c ks ss col]).
Proof.
  intros L ng c its ks zs1 i n sh d Hc Hw Hk Hb E Ha. destruct (C81_picks_the_elements L ng c _ n sh d i (or_intror Hc) E Ha) as (js & Hs & _ & H & _).
  exists js. split; auto. intros q j zs2 ss z col Hq Hm Hz. rewrite app_assoc. cbn [map]. rewrite (H q j _ Hq), <- app_assoc.
  change (AtInt (Z.of_nat j) :: map AtInt (zs2 ++ [z])) with (map AtInt (Z.of_nat j :: zs2 ++ [z])). rewrite <- map_app.
  replace (zs1 ++ Z.of_nat j :: zs2 ++ [z]) with ((zs1 ++ Z.of_nat j :: zs2) ++ [z]) by (rewrite <- app_assoc; reflexivity).
  rewrite (C68_index_is_the_cell L ng c its ks _ ss z col) by auto. cbn [snd]. destruct (block c ks); [reflexivity|congruence].
Qed.
Print Assumptions C81_shows_the_cells.

(** What is picked is determined by the index. *)
Lemma sorted_same (R : nat -> nat -> Prop) : (forall x, ~ R x x) -> (forall x y, R x y -> R y x -> False) ->
  forall l m, StronglySorted R l -> StronglySorted R m -> (forall x, In x l <-> In x m) -> l = m.
Proof.
  intros Hi Ha. induction l as [|x l IH]; intros m Hl Hm H.
  - destruct m as [|y m]; auto. exfalso. apply (proj2 (H y)). left; auto.
  - destruct m as [|y m]; [exfalso; apply (proj1 (H x)); left; auto|]. inversion Hl as [|? ? Hl' Fx]; subst. inversion Hm as [|? ? Hm' Fy]; subst. rewrite Forall_forall in Fx, Fy.
    assert (x = y) as <-.
    { destruct (proj1 (H x) (or_introl eq_refl)) as [|Hx]; auto. destruct (proj2 (H y) (or_introl eq_refl)) as [|Hy]; auto. exfalso. eapply Ha; [apply Fx|apply Fy]; auto. }
    f_equal. apply IH; auto. intros z. split; intros Hz.
    + destruct (proj1 (H z) (or_intror Hz)) as [->|]; auto. exfalso. apply (Hi z). auto.
    + destruct (proj2 (H z) (or_intror Hz)) as [->|]; auto. exfalso. apply (Hi z). auto.
Qed.
Theorem C81_picks_once : forall n i js js', selects n i js -> selects n i js' -> js = js'.
Proof.
  intros n i js js'. destruct i as [z|x|s|a b c|zs|bs| |]; cbn [selects]; try contradiction.
  - intros (H1 & S1) (H2 & S2). apply (sorted_same (fun a b => if (c <? 0)%Z then b < a else a < b)); auto.
    + intros x. destruct (c <? 0)%Z; lia.
    + intros x y. destruct (c <? 0)%Z; lia.
    + intros x. rewrite H1, H2. reflexivity.
  - intros H. revert js'. induction H as [|z j zs js Hm H IH]; intros js' H'; inversion H' as [|? j' ? ? Hm' H'']; subst; auto. f_equal; auto.
    apply means_index_iff in Hm. apply means_index_iff in Hm'. congruence.
  - intros (H1 & S1) (H2 & S2). apply (sorted_same lt); auto; try lia. intros x. rewrite H1, H2. reflexivity.
Qed.
Print Assumptions C81_picks_once.

(** Everything else is refused: a step of zero, a number that is not there, a mask of another length, and
    any slice, list or mask of groups. *)
Theorem C81_refused : forall L ng c pre n sh d i, snd (getitem L ng c pre) = Ok (Arr (n :: sh) d) -> ~ acceptable n i -> (forall z, i <> AtInt z) -> i <> AtNone -> i <> AtEllipsis ->
  snd (getitem L ng c (pre ++ [i])) = Err (match i with AtSlice _ _ _ => ValueError | _ => IndexError end).
Proof.
  intros L ng c pre n sh d i E Ha Hi N1 N2. rewrite C68_index_in_steps, E. cbn [bind get_all get1]. destruct i as [z|x|s|a b st|zs|bs| |]; cbn [acceptable] in Ha; try (exfalso; eapply Hi; reflexivity); try congruence; try reflexivity.
  - cbn [picked]. unfold slice_indices. destruct (Z.eqb_spec st 0); [reflexivity|contradiction].
  - cbn [picked]. rewrite list_refused by auto. reflexivity.
  - cbn [picked]. destruct (Nat.eqb_spec (List.length bs) n); [contradiction|reflexivity].
Qed.
Print Assumptions C81_refused.
Theorem C81_groups_refused : forall L ng c pre l i, snd (getitem L ng c pre) = Ok (Dict l) ->
  match i with AtSlice _ _ _ | AtList _ | AtMask _ => True | _ => False end -> snd (getitem L ng c (pre ++ [i])) = Err TypeError.
Proof. intros L ng c pre l i E Hi. rewrite C68_index_in_steps, E. cbn [bind get_all get1]. destruct i; try contradiction; reflexivity. Qed.
Print Assumptions C81_groups_refused.

(** None puts a dimension of one element in front, which the next index 0 (or -1) takes away again; an
    Ellipsis changes nothing.  Both are keys that no group has. *)
Theorem C81_none : forall L ng c pre sh d, hist_ok L ng c -> snd (getitem L ng c pre) = Ok (Arr sh d) ->
  snd (getitem L ng c (pre ++ [AtNone])) = Ok (Arr (1 :: sh) d) /\
  forall z rest, snd (getitem L ng c (pre ++ AtNone :: AtInt z :: rest)) = if ((z =? 0) || (z =? -1))%Z then snd (getitem L ng c (pre ++ rest)) else Err IndexError.
Proof.
  intros L ng c pre sh d Hok E. pose proof (getitem_sized L ng c pre _ Hok E) as Hd. cbn [sized] in Hd.
  assert (E1 : get1 L (Arr sh d) AtNone = Ok (Arr (1 :: sh) d)) by (destruct sh; reflexivity). split.
  - rewrite C68_index_in_steps, E. cbn [bind get_all]. rewrite E1. reflexivity.
  - intros z rest. rewrite !C68_index_in_steps, E. cbn [bind get_all]. rewrite E1. cbn [bind get1].
    destruct (norm_index 1 z) as [k|] eqn:Ek.
    + apply means_index_iff in Ek. destruct Ek as (Hk & Hz). assert (k = 0) by lia. subst k. replace ((z =? 0) || (z =? -1))%Z with true by (destruct Hz as [->| ->]; reflexivity).
      cbn [bind]. unfold row_at. cbn [Nat.mul skipn]. rewrite <- Hd, firstn_all. reflexivity.
    + destruct (Z.eqb_spec z 0) as [->|]; [vm_compute in Ek; discriminate|]. destruct (Z.eqb_spec z (-1)) as [->|]; [vm_compute in Ek; discriminate|]. reflexivity.
Qed.
Print Assumptions C81_none.
Theorem C81_ellipsis : forall L ng c pre sh d rest, snd (getitem L ng c pre) = Ok (Arr sh d) ->
  snd (getitem L ng c (pre ++ AtEllipsis :: rest)) = snd (getitem L ng c (pre ++ rest)).
Proof. intros L ng c pre sh d rest E. rewrite !C68_index_in_steps, E. cbn [bind get_all]. destruct sh; reflexivity. Qed.
Print Assumptions C81_ellipsis.
Theorem C81_none_of_groups : forall L ng c pre l i, snd (getitem L ng c pre) = Ok (Dict l) -> i = AtNone \/ i = AtEllipsis ->
  snd (getitem L ng c (pre ++ [i])) = Err KeyError.
Proof. intros L ng c pre l i E [->| ->]; rewrite C68_index_in_steps, E; reflexivity. Qed.
Print Assumptions C81_none_of_groups.

(** A full slice changes nothing, so the next index is for the same axis and not for the next one. *)
Theorem C81_full_slice : forall L ng c pre n sh d rest, hist_ok L ng c -> snd (getitem L ng c pre) = Ok (Arr (n :: sh) d) ->
  snd (getitem L ng c (pre ++ AtSlice None None 1 :: rest)) = snd (getitem L ng c (pre ++ rest)).
Proof.
  intros L ng c pre n sh d rest Hok E. pose proof (getitem_sized L ng c pre _ Hok E) as Hd. cbn [sized fold_right] in Hd. set (m := fold_right Nat.mul 1 sh) in *.
  rewrite !C68_index_in_steps, E. cbn [bind get_all get1]. fold m.
  assert (Ej : picked n (AtSlice None None 1) = Ok (seq 0 n)).
  { destruct (picked_ok n (AtSlice None None 1)) as (js & Ep & Hs); [cbn; lia|]. rewrite Ep. f_equal. apply (C81_picks_once n (AtSlice None None 1)); auto. split.
    - intros j. rewrite in_seq. unfold in_slice, begins. cbn [Z.ltb Z.compare]. split; [intros (_ & H); split; [lia|split; [exists j; lia|auto]]|intros (H & _); lia].
    - cbn [Z.ltb Z.compare]. rewrite <- (map_id (seq 0 n)). apply sorted_map_seq. auto. }
  rewrite Ej. cbn [bind]. rewrite seq_length. f_equal.
  assert (G : forall k, k <= n -> flat_map (row_at m d) (seq 0 k) = firstn (k * m) d).
  { induction k as [|k IH]; intros Hk; [reflexivity|]. rewrite seq_S, flat_map_app, IH by lia. cbn [flat_map plus]. rewrite app_nil_r. unfold row_at.
    replace (S k * m) with (k * m + m) by lia. clear. generalize (k * m). intros a. revert d. induction a as [|a IH]; intros d; [reflexivity|]. destruct d; [cbn; destruct m; reflexivity|]. cbn. f_equal. apply IH. }
  rewrite G by auto. f_equal. rewrite <- Hd. apply firstn_all.
Qed.
Print Assumptions C81_full_slice.

(** *** Where it differs from Numpy *)
(** Two bins in x and two in y.  h[:, 0] is the first bin in x with all bins in y, as h[0] is, and not the
    first bin in y with all bins in x: its element 1 is not h[1, 0]. *)
Definition L81 : layout := {| l_tots := [2; 2]; l_nprof := 0; l_weighted := false |}.
Definition c81 : content := CArr (map nz [1; 2; 3; 4]%Z).
Theorem C81_second_axis_refuted : exists L c, content_ok L 0 c /\
  snd (getitem L 0 c [AtSlice None None 1; AtInt 0]) = snd (getitem L 0 c [AtInt 0]) /\
  snd (getitem L 0 c [AtSlice None None 1; AtInt 0; AtInt 1]) <> snd (getitem L 0 c [AtInt 1; AtInt 0]).
Proof. exists L81, c81. split; [reflexivity|]. split; [vm_compute; reflexivity|]. vm_compute. discriminate. Qed.
Print Assumptions C81_second_axis_refuted.
(** h[..., 0] is h[0] as well, and not the first elements of the last dimension: h[..., 0][1, 0] is not
    h[1, 0, 0]. *)
Theorem C81_last_axis_refuted : exists L c, content_ok L 0 c /\
  snd (getitem L 0 c [AtEllipsis; AtInt 0]) = snd (getitem L 0 c [AtInt 0]) /\
  snd (getitem L 0 c [AtEllipsis; AtInt 0; AtInt 1; AtInt 0]) <> snd (getitem L 0 c [AtInt 1; AtInt 0; AtInt 0]).
Proof. exists L81, c81. split; [reflexivity|]. split; [vm_compute; reflexivity|]. vm_compute. discriminate. Qed.
Print Assumptions C81_last_axis_refuted.
(** h[k, ::-1], h[k, -2:9], h[k, [1, -1]], h[k, [True, False, True]] with three bins in one group k. *)
Definition L81g : layout := {| l_tots := [3]; l_nprof := 0; l_weighted := false |}.
Definition c81g : content := CDict [(GStr "k", CArr (map nz [5; 6; 7]%Z))].
Example C81_example : content_ok L81g 1 c81g /\ Forall2 writes_key [AtStr "k"] [GStr "k"] /\ block c81g [GStr "k"] <> None /\
  snd (getitem L81g 1 c81g [AtStr "k"]) = Ok (Arr [3; 1] (map nz [5; 6; 7]%Z)) /\
  acceptable 3 (AtSlice None None (-1)) /\ acceptable 3 (AtList [1; -1]%Z) /\ acceptable 3 (AtMask [true; false; true]) /\ ~ acceptable 3 (AtList [3%Z]) /\
  map (fun i => snd (getitem L81g 1 c81g [AtStr "k"; i])) [AtSlice None None (-1); AtSlice (Some (-2)%Z) (Some 9%Z) 1; AtList [1; -1]%Z; AtMask [true; false; true]] =
    [Ok (Arr [3; 1] (map nz [7; 6; 5]%Z)); Ok (Arr [2; 1] (map nz [6; 7]%Z)); Ok (Arr [2; 1] (map nz [6; 7]%Z)); Ok (Arr [2; 1] (map nz [5; 7]%Z))].
Proof.
  split; [split; [constructor; [reflexivity|constructor]|split; [constructor; [intros []|constructor]|constructor; [discriminate|constructor]]]|]. split; [repeat constructor|]. split; [discriminate|]. split; [reflexivity|]. split; [cbn; lia|]. split; [repeat constructor; lia|]. split; [reflexivity|].
  split; [intros H; inversion H; lia|]. vm_compute. reflexivity.
Qed.
Example C81_none_example : hist_ok L81g 1 c81g /\
  map (fun w => snd (getitem L81g 1 c81g w)) [[AtStr "k"; AtNone]; [AtStr "k"; AtInt 1; AtEllipsis; AtInt 0]; [AtStr "k"; AtInt 1; AtInt 0; AtNone]; [AtStr "k"; AtNone; AtInt (-1); AtInt 2]; [AtNone]] =
    [Ok (Arr [1; 3; 1] (map nz [5; 6; 7]%Z)); Ok (Arr [] [nz 6]); Ok (Arr [1] [nz 6]); Ok (Arr [1] [nz 7]); Err KeyError].
Proof.
  split; [right; split; [constructor; [reflexivity|constructor]|split; [constructor; [intros []|constructor]|constructor; [discriminate|constructor]]]|]. vm_compute. reflexivity.
Qed.
