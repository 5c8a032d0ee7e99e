(** Chunks, permutations and filters of the fill arguments; slots of the rows are in range. *)
From Coq Require Import String Permutation.
From Verif Require Import Num NumFacts Base Tree Instr InstrSpec InstrProofs Axis Calc AxisProofs AxisProofs2 AxisMain Content Fill FillSpec FillMain Elem HistFill HistSpec HistFillProofs HistFillMain HistFillMain2.

Local Open Scope list_scope.
(** * Slots are in range *)
Definition axis_valid (ax : axis) : Prop :=
  match ax with
  | AIntbin _ mn mx _ _ => (mn <= mx)%Z
  | ASplit _ edges _ _ _ _ => edges <> []
  | _ => True
  end.

Lemma intbin_range u o mn mx z i : (mn <= mx)%Z -> intbin_clamp u o mn mx z = Some i ->
  (0 <= i < Z.of_nat (Z.to_nat (mx - mn + 1) + b2n u + b2n o))%Z.
Proof.
  intros H E. unfold intbin_clamp in E.
  assert (S : forall a b : Z, Some a = Some b -> a = b) by congruence.
  destruct u, o; unfold b2z, b2n in *; cbv beta iota zeta in E |- *.
  - apply S in E. lia.
  - destruct (1 + mx - mn <? Z.max z 0)%Z eqn:C; [discriminate|]. apply Z.ltb_ge in C. apply S in E. lia.
  - destruct (z <? 0)%Z eqn:C; [discriminate|]. apply Z.ltb_ge in C. apply S in E. lia.
  - destruct (z <? 0)%Z eqn:C; [discriminate|]. destruct (0 + mx - mn <? z)%Z eqn:C'; [discriminate|].
    apply Z.ltb_ge in C. apply Z.ltb_ge in C'. apply S in E. lia.
Qed.
Lemma split_range u o nf cl edges v i : edges <> [] -> split_index u o nf cl edges v = Some i ->
  (0 <= i < Z.of_nat (length edges - 1 + b2n u + b2n o + b2n nf))%Z.
Proof.
  intros Hne E.
  assert (Hl : (1 <= Z.of_nat (length edges))%Z) by (destruct edges; [congruence|simpl length; lia]).
  assert (Hd : (0 <= digitize edges v <= Z.of_nat (length edges))%Z).
  { unfold digitize. destruct (isnan v); [lia|].
    assert (G := filter_len (fun e => nleb e v) edges). lia. }
  assert (Hx : existsb (neqb v) edges = true -> (1 <= digitize edges v)%Z).
  { intros Ex. unfold digitize. destruct (isnan v) eqn:En; [lia|].
    apply existsb_exists in Ex. destruct Ex as (e & He & Ee).
    assert (In e (filter (fun e => nleb e v) edges)).
    { apply filter_In. split; auto. unfold nleb. rewrite neqb_sym, Ee. apply orb_true_r. }
    destruct (filter (fun e => nleb e v) edges); [destruct H|simpl length; lia]. }
  unfold split_index in E. destruct (isnan v) eqn:En.
  - destruct nf; [|destruct u; discriminate]. destruct u.
    + injection E as <-. unfold b2n, b2z. destruct o; lia.
    + destruct (_ =? 0)%Z eqn:E0; [discriminate|]. injection E as <-. unfold b2n, b2z. destruct o; lia.
  - set (i1 := if negb cl && existsb (neqb v) edges then (digitize edges v - 1)%Z else digitize edges v) in *.
    assert (Hi : (0 <= i1 <= Z.of_nat (length edges))%Z).
    { unfold i1. destruct (negb cl); simpl; [|lia]. destruct (existsb (neqb v) edges); [|lia].
      specialize (Hx eq_refl). lia. }
    clearbody i1.
    assert (exists j, (if negb o && (i1 =? Z.of_nat (length edges))%Z then None else Some i1) = Some j /\
                      (if u then Some j else if (j =? 0)%Z then None else Some (j - 1)%Z) = Some i) as (j & E1 & E2).
    { destruct (if negb o && (i1 =? Z.of_nat (length edges))%Z then None else Some i1); destruct u; try discriminate; eauto. }
    destruct o; simpl in E1.
    + injection E1 as <-. destruct u; [injection E2 as <-; unfold b2n; lia|].
      destruct (i1 =? 0)%Z eqn:E0; [discriminate|]. apply Z.eqb_neq in E0. injection E2 as <-. unfold b2n; lia.
    + destruct (i1 =? Z.of_nat (length edges))%Z eqn:E3; [discriminate|]. apply Z.eqb_neq in E3. injection E1 as <-.
      destruct u; [injection E2 as <-; unfold b2n; lia|].
      destruct (i1 =? 0)%Z eqn:E0; [discriminate|]. apply Z.eqb_neq in E0. injection E2 as <-. unfold b2n; lia.
Qed.

Lemma slot_in_range cast rnd ax v s : is_fixed ax = true -> ax <> ANull -> axis_valid ax ->
  (forall e x, ax = ACut e -> v <> VNum x) ->
  slot_of cast rnd ax v = Ok s -> slot_ok (totbins ax) s.
Proof.
  intros F N W Hc E. destruct s as [i|]; [|exact I]. unfold slot_ok.
  destruct ax as [e|e w o nf cl|e n l h u o nf cl|e mn mx u o|e es u o nf cl|e| |e]; try discriminate; simpl in E.
  - apply bind_ok in E. destruct E as (x & _ & E). apply bin_index_range in E. exact E.
  - apply bind_ok in E. destruct E as (x & _ & E). injection E as E. apply (intbin_range _ _ _ _ _ _ W E).
  - apply bind_ok in E. destruct E as (x & _ & E). injection E as E. apply (split_range _ _ _ _ _ _ _ W E).
  - destruct v as [x|s|b]; try discriminate.
    + destruct (Hc e x eq_refl eq_refl).
    + injection E as <-. destruct b; simpl; lia.
Qed.

(** * Dependence of a row on its fields *)
Lemma reval_ext user f g t : (forall s, mentions s t -> f s = g s) -> reval user f t = reval user g t.
Proof.
  induction t as [c|s|s b|c|fn args IH] using tree_ind'; intros H; auto.
  - simpl. rewrite H by constructor. reflexivity.
  - simpl. rewrite H by constructor. reflexivity.
  - rewrite !reval_call. f_equal. apply mapM_ext. intros a Ha. rewrite Forall_forall in IH.
    apply IH; auto. intros s Hs. apply H. econstructor; eauto.
Qed.
Lemma bind_ext {A B} (r r' : res A) (f g : A -> res B) :
  r = r' -> (forall x, r = Ok x -> f x = g x) -> (do x <- r; f x) = (do x <- r'; g x).
Proof. intros <-. destruct r; simpl; auto. Qed.
Lemma row_of_ext cast rnd user h f g :
  (forall s, hist_mentions h s -> f s = g s) -> row_of cast rnd user h f = row_of cast rnd user h g.
Proof.
  intros H.
  assert (E : forall t, In t (hist_exprs h) -> value user f t = value user g t).
  { intros t Ht. unfold value. rewrite (reval_ext user f g); auto. intros s Hs. apply H. exists t; auto. }
  assert (E' : forall t, In t (hist_exprs h) -> number user f t = number user g t).
  { intros t Ht. unfold number. rewrite E; auto. }
  unfold row_of.
  apply bind_ext; [apply mapM_ext; intros p Hp; rewrite E; auto using group_expr|]. intros ks _.
  apply bind_ext; [apply mapM_ext; intros p Hp; rewrite E; auto using fixed_expr|]. intros ss _.
  apply bind_ext; [apply mapM_ext; intros p Hp; rewrite E'; auto using prof_expr|]. intros ps _.
  apply bind_ext; auto. destruct (h_weight h) as [[v|t]|] eqn:Ew; auto. apply E', weight_expr; auto.
Qed.

(** * Chunks *)
Definition same_scalar (a b : option inarr) : Prop :=
  match a, b with
  | Some (IAr _), _ | _, Some (IAr _) => False
  | _, _ => a = b
  end.
(** [C] is [A] followed by [B]: arrays are concatenated, everything else is the same in all three. *)
Definition chunked (h : hist) (A B C : arrays) : Prop :=
  forall s, hist_mentions h s ->
    (exists l l', A s = Some (IAr l) /\ B s = Some (IAr l') /\ C s = Some (IAr (l ++ l'))) \/
    (same_scalar (A s) (B s) /\ C s = A s).

Lemma mapM_app {A B} (f : A -> res B) l m : mapM f (l ++ m) = do a <- mapM f l; do b <- mapM f m; Ok (a ++ b).
Proof.
  induction l as [|x l IH]; simpl.
  - destruct (mapM f m); reflexivity.
  - destruct (f x); simpl; auto. rewrite IH. destruct (mapM f l); simpl; auto. destruct (mapM f m); reflexivity.
Qed.
Lemma mapM_shift {B} (f g : nat -> res B) n m : (forall i, i < m -> f (n + i) = g i) ->
  mapM f (seq n m) = mapM g (seq 0 m).
Proof.
  intros H. assert (G : forall k, (forall i, i < m -> f (n + k + i) = g (k + i)) -> mapM f (seq (n + k) m) = mapM g (seq k m)).
  { clear H. induction m as [|m IH]; intros k H; simpl; auto.
    assert (E0 := H 0 ltac:(lia)). rewrite !Nat.add_0_r in E0. rewrite E0.
    assert (E := IH (S k)). rewrite Nat.add_succ_r in E. rewrite E; auto.
    intros i Hi. match goal with |- f ?a = g ?b =>
      replace a with (n + k + S i) by lia; replace b with (k + S i) by lia end. apply H. lia. }
  specialize (G 0). rewrite Nat.add_0_r in G. apply G. intros i Hi. rewrite H; auto.
Qed.

Section Chunks.
  Variable cast : Num -> Z.
  Variable rnd : Qc -> Num.
  Variable user : string -> list arg -> res val.

  Lemma rows_chunked h A B C n m :
    (forall s, hist_mentions h s -> right_length A n s) -> (forall s, hist_mentions h s -> right_length B m s) ->
    chunked h A B C ->
    rows_of cast rnd user h C (n + m) =
    do a <- rows_of cast rnd user h A n; do b <- rows_of cast rnd user h B m; Ok (a ++ b).
  Proof.
    intros HA HB HC. unfold rows_of. rewrite seq_app, mapM_app. simpl.
    apply bind_ext.
    - apply mapM_ext. intros i Hi. apply in_seq in Hi. apply row_of_ext. intros s Hs. unfold field_at.
      destruct (HC s Hs) as [(l & l' & EA & EB & EC)|(ES & EC)].
      + rewrite EA, EC. rewrite nth_error_app1; auto. rewrite (HA s Hs l EA). lia.
      + rewrite EC. destruct (A s) as [[v|l]|]; auto.
    - intros a _. apply bind_ext; auto. apply mapM_shift. intros i Hi. apply row_of_ext. intros s Hs. unfold field_at.
      destruct (HC s Hs) as [(l & l' & EA & EB & EC)|(ES & EC)].
      + rewrite EB, EC. rewrite nth_error_app2; rewrite (HA s Hs l EA); [|lia].
        replace (n + i - n) with i by lia. reflexivity.
      + rewrite EC. unfold same_scalar in ES. destruct (A s) as [[v|l]|], (B s) as [[v'|l']|]; try contradiction; try discriminate; auto.
        injection ES as ->. reflexivity.
  Qed.

  Lemma chunk_args h A B C n m : args_ok h A n -> args_ok h B m -> chunked h A B C ->
    (exists s, hist_mentions h s /\ is_array A s) -> args_ok h C (n + m).
  Proof.
    intros (HA & _) (HB & _) HC (s0 & M0 & (l0 & E0)). split.
    - intros s Hs. destruct (HA s Hs) as (A1 & A2). destruct (HB s Hs) as (B1 & B2).
      unfold available, right_length. destruct (HC s Hs) as [(l & l' & EA & EB & EC)|(ES & EC)].
      + rewrite EC. split; [left; discriminate|]. intros k Ek. injection Ek as <-.
        rewrite app_length, (A2 l EA), (B2 l' EB). reflexivity.
      + rewrite EC. split; [exact A1|]. intros k Ek. rewrite Ek in ES. destruct ES.
    - left. exists s0. split; auto. destruct (HC s0 M0) as [(l & l' & EA & EB & EC)|(ES & EC)].
      + eexists; eauto.
      + rewrite E0 in ES. destruct ES.
  Qed.

  (** Choosing rows: [gather idx A] has, in every array, the rows numbered [idx] of [A]. *)
  Definition gather (idx : list nat) (A : arrays) : arrays :=
    fun s => match A s with
             | Some (IAr l) => Some (IAr (flat_map (fun i => match nth_error l i with Some x => [x] | None => [] end) idx))
             | a => a
             end.
  Lemma gather_nth {X} (l : list X) idx : (forall i, In i idx -> i < length l) ->
    length (flat_map (fun i => match nth_error l i with Some x => [x] | None => [] end) idx) = length idx /\
    forall j i, nth_error idx j = Some i ->
      nth_error (flat_map (fun i => match nth_error l i with Some x => [x] | None => [] end) idx) j = nth_error l i.
  Proof.
    induction idx as [|i idx IH]; intros H; simpl; [split; auto; intros [|j] i; discriminate|].
    destruct (nth_error l i) as [x|] eqn:E.
    - destruct IH as (I1 & I2); [intros; apply H; right; auto|]. split; [simpl; auto|].
      intros [|j] k Hk; simpl in *; [congruence|auto].
    - apply nth_error_None in E. specialize (H i (or_introl eq_refl)). lia.
  Qed.
  Lemma mapM_reindex {X} (F G : nat -> res X) idx :
    (forall j i, nth_error idx j = Some i -> F j = G i) -> mapM F (seq 0 (length idx)) = mapM G idx.
  Proof.
    revert F. induction idx as [|i idx IH]; intros F E; simpl; auto.
    rewrite (E 0 i eq_refl). f_equal. rewrite <- seq_shift.
    assert (Em : forall l, mapM F (map S l) = mapM (fun j => F (S j)) l).
    { induction l as [|x l IHl]; simpl; auto. rewrite IHl. reflexivity. }
    rewrite Em, (IH (fun j => F (S j))) by (intros j k Ek; apply (E (S j)); auto). reflexivity.
  Qed.
  Lemma rows_gather h A n idx : (forall s, hist_mentions h s -> right_length A n s) ->
    (forall i, In i idx -> i < n) ->
    rows_of cast rnd user h (gather idx A) (length idx) = mapM (fun i => row_of cast rnd user h (field_at A i)) idx.
  Proof.
    intros HA Hi. unfold rows_of.
    assert (E : forall j i, nth_error idx j = Some i ->
      row_of cast rnd user h (field_at (gather idx A) j) = row_of cast rnd user h (field_at A i)).
    { intros j i Ej. apply row_of_ext. intros s Hs. unfold field_at, gather.
      destruct (A s) as [[v|l]|] eqn:EA; auto.
      destruct (gather_nth l idx) as (_ & G); [intros k Hk; rewrite (HA s Hs l EA); auto|].
      rewrite (G j i Ej). reflexivity. }
    apply mapM_reindex. exact E.
  Qed.
  Lemma gather_args h A n idx : args_ok h A n -> (forall i, In i idx -> i < n) ->
    (exists s, hist_mentions h s /\ is_array A s) -> args_ok h (gather idx A) (length idx).
  Proof.
    intros (HA & _) Hi (s0 & M0 & (l0 & E0)). split.
    - intros s Hs. destruct (HA s Hs) as (A1 & A2). unfold available, right_length, gather in *.
      destruct (A s) as [[v|l]|] eqn:EA.
      + split; [left; discriminate|]. discriminate.
      + split; [left; discriminate|]. intros k Ek. injection Ek as <-.
        destruct (gather_nth l idx) as (G & _); auto. intros k Hk. rewrite (A2 l eq_refl). auto.
      + split; [destruct A1; [congruence|right; auto]|]. discriminate.
    - left. exists s0. split; auto. unfold is_array, gather. rewrite E0. eauto.
  Qed.

  Lemma mapM_perm {X Y} (f : X -> res Y) l l' ys : Permutation l l' -> mapM f l = Ok ys ->
    exists ys', mapM f l' = Ok ys' /\ Permutation ys ys'.
  Proof.
    intros HP. revert ys. induction HP; intros ys E.
    - exists ys. split; auto.
    - simpl in E. apply bind_ok in E. destruct E as (y & Ey & E). apply bind_ok in E. destruct E as (zs & Ez & E).
      injection E as <-. destruct (IHHP _ Ez) as (zs' & E1 & E2). exists (y :: zs'). simpl. rewrite Ey. simpl. rewrite E1. auto.
    - simpl in E. apply bind_ok in E. destruct E as (b & Eb & E). apply bind_ok in E. destruct E as (zs & Ez & E).
      apply bind_ok in Ez. destruct Ez as (a & Ea & Ez). apply bind_ok in Ez. destruct Ez as (ws & Ew & Ez).
      injection Ez as <-. injection E as <-. exists (a :: b :: ws). simpl. rewrite Ea, Eb. simpl. rewrite Ew. simpl.
      split; auto. constructor.
    - destruct (IHHP1 _ E) as (y1 & E1 & P1). destruct (IHHP2 _ E1) as (y2 & E2 & P2).
      exists y2. split; auto. eapply perm_trans; eauto.
  Qed.

  Section Order.
    Variable order : tree -> list tree -> list tree.
    Variable h : hist.
    Variable srcs : list tree.
    Hypothesis Ho : is_order order.
    Hypothesis Hp : Permutation srcs (sources (hist_goals h)).
    Hypothesis Hwf : hist_wf h.
    Hypothesis Hnb : no_bcast h.
    Notation fillh := (hist_fill cast rnd user order srcs h).
    Notation L := (hist_layout h).
    Notation ng := (length (h_group h)).

    Lemma fill_is_rows A len rows c : args_ok h A len -> rows_of cast rnd user h A len = Ok rows ->
      fillh A c = fill_rows L ng (hist_mode h) rows c.
    Proof.
      intros (H1 & H2) E.
      assert (G := hist_fill_rows cast rnd user h Hwf A len H1 order srcs c Ho Hp).
      rewrite E in G. apply G; auto. destruct (fields_spec h srcs Hp Hnb) as (ns & E' & _). eauto.
    Qed.

    Lemma fill_chunks A B C n m c rows : args_ok h A n -> args_ok h B m -> chunked h A B C ->
      (exists s, hist_mentions h s /\ is_array A s) ->
      rows_of cast rnd user h C (n + m) = Ok rows -> fill_pre L ng (hist_mode h) rows c ->
      exists c1 c2 c3, fillh A c = (c1, None) /\ fillh B c1 = (c2, None) /\ fillh C c = (c3, None) /\
        same_cells L c2 c3 /\ (ng <= 1 -> same_content c2 c3).
    Proof.
      intros HA HB HC Har E Hpre.
      assert (HC' := chunk_args h A B C n m HA HB HC Har).
      assert (E' := E). rewrite (rows_chunked h A B C n m) in E'; auto;
        [|intros s Hs; apply (proj1 HA s Hs)|intros s Hs; apply (proj1 HB s Hs)].
      apply bind_ok in E'. destruct E' as (ra & Ea & E'). apply bind_ok in E'. destruct E' as (rb & Eb & E').
      injection E' as <-.
      destruct (c14_cells L ng (hist_mode h) ra rb c Hpre) as (c1 & c2 & c3 & F1 & F2 & F3 & S1 & _ & S2).
      exists c1, c2, c3.
      rewrite (fill_is_rows A n ra), (fill_is_rows B m rb), (fill_is_rows C (n + m) (ra ++ rb)); auto 10.
    Qed.

    Lemma fill_permuted A n idx c rows : args_ok h A n -> Permutation idx (seq 0 n) ->
      (exists s, hist_mentions h s /\ is_array A s) ->
      rows_of cast rnd user h A n = Ok rows -> fill_pre L ng (hist_mode h) rows c ->
      exists c1 c2, fillh A c = (c1, None) /\ fillh (gather idx A) c = (c2, None) /\ same_content c1 c2.
    Proof.
      intros HA HP Har E Hpre.
      assert (Hi : forall i, In i idx -> i < n).
      { intros i Hi. apply (Permutation_in _ HP) in Hi. apply in_seq in Hi. lia. }
      assert (HG := gather_args h A n idx HA Hi Har).
      destruct (mapM_perm _ _ _ _ (Permutation_sym HP) E) as (rows' & E' & P').
      rewrite <- (rows_gather h A n idx) in E'; auto; [|intros s Hs; apply (proj1 HA s Hs)].
      destruct (c15_perm L ng (hist_mode h) rows rows' c P' Hpre) as (c1 & c2 & F1 & F2 & S).
      exists c1, c2. rewrite (fill_is_rows A n rows), (fill_is_rows (gather idx A) (length idx) rows'); auto.
    Qed.
  End Order.
End Chunks.
