(** Round trips. *)
From Coq Require Import String Sorted.
From Verif Require Import Base Num NumFacts Axis AxisSpec Calc Content Fill FillSpec FillProofs FillProofs2 FillProofs3 FillMain HistAlg HistAlgProofs HistAlgMain Json.
Local Open Scope string_scope.
Local Open Scope list_scope.

(** ** Axes that a constructor returned *)
Inductive built : axis -> Prop :=
| built_groupby e : built (AGroupby e)
| built_groupbin e w o nf cl a : mk_groupbin e w o nf cl = Ok a -> built a
| built_bin e n low high u o nf cl a : mk_bin e n low high u o nf cl = Ok a -> built a
| built_intbin e mn mx u o a : mk_intbin e mn mx u o = Ok a -> built a
| built_split e es u o nf cl a : Forall (fun x => isnan x = false) es -> mk_split e es u o nf cl = Ok a -> built a
| built_cut e : built (ACut e)
| built_profile e : built (AProfile e).

(** sorting a sorted list of distinct numbers *)
Definition increasing (l : list Num) : Prop := StronglySorted (fun x y => nltb y x = false) l.
Lemma insert_in x l z : In z (insert_num x l) <-> z = x \/ In z l.
Proof. induction l as [|w l IH]; cbn [insert_num In]; [intuition|]. destruct (nltb x w); cbn [In]; rewrite ?IH; intuition. Qed.
Lemma insert_sorted x l : Forall (fun y => isnan y = false) (x :: l) -> increasing l -> increasing (insert_num x l).
Proof.
  intros Hn. induction 1 as [|y l Hs IH Hy]; cbn [insert_num]; [repeat constructor|].
  inversion Hn as [|? ? Hx Hn']; subst. inversion Hn' as [|? ? Hy' Hl]; subst.
  destruct (nltb x y) eqn:E.
  - constructor; [constructor; auto|]. constructor; [apply nltb_asym; auto|].
    rewrite Forall_forall in *. intros z Hz. specialize (Hy z Hz). specialize (Hl z Hz).
    destruct (nltb z x) eqn:E'; auto. assert (nltb z y = true) by (eapply nltb_trans; eauto). congruence.
  - constructor; [apply IH; constructor; auto|]. rewrite Forall_forall in *. intros z Hz.
    apply insert_in in Hz. destruct Hz as [->|Hin]; auto.
Qed.
Lemma insert_min x l : Forall (fun y => nltb y x = false) l -> isnan x = false -> Forall (fun y => isnan y = false) l ->
  has_dup (x :: l) = false -> insert_num x l = x :: l.
Proof.
  intros H Hx Hn D. destruct l as [|y l]; auto. cbn [insert_num]. inversion H; subst. inversion Hn; subst.
  cbn [has_dup existsb] in D. apply orb_false_iff in D. destruct D as (D & _). apply orb_false_iff in D. destruct D as (D & _).
  destruct (ntrichotomy x y) as [G|[G|G]]; auto; [rewrite G; auto|subst; rewrite neqb_refl in D; congruence|congruence].
Qed.
Lemma sort_sorted l : increasing l -> Forall (fun y => isnan y = false) l -> has_dup l = false -> sort_num l = l.
Proof.
  induction 1 as [|x l Hs IH Hx]; intros Hn D; auto. inversion Hn; subst. cbn [sort_num fold_right].
  fold (sort_num l). rewrite IH; auto; [apply insert_min; auto|]. cbn [has_dup] in D. apply orb_false_iff in D. tauto.
Qed.
Lemma sort_in l z : In z (sort_num l) <-> In z l.
Proof. induction l; cbn [sort_num fold_right In]; [tauto|]. fold (sort_num l). rewrite insert_in, IHl. intuition. Qed.
Lemma sort_notnan l : Forall (fun y => isnan y = false) l -> Forall (fun y => isnan y = false) (sort_num l).
Proof. rewrite !Forall_forall. intros H x Hx. apply H. apply (proj1 (sort_in l x)). auto. Qed.
Lemma sort_increasing l : Forall (fun y => isnan y = false) l -> increasing (sort_num l).
Proof.
  induction 1; cbn [sort_num fold_right]; [constructor|]. fold (sort_num l). apply insert_sorted; auto.
  constructor; auto. apply sort_notnan; auto.
Qed.
Lemma mk_split_idem e es u o nf cl es' : Forall (fun x => isnan x = false) es ->
  mk_split e es u o nf cl = Ok (ASplit e es' u o nf cl) -> mk_split e es' u o nf cl = Ok (ASplit e es' u o nf cl).
Proof.
  intros Hn H. unfold mk_split in H. destruct es as [|x es]; [discriminate|].
  destruct (has_dup (sort_num (x :: es))) eqn:D; [discriminate|].
  destruct (Nat.eqb _ 0) eqn:T; [discriminate|]. assert (He : es' = sort_num (x :: es)) by congruence. clear H. subst es'.
  unfold mk_split. assert (S := sort_sorted _ (sort_increasing _ Hn) (sort_notnan _ Hn) D).
  destruct (sort_num (x :: es)) as [|y s] eqn:E.
  - exfalso. assert (In x []) as []. rewrite <- E. apply sort_in. left; auto.
  - rewrite S, D, T. reflexivity.
Qed.

Lemma mk_split_shape e es u o nf cl a : mk_split e es u o nf cl = Ok a -> exists es', a = ASplit e es' u o nf cl.
Proof.
  unfold mk_split. destruct es; [discriminate|]. destruct (has_dup _); [discriminate|].
  destruct (Nat.eqb _ 0); [discriminate|]. intros H; injection H as <-. eauto.
Qed.
Lemma mapM_reals es : mapM j_real (map JNum es) = Ok es.
Proof. induction es; cbn [map mapM j_real bind]; auto. rewrite IHes. reflexivity. Qed.

Lemma axis_json_roundtrip a : built a -> exists j, axis_tojson a = Ok j /\ axis_fromjson j = Ok a.
Proof.
  intros H. inversion H as [e|e w o nf cl b E|e n low high u o nf cl b E|e mn mx u o b E|e es u o nf cl b Hn E|e|e]; subst.
  - eexists. split; reflexivity.
  - assert (E' := E). unfold mk_groupbin in E'. destruct (nleb w nzero) eqn:Ew; [discriminate|]. injection E' as <-.
    eexists. split; [reflexivity|]. exact E.
  - assert (E' := E). unfold mk_bin in E'. destruct (_ || _); [discriminate|]. destruct (Nat.eqb _ 0); [discriminate|]. injection E' as <-.
    eexists. split; [reflexivity|].
    cbn -[mk_bin Z.of_nat Z.to_nat Z.ltb]. destruct (Z.ltb_spec (Z.of_nat n) 0); [lia|]. cbn [bind]. rewrite Nat2Z.id. exact E.
  - assert (E' := E). unfold mk_intbin in E'. destruct (mx <? mn)%Z eqn:Em; [discriminate|]. injection E' as <-.
    eexists. split; [reflexivity|]. exact E.
  - destruct (mk_split_shape _ _ _ _ _ _ _ E) as (es' & ->). eexists. split; [reflexivity|].
    cbn -[mk_split mapM]. rewrite mapM_reals. cbn [bind]. apply (mk_split_idem _ es); auto.
  - eexists. split; reflexivity.
  - eexists. split; reflexivity.
Qed.
Lemma axis_pack_roundtrip a : built a -> exists p, axis_pack a = Ok p /\ axis_unpack p = Ok a.
Proof.
  intros H. inversion H as [e|e w o nf cl b E|e n low high u o nf cl b E|e mn mx u o b E|e es u o nf cl b Hn E|e|e]; subst;
    try (eexists; split; reflexivity).
  - assert (E' := E). unfold mk_groupbin in E'. destruct (nleb w nzero) eqn:Ew; [discriminate|]. injection E' as <-.
    eexists. split; [reflexivity|]. exact E.
  - assert (E' := E). unfold mk_bin in E'. destruct (_ || _); [discriminate|]. destruct (Nat.eqb _ 0); [discriminate|]. injection E' as <-.
    eexists. split; [reflexivity|]. exact E.
  - assert (E' := E). unfold mk_intbin in E'. destruct (mx <? mn)%Z eqn:Em; [discriminate|]. injection E' as <-.
    eexists. split; [reflexivity|]. exact E.
  - destruct (mk_split_shape _ _ _ _ _ _ _ E) as (es' & ->). eexists. split; [reflexivity|]. apply (mk_split_idem _ es); auto.
Qed.

(** ** Contents *)
Lemma skipn_add {A} (k n : nat) (l : list A) : skipn k (skipn n l) = skipn (k + n) l.
Proof. revert l. induction n; intros l; [rewrite Nat.add_0_r; auto|]. rewrite Nat.add_succ_r. destruct l; [rewrite !skipn_nil; auto|]. cbn [skipn]. apply IHn. Qed.
Lemma flatten_nest shape : forall d, length d = fold_right Nat.mul 1 shape -> flatten (nest shape d) = d.
Proof.
  induction shape as [|t ts IH]; intros d Hd; cbn [fold_right nest flatten] in *.
  - destruct d as [|x [|y d]]; cbn [length] in Hd; try lia. reflexivity.
  - remember (fold_right Nat.mul 1 ts) as k eqn:Ek.
    assert (G : forall n s, length (skipn (s * k) d) = n * k ->
      flat_map flatten (map (fun i => nest ts (firstn k (skipn (i * k) d))) (seq s n)) = skipn (s * k) d).
    { induction n as [|n IHn]; intros s Hs; cbn [seq map flat_map].
      - apply length_zero_iff_nil in Hs. auto.
      - rewrite IH by (rewrite firstn_length, Hs; lia). rewrite IHn.
        + replace (S s * k) with (k + s * k) by lia. rewrite <- skipn_add. apply firstn_skipn.
        + rewrite skipn_length in *. lia. }
    apply (G t 0). cbn [Nat.mul skipn]. auto.
Qed.

Lemma prod_snoc ts k : fold_right Nat.mul 1 (ts ++ [k]) = fold_right Nat.mul 1 ts * k.
Proof. induction ts; cbn [app fold_right]; [lia|]. rewrite IHts. lia. Qed.
Lemma nest_list ts k d : exists l, nest (ts ++ [k]) d = JList l.
Proof. destruct ts; cbn [app nest]; eauto. Qed.
Lemma content_json_roundtrip L n : forall c, content_ok L n c ->
  exists j, content_tojson (l_tots L ++ [l_last L]) c = Ok j /\ content_fromjson j = c.
Proof.
  induction n as [|n IH]; intros c Hc; destruct c as [|d|l]; try contradiction; cbn [content_ok] in Hc.
  - cbn [content_tojson]. eexists. split; [reflexivity|].
    assert (F : flatten (nest (l_tots L ++ [l_last L]) d) = d) by (apply flatten_nest; rewrite prod_snoc; exact Hc).
    destruct (nest_list (l_tots L) (l_last L) d) as (l & El). rewrite El in *. cbn [content_fromjson]. congruence.
  - destruct Hc as (Fl & _). cbn [content_tojson].
    assert (exists l', json_items (content_tojson (l_tots L ++ [l_last L])) l = Ok l' /\
              map (fun kv => (fst kv, content_fromjson (snd kv))) l' = l) as (l' & E & E').
    { induction Fl as [|[k x] l Hx Fl IHl]; [exists []; auto|]. destruct IHl as (l' & E & E').
      destruct (IH x Hx) as (j & Ej & Ej'). exists ((k, j) :: l'). cbn [json_items].
      fold (json_items (content_tojson (l_tots L ++ [l_last L])) l). rewrite Ej, E. cbn [bind map fst snd]. rewrite Ej', E'. auto. }
    rewrite E. cbn [rmap bind]. eexists. split; [reflexivity|]. cbn [content_fromjson]. congruence.
Qed.

(** ** Histograms *)
Lemma mapM_roundtrip {A B C} (f : A -> res B) (g : B -> res C) (inj : A -> C) l :
  (forall a, In a l -> exists b, f a = Ok b /\ g b = Ok (inj a)) ->
  exists bs, mapM f l = Ok bs /\ mapM g bs = Ok (map inj l).
Proof.
  induction l as [|a l IH]; intros H; [exists []; auto|].
  destruct (H a) as (b & E1 & E2); [left; auto|]. destruct IH as (bs & F1 & F2); [intros; apply H; right; auto|].
  exists (b :: bs). cbn [mapM map]. rewrite E1, F1. cbn [bind mapM]. rewrite E2, F2. auto.
Qed.
Lemma wsrc_roundtrip w : wsrc_fromjson (wsrc_tojson w) = Some w.
Proof. destruct w; reflexivity. Qed.
Lemma defs_roundtrip d : j_dict wsrc_fromjson (obj (map (fun kv => (fst kv, wsrc_tojson (snd kv))) d)) = d.
Proof.
  cbn [j_dict obj]. induction d as [|[k v] d IH]; cbn [map flat_map fst snd]; auto. rewrite wsrc_roundtrip, IH. reflexivity.
Qed.
Lemma strings_roundtrip d : j_dict j_string (strings d) = d.
Proof.
  cbn [j_dict obj strings]. unfold strings, obj. cbn [j_dict]. induction d as [|[k v] d IH]; cbn [map flat_map fst snd j_string app]; auto. rewrite IH. reflexivity.
Qed.

Section Hist.
  Variable axis_check : list (string * wsrc) -> string -> option err.
  Variable weight_check : list (string * wsrc) -> option wsrc -> option wsrc -> option err.
  Notation mk := (mk_hist axis_check weight_check).

  (** The histogram came out of the constructor, and its content fits its axes. *)
  Definition constructed (h : hobj) : Prop :=
    (exists axes, Forall built axes /\ mk axes (o_weight h) (o_filter h) (o_defs h) (o_attach h) = Ok (with_content h CNone)) /\
    hist_ok (o_layout h) (length (o_group h)) (o_content h).

  Lemma filter_nil {A} (p : A -> bool) l : Forall (fun x => p x = false) l -> filter p l = [].
  Proof. induction 1; cbn [filter]; auto. rewrite H. auto. Qed.
  Lemma filter_id {A} (p : A -> bool) l : Forall (fun x => p x = true) l -> filter p l = l.
  Proof. induction 1; cbn [filter]; auto. rewrite H. congruence. Qed.
  Lemma filter_forall {A} (p : A -> bool) l : Forall (fun x => p x = true) (filter p l).
  Proof. apply Forall_forall. intros x H. apply filter_In in H. tauto. Qed.
  Lemma kinds_exclusive a :
    (is_group a = true -> is_fixed a = false /\ is_profile a = false) /\
    (is_fixed a = true -> is_group a = false /\ is_profile a = false) /\
    (is_profile a = true -> is_group a = false /\ is_fixed a = false).
  Proof. destruct a; cbn; intuition discriminate. Qed.
  Lemma sorted_axes axes : let l := filter is_group axes ++ filter is_fixed axes ++ filter is_profile axes in
    filter is_group l = filter is_group axes /\ filter is_fixed l = filter is_fixed axes /\ filter is_profile l = filter is_profile axes.
  Proof.
    intros l. unfold l. rewrite !filter_app.
    assert (G := filter_forall is_group axes). assert (F := filter_forall is_fixed axes). assert (P := filter_forall is_profile axes).
    assert (K : forall (p q : axis -> bool) (Hpq : forall a, q a = true -> p a = false) l, Forall (fun x => q x = true) l -> filter p l = []).
    { intros p q Hpq l0 H. apply filter_nil. eapply Forall_impl; [|exact H]. auto. }
    rewrite (filter_id is_group (filter is_group axes)), (filter_id is_fixed (filter is_fixed axes)), (filter_id is_profile (filter is_profile axes)) by auto.
    rewrite (K is_group is_fixed) with (l := filter is_fixed axes), (K is_group is_profile) with (l := filter is_profile axes) by (auto; intros a Ha; destruct a; cbn in *; congruence).
    rewrite (K is_fixed is_group) with (l := filter is_group axes), (K is_fixed is_profile) with (l := filter is_profile axes) by (auto; intros a Ha; destruct a; cbn in *; congruence).
    rewrite (K is_profile is_group) with (l := filter is_group axes), (K is_profile is_fixed) with (l := filter is_fixed axes) by (auto; intros a Ha; destruct a; cbn in *; congruence).
    rewrite ?app_nil_r. auto.
  Qed.
  Lemma check_axes_forall defs axes : check_axes axis_check defs axes = None <->
    Forall (fun a => a = ANull \/ axis_check defs (axis_expr a) = None) axes.
  Proof.
    induction axes as [|a l IH]; cbn [check_axes]; [split; auto|].
    assert (S : a = ANull \/ a <> ANull) by (destruct a; auto; right; discriminate).
    destruct S as [->|Hn].
    - rewrite IH. split; [constructor; auto|intros H; inversion H; auto].
    - assert (E : check_axes axis_check defs (a :: l) = match axis_check defs (axis_expr a) with Some e => Some e | None => check_axes axis_check defs l end)
        by (destruct a; auto; congruence).
      cbn [check_axes] in E. rewrite E. destruct (axis_check defs (axis_expr a)) eqn:Ea.
      + split; [discriminate|]. intros H. inversion H as [|? ? [?|?] _]; congruence.
      + rewrite IH. split; [constructor; auto|intros H; inversion H; auto].
  Qed.

  (** Building again from the sorted axes gives the same histogram. *)
  Lemma rebuild h : constructed h ->
    Forall built (o_axes h) /\ mk (o_axes h) (o_weight h) (o_filter h) (o_defs h) (o_attach h) = Ok (with_content h CNone).
  Proof.
    intros ((axes & B & E) & _). unfold mk_hist in *.
    destruct (check_axes axis_check (o_defs h) axes) eqn:C; [discriminate|].
    destruct (weight_check _ _ _) eqn:W; [discriminate|]. injection E as E1 E2 E3.
    assert (O : o_axes h = filter is_group axes ++ filter is_fixed axes ++ filter is_profile axes) by (unfold o_axes; congruence).
    assert (Sub : forall (P : axis -> Prop), Forall P axes -> Forall P (o_axes h)).
    { intros P H. rewrite O, !Forall_app. repeat split; apply forall_app_filter; auto. }
    split; [auto|].
    assert (C' : check_axes axis_check (o_defs h) (o_axes h) = None).
    { apply check_axes_forall. apply Sub. apply check_axes_forall. auto. }
    rewrite C', O. destruct (sorted_axes axes) as (S1 & S2 & S3). cbv zeta in *. rewrite S1, S2, S3, E1, E2, E3. destruct h; reflexivity.
  Qed.
  Lemma with_content_same h : with_content (with_content h CNone) (o_content h) = h.
  Proof. destruct h; reflexivity. Qed.

  Lemma hist_json_roundtrip h : constructed h ->
    exists j, hist_tojson h = Ok j /\ hist_fromjson axis_check weight_check j = Ok h.
  Proof.
    intros H. destruct (rebuild h H) as (B & M). destruct H as (_ & Hc).
    destruct (mapM_roundtrip axis_tojson axis_fromjson (fun a => a) (o_axes h)) as (js & E1 & E2).
    { intros a Ha. rewrite Forall_forall in B. destruct (axis_json_roundtrip a (B a Ha)) as (j & ? & ?). eauto. }
    rewrite map_id in E2. unfold hist_tojson. rewrite E1. cbn [bind].
    set (shape := (l_tots (o_layout h) ++ [l_last (o_layout h)])) in *.
    assert (exists cj, (match o_content h with CNone => Ok [] | c => do j <- content_tojson shape c; Ok [("content", j)] end) = Ok cj /\
       ((cj = [] /\ o_content h = CNone) \/ exists j, cj = [("content", j)] /\ content_fromjson j = o_content h)) as (cj & E3 & E4).
    { destruct Hc as [->|Hc]; [exists []; auto|]. destruct (content_json_roundtrip _ _ _ Hc) as (j & Ej & Ej').
      exists [("content", j)]. fold shape in Ej. split; [|right; eauto].
      destruct (o_content h); [destruct (length (o_group h)); contradiction| |]; rewrite Ej; reflexivity. }
    rewrite E3. cbn [bind]. eexists. split; [reflexivity|].
    unfold hist_fromjson.
    assert (D := defs_roundtrip (o_defs h)). assert (A := strings_roundtrip (o_attach h)).
    assert (X : forall j, jfind "content" j = match o_content h with CNone => JNull | _ => jfind "content" j end -> True) by auto. clear X.
    match goal with |- context[obj ?l] => set (j := obj l) end.
    assert (J1 : jget "type" j = Ok (JStr "Hist")) by reflexivity.
    assert (J2 : jget "axis" j = Ok (JList js)) by reflexivity.
    assert (J3 : wsrc_fromjson (jfind "weight" j) = o_weight h).
    { unfold j. destruct (o_weight h), (o_filter h), (o_defs h), (o_attach h), E4 as [(-> & _)|(? & -> & _)]; cbn; rewrite ?wsrc_roundtrip; reflexivity. }
    assert (J4 : wsrc_fromjson (jfind "filter" j) = o_filter h).
    { unfold j. destruct (o_weight h), (o_filter h), (o_defs h), (o_attach h), E4 as [(-> & _)|(? & -> & _)]; cbn; rewrite ?wsrc_roundtrip; reflexivity. }
    assert (J5 : j_dict wsrc_fromjson (jfind "defs" j) = o_defs h).
    { etransitivity; [|exact D]. unfold j. destruct (o_weight h), (o_filter h), (o_defs h), (o_attach h), E4 as [(-> & _)|(? & -> & _)]; reflexivity. }
    assert (J6 : j_dict j_string (jfind "attachment" j) = o_attach h).
    { etransitivity; [|exact A]. unfold j. destruct (o_weight h), (o_filter h), (o_defs h), (o_attach h), E4 as [(-> & _)|(? & -> & _)]; reflexivity. }
    assert (J7 : content_fromjson (jfind "content" j) = o_content h).
    { unfold j. destruct (o_weight h), (o_filter h), (o_defs h), (o_attach h), E4 as [(-> & Ec)|(? & -> & Ec)]; cbn -[content_fromjson]; rewrite ?Ec; reflexivity. }
    rewrite J1, J2. cbn [bind j_str String.eqb negb]. change (String.eqb "Hist" "Hist") with true. cbn [negb].
    rewrite E2. cbn [bind]. rewrite J3, J4, J5, J6, M. cbn [bind]. rewrite J7, with_content_same. reflexivity.
  Qed.

  Lemma hist_pickle_roundtrip h : constructed h ->
    exists s, hist_getstate h = Ok s /\ hist_setstate axis_check weight_check s = Ok h.
  Proof.
    intros H. destruct (rebuild h H) as (B & M).
    destruct (mapM_roundtrip axis_pack axis_unpack (fun a => a) (o_axes h)) as (ps & E1 & E2).
    { intros a Ha. rewrite Forall_forall in B. destruct (axis_pack_roundtrip a (B a Ha)) as (j & ? & ?). eauto. }
    rewrite map_id in E2. unfold hist_getstate. rewrite E1. cbn [bind]. eexists. split; [reflexivity|].
    unfold hist_setstate. cbn [p_axes p_weight p_filter p_defs p_content p_attach]. rewrite E2. cbn [bind].
    replace (or_empty (match o_defs h with [] => None | d => Some d end)) with (o_defs h) by (destruct (o_defs h); auto).
    replace (or_empty (match o_attach h with [] => None | d => Some d end)) with (o_attach h) by (destruct (o_attach h); auto).
    rewrite M. cbn [bind]. rewrite with_content_same. reflexivity.
  Qed.
End Hist.
