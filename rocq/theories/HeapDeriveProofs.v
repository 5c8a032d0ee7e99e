From Coq Require Import String.
From Verif Require Import Base Num Axis Calc Content Fill FillSpec FillMain Tree Order Expr HistAlg HistFillProofs Nd Proj Select Rebin SelMain Heap HeapSpec HeapDerive.
Local Open Scope list_scope.
Local Open Scope nat_scope.

(** at most [n] levels of dicts *)
Fixpoint pdepth (n : nat) (c : pv) : Prop :=
  match c with
  | PDict l => match n with O => False | S m => Forall (fun kv => pdepth m (snd kv)) l end
  | _ => True
  end.
Lemma unembed_depth n : forall c c', pdepth n c -> unembed c = Some c' -> depth_ok n c'.
Proof.
  induction n as [|n IH]; intros [|sh d|l|l] c' D E; cbn [unembed] in E; try (inversion E; exact I); try contradiction; try discriminate.
  cbn [pdepth] in D. destruct (unembed_items unembed l) as [l'|] eqn:E1; [|discriminate]. cbn [option_map] in E. injection E as <-. cbn [depth_ok].
  revert l' E1. induction D as [|[k x] l D1 D2 IHl]; intros l' E1; cbn [unembed_items] in E1; [injection E1 as <-; constructor|]. fold (unembed_items unembed) in E1.
  destruct (unembed x) as [y|] eqn:Ex; [|discriminate]. destruct (unembed_items unembed l) as [t|]; [|discriminate]. injection E1 as <-. constructor; auto. cbn [snd] in *. eapply IH; eauto.
Qed.
Lemma embed_depth L n : forall c, depth_ok n c -> pdepth n (embed L c).
Proof.
  induction n as [|n IH]; intros [|d|l] D; cbn [embed pdepth]; auto. cbn [depth_ok] in D. rewrite Forall_forall in *. intros kv Hkv.
  induction l as [|[k x] l IHl]; [destruct Hkv|]. cbn [embed_items] in Hkv. destruct Hkv as [<-|Hkv].
  - cbn [snd]. apply IH. apply (D (k, x)). left. auto.
  - apply IHl; auto. intros y Hy. apply D. right. auto.
Qed.
Lemma proj_items_depth (f : pv -> res pv) n m l l' : (forall x y, pdepth n x -> f x = Ok y -> pdepth m y) ->
  Forall (fun kv => pdepth n (snd kv)) l -> proj_items f l = Ok l' -> Forall (fun kv => pdepth m (snd kv)) l'.
Proof.
  intros H F. revert l'. induction F as [|[k x] l D F IH]; intros l' E; cbn [proj_items] in E; [injection E as <-; constructor|]. fold (proj_items f) in E.
  apply bind_ok in E. destruct E as (y & E1 & E). apply bind_ok in E. destruct E as (t & E2 & E). injection E as <-. constructor; eauto.
Qed.
Lemma Ok_is {A} (x y : A) : Ok x = Ok y -> x = y.
Proof. congruence. Qed.
Lemma rmap_ok {A B} (f : A -> B) r y : rmap f r = Ok y -> exists x, r = Ok x /\ y = f x.
Proof. destruct r; cbn; [|discriminate]. intros E. injection E as <-. eauto. Qed.

Lemma drop_depth k index n : forall c c', pdepth n c -> dropcontent k index c = Ok c' -> pdepth n c'.
Proof.
  induction n as [|n IH]; intros [|sh d|l|l] c' D E; cbn [dropcontent] in E; try discriminate; try contradiction.
  - destruct (_ && _); [|discriminate]. injection E as <-. exact I.
  - destruct (_ && _); [|discriminate]. injection E as <-. exact I.
  - apply rmap_ok in E. destruct E as (l' & E & ->). cbn [pdepth] in *. eapply proj_items_depth; eauto.
Qed.
Lemma rebin_depth f n : (forall sh d c, f sh d = Ok c -> pdepth 0 c) -> forall c c', pdepth n c -> rebin_content f c = Ok c' -> pdepth n c'.
Proof.
  intros Hf. assert (H0 : forall m sh d c, f sh d = Ok c -> pdepth m c).
  { intros m sh d c E. apply Hf in E. destruct c; destruct m; cbn in *; auto; contradiction. }
  induction n as [|n IH]; intros [|sh d|l|l] c' D E; cbn [rebin_content] in E; try discriminate; try contradiction; eauto.
  apply rmap_ok in E. destruct E as (l' & E & ->). cbn [pdepth] in *. eapply proj_items_depth; eauto.
Qed.
Lemma cut_depth nf s dr n : forall ng p c c', pdepth n c -> cutcontent ng nf p (CutSlice s) dr c = Ok c' -> pdepth n c'.
Proof.
  induction n as [|n IH]; intros [|ng] p [|sh d|l|l] c' D E; cbn [cutcontent] in E; try discriminate; try contradiction; try (injection E as <-; exact I).
  - unfold cut_array in E. destruct (_ <? _); [discriminate|]. destruct (_ && _); [discriminate|]. injection E as <-. exact I.
  - unfold cut_array in E. destruct (_ <? _); [discriminate|]. destruct (_ && _); [discriminate|]. injection E as <-. exact I.
  - destruct p; [discriminate|]. apply rmap_ok in E. destruct E as (l' & E & ->). cbn [pdepth] in *. eapply proj_items_depth; [|exact D|exact E]. intros x y. apply IH.
Qed.
Lemma py_add_depth n a b c : py_add a b = Ok c -> pdepth n c.
Proof.
  unfold py_add. intros E. assert (P : forall r, parr r = Ok c -> pdepth n c).
  { intros r Er. unfold parr in Er. destruct r as [[sh d]|]; cbn in Er; [|discriminate]. injection Er as <-. destruct n; exact I. }
  destruct a as [|sh d|l|l]; destruct b as [|sh' d'|l'|l']; try discriminate; try (injection E as <-; destruct n; exact I);
    apply bind_ok in E; destruct E as (x & _ & E); apply bind_ok in E; destruct E as (y & _ & E); eauto.
Qed.
Lemma addany_depth n : forall a b c, pdepth n a -> pdepth n b -> addany a b = Ok c -> pdepth n c.
Proof.
  induction n as [|n IH]; intros a b c Da Db E.
  - destruct a; destruct b; try contradiction Da; try contradiction Db; cbn [addany] in E; apply (py_add_depth 0 _ _ _ E).
  - destruct a as [|sh d|l|l]; try (eapply py_add_depth; exact E). destruct b as [|sh' d'|m|m]; try (eapply py_add_depth; exact E).
    cbn [addany] in E. apply bind_ok in E. destruct E as (l' & E & E2). injection E2 as <-. cbn [pdepth] in *. apply Forall_app. split.
    + clear - IH Da Db E. revert l' E. induction Da as [|[k x] l D1 D2 IHl]; intros l' E; cbn [any_items] in E; [injection E as <-; constructor|]. fold (any_items addany m) in E.
      apply bind_ok in E. destruct E as (y & E1 & E). apply bind_ok in E. destruct E as (t & E2 & E). injection E as <-. constructor; auto. cbn [snd] in *.
      destruct (assoc k m) as [x'|] eqn:A; [|injection E1 as <-; auto]. eapply IH; [exact D1| |exact E1].
      clear - Db A. induction Db as [|[k' z] m D1 D2 IHm]; cbn [assoc] in A; [discriminate|]. match type of A with (if ?b then _ else _) = _ => destruct b end; [injection A as <-; exact D1|auto].
    + apply Forall_forall. intros kv Hkv. apply filter_In in Hkv. rewrite Forall_forall in Db. apply Db. tauto.
Qed.
Lemma addall_depth n : forall fuel l c, Forall (pdepth n) l -> addall_fuel fuel l = Ok c -> pdepth n c.
Proof.
  induction fuel as [|f IH]; intros l c F E; cbn [addall_fuel] in E; [discriminate|].
  destruct l as [|x [|y [|z l]]]; [discriminate|injection E as <-; destruct n; exact I| |].
  - inversion F as [|? ? F1 F2]; subst. inversion F2; subst. eapply addany_depth; [| |exact E]; auto.
  - apply bind_ok in E. destruct E as (a & Ea & E). apply bind_ok in E. destruct E as (b & Eb & E).
    set (h := length (x :: y :: z :: l) / 2) in *.
    assert (FF : Forall (pdepth n) (firstn h (x :: y :: z :: l)) /\ Forall (pdepth n) (skipn h (x :: y :: z :: l))) by (apply Forall_app; rewrite firstn_skipn; auto).
    destruct FF as (F1 & F2). eapply addany_depth; [eapply IH; [exact F1|exact Ea]|eapply IH; [exact F2|exact Eb]|exact E].
Qed.
Definition ntrue (l : list bool) : nat := length (filter (fun b => b) l).
Lemma proj_depth fixed : forall groups c c', projcontent groups fixed c = Ok c' -> pdepth (ntrue groups) c'.
Proof.
  induction groups as [|g gs IH]; intros c c' E; cbn [projcontent] in E.
  - unfold projarray in E. apply bind_ok in E. destruct E as (a & _ & E). destruct (_ <? _); [discriminate|]. injection E as <-. exact I.
  - destruct c as [|sh d|l|l]; try discriminate. apply bind_ok in E. destruct E as (l' & E1 & E).
    assert (F : Forall (fun kv => pdepth (ntrue gs) (snd kv)) l').
    { clear - IH E1. revert l' E1. induction l as [|[k x] l IHl]; intros l' E1; cbn [proj_items] in E1; [injection E1 as <-; constructor|]. fold (proj_items (projcontent gs fixed)) in E1.
      apply bind_ok in E1. destruct E1 as (y & E2 & E1). apply bind_ok in E1. destruct E1 as (t & E3 & E1). injection E1 as <-. constructor; eauto. }
    unfold ntrue. destruct g; cbn [filter length]; fold (ntrue gs); [injection E as <-; exact F|].
    eapply addall_depth; [|exact E]. apply Forall_map. exact F.
Qed.

(** ** Axes *)
Lemma rebuild_made h axes c : depth_ok (length (filter is_group axes)) c -> well_made (with_content (rebuild h axes) c).
Proof.
  intros D. split; [|exact D]. cbn. repeat split; apply Forall_forall; intros x Hx; apply filter_In in Hx; tauto.
Qed.
Lemma groups_first h : well_made h -> forall rest, Forall (fun a => is_group a = false) rest -> filter is_group (o_group h ++ rest) = o_group h.
Proof.
  intros ((HG & _) & _) rest Hr. rewrite filter_app.
  assert (F1 : filter is_group (o_group h) = o_group h) by (induction HG as [|x l Hx HG IH]; cbn [filter]; auto; rewrite Hx, IH; auto).
  assert (F2 : filter is_group rest = []) by (induction Hr as [|x l Hx Hr IH]; cbn [filter]; auto; rewrite Hx, IH; auto).
  rewrite F1, F2, app_nil_r. auto.
Qed.
Lemma fixed_rest l : Forall (fun a => is_fixed a = true) l -> Forall (fun a => is_group a = false) l.
Proof. apply Forall_impl. intros []; cbn; congruence. Qed.
Lemma prof_rest l : Forall (fun a => is_profile a = true) l -> Forall (fun a => is_group a = false) l.
Proof. apply Forall_impl. intros []; cbn; congruence. Qed.
Lemma Forall_filter' {A} (P : A -> Prop) q l : Forall P l -> Forall P (filter q l).
Proof. rewrite !Forall_forall. intros H x Hx. apply filter_In in Hx. apply H. tauto. Qed.
Lemma unview_made h axes c c' : depth_ok (length (filter is_group axes)) c -> unembed c' = Some c -> well_made (with_content (rebuild h axes) c).
Proof. intros D _. apply rebuild_made. exact D. Qed.
Lemma unview_ok r g : unview r = Ok g -> exists h c, r = Ok h /\ unembed (p_content h) = Some c /\ g = with_content (p_head h) c.
Proof.
  unfold unview. intros E. apply bind_ok in E. destruct E as (h & -> & E). destruct (unembed (p_content h)) as [c|] eqn:U; [|discriminate]. injection E as <-. eauto.
Qed.
Lemma p_depth h : well_made h -> pdepth (length (o_group h)) (p_content (Proj.view h)).
Proof. intros (_ & D). apply embed_depth. exact D. Qed.
Lemma pnone_depth n c : unembed PNone = Some c -> depth_ok n c.
Proof. intros E. injection E as <-. destruct n; exact I. Qed.
Lemma filter_map_length {A} (p : A -> bool) l : ntrue (map p l) = length (filter p l).
Proof. unfold ntrue. induction l as [|x l IH]; cbn [map filter]; auto. destruct (p x); cbn [length]; auto. Qed.

Theorem project_deriver axes : is_deriver (project_value axes).
Proof.
  intros h g W E. apply unview_ok in E. destruct E as (p & c & E & U & ->). unfold project in E. cbn [p_head Proj.view] in E.
  change (o_group (with_content h CNone)) with (o_group h) in E. change (o_fixed (with_content h CNone)) with (o_fixed h) in E. change (o_prof (with_content h CNone)) with (o_prof h) in E.
  destruct (negb _); [discriminate|].
  assert (G : filter is_group (filter (fun x => axis_in x axes) (o_group h ++ o_fixed h) ++ o_prof h) = filter (fun x => axis_in x axes) (o_group h)).
  { destruct W as ((HG & HF & HP) & _). rewrite !filter_app.
    assert (F0 : forall l, Forall (fun a => is_group a = false) l -> filter is_group l = []) by (induction 1 as [|x l Hx Hr IH]; cbn [filter]; auto; rewrite Hx, IH; auto).
    rewrite (F0 (o_prof h)), (F0 (filter _ (o_fixed h))), !app_nil_r by auto using prof_rest, Forall_filter', fixed_rest.
    clear - HG. induction HG as [|x l Hx HG IH]; cbn [filter]; auto. destruct (axis_in x axes); cbn [filter]; rewrite ?Hx, IH; auto. }
  destruct (p_content (Proj.view h)) as [|sh d|l|l] eqn:P.
  - injection E as <-. cbn [p_head p_content] in *. apply rebuild_made. apply pnone_depth. exact U.
  - apply bind_ok in E. destruct E as (c' & E1 & E). injection E as <-. cbn [p_head p_content] in *. apply rebuild_made. rewrite G. eapply unembed_depth; [|exact U]. rewrite <- filter_map_length. eapply proj_depth; eauto.
  - apply bind_ok in E. destruct E as (c' & E1 & E). injection E as <-. cbn [p_head p_content] in *. apply rebuild_made. rewrite G. eapply unembed_depth; [|exact U]. rewrite <- filter_map_length. eapply proj_depth; eauto.
  - apply bind_ok in E. destruct E as (c' & E1 & E). injection E as <-. cbn [p_head p_content] in *. apply rebuild_made. rewrite G. eapply unembed_depth; [|exact U]. rewrite <- filter_map_length. eapply proj_depth; eauto.
Qed.
Theorem drop_deriver profile : is_deriver (drop_value profile).
Proof.
  intros h g W E. apply unview_ok in E. destruct E as (p & c & E & U & ->). unfold drop in E. cbn [p_head Proj.view] in E.
  change (o_group (with_content h CNone)) with (o_group h) in E. change (o_fixed (with_content h CNone)) with (o_fixed h) in E. change (o_prof (with_content h CNone)) with (o_prof h) in E.
  destruct profile as [|x0 pr]; [discriminate|]. destruct (negb _); [discriminate|].
  assert (G : filter is_group (o_group h ++ o_fixed h ++ filter (fun x => negb (axis_in x (x0 :: pr))) (o_prof h)) = o_group h).
  { apply groups_first; auto. destruct W as ((HG & HF & HP) & _). apply Forall_app. split; [apply fixed_rest; auto|apply Forall_filter', prof_rest; auto]. }
  assert (D := p_depth h W).
  destruct (p_content (Proj.view h)) as [|sh d|l|l] eqn:P; [injection E as <-; apply rebuild_made, pnone_depth; exact U|..];
    apply bind_ok in E; destruct E as (c' & E1 & E); apply Ok_is in E; subst p; cbn [p_head p_content] in *; apply rebuild_made; rewrite G; (eapply unembed_depth; [|exact U]); eapply drop_depth; eauto.
Qed.
Lemma at_axis_group y l : is_group y = false -> forall q, Forall (fun a => is_group a = false) l -> Forall (fun a => is_group a = false) (SelSpec.at_axis q (fun _ => y) l).
Proof. intros Hy q Hl. apply Forall_at_axis; auto. Qed.
Theorem select_deriver q a s dn : is_deriver (select_value q a s dn).
Proof.
  intros h g W E. unfold select_value in E. destruct (is_fixed a) eqn:Fa; [|discriminate]. apply unview_ok in E. destruct E as (p & c & E & U & ->). unfold select_axis in E. cbn [p_head Proj.view] in E.
  change (o_group (with_content h CNone)) with (o_group h) in E. change (o_fixed (with_content h CNone)) with (o_fixed h) in E. change (o_prof (with_content h CNone)) with (o_prof h) in E.
  unfold ngroups in E. rewrite replace_nth_at, at_axis_app2, <- app_assoc in E.
  set (axes := o_group h ++ SelSpec.at_axis q (fun _ => a) (o_fixed h) ++ o_prof h) in *.
  assert (Ga : is_group a = false) by (destruct a; cbn in *; congruence).
  assert (G0 : filter is_group axes = o_group h).
  { apply groups_first; auto. destruct W as ((HG & HF & HP) & _). apply Forall_app. split; [apply at_axis_group; auto; apply fixed_rest; auto|apply prof_rest; auto]. }
  assert (G : filter is_group (if dn then filter (fun a0 => negb (is_null a0)) axes else axes) = o_group h).
  { destruct dn; auto. rewrite <- G0. clear. induction axes as [|x l IH]; cbn [filter]; auto. destruct x; cbn [is_null negb is_group filter]; rewrite ?IH; auto. }
  assert (D := p_depth h W).
  destruct (p_content (Proj.view h)) as [|sh d|l|l] eqn:P; [injection E as <-; apply rebuild_made, pnone_depth; exact U|..];
    apply bind_ok in E; destruct E as (c' & E1 & E); injection E as <-; cbn [p_head p_content] in *; apply rebuild_made; rewrite G; (eapply unembed_depth; [|exact U]); eapply cut_depth; eauto.
Qed.
Lemma find_axis_is ok l : forall i p x, find_axis ok i l = Some (p, x) -> exists j, p = i + j /\ nth_error l j = Some x /\ ok x = true.
Proof.
  induction l as [|y l IH]; intros i p x E; cbn [find_axis] in E; [discriminate|]. destruct (ok y) eqn:O.
  - injection E as <- <-. exists 0. repeat split; auto; lia.
  - apply IH in E. destruct E as (j & -> & N & Ox). exists (S j). repeat split; auto; lia.
Qed.
Lemma find_arg_is parse ok arg l p x : find_arg parse ok arg l = Some (p, x) -> nth_error l p = Some x /\ ok x = true.
Proof.
  unfold find_arg. destruct arg as [a|e].
  - intros E. apply find_axis_is in E. destruct E as (j & -> & N & O). apply andb_prop in O. tauto.
  - destruct (find_axis (fun x => ok x && expr_same e (parse (axis_expr x))) 0 l) as [[? a]|]; [|discriminate]. intros E. apply find_axis_is in E. destruct E as (j & -> & N & O). apply andb_prop in O. tauto.
Qed.
Theorem rebin_deriver parse arg edges : is_deriver (rebin_value parse arg edges).
Proof.
  intros h g W E. apply unview_ok in E. destruct E as (p & c & E & U & ->). unfold rebin in E. cbn [p_head Proj.view] in E.
  change (o_group (with_content h CNone)) with (o_group h) in E. change (o_fixed (with_content h CNone)) with (o_fixed h) in E. change (o_prof (with_content h CNone)) with (o_prof h) in E.
  destruct (find_arg parse has_rebin arg (o_group h ++ o_fixed h)) as [[i x]|] eqn:F; [|discriminate]. apply find_arg_is in F. destruct F as (N & R).
  apply bind_ok in E. destruct E as ((a' & c') & E1 & E). injection E as <-. cbn [p_head p_content fst snd] in *.
  assert (Gx : is_group x = false) by (destruct x; cbn in *; congruence).
  assert (Ki : length (o_group h) <= i).
  { destruct (Nat.le_gt_cases (length (o_group h)) i) as [L|L]; auto. rewrite nth_error_app1 in N by exact L. apply nth_error_In in N.
    destruct W as ((HG & _) & _). rewrite Forall_forall in HG. rewrite (HG _ N) in Gx. discriminate. }
  assert (K : is_group a' = false /\ pdepth (length (o_group h)) c').
  { assert (D := p_depth h W). unfold rebinsplit in E1. apply bind_ok in E1. destruct E1 as (s & E1 & E2). destruct s as [| | | |e es u o nf cl| | |]; try discriminate.
    destruct (forallb _ _); [|discriminate]. apply bind_ok in E2. destruct E2 as (s & E3 & E2).
    assert (Gs : is_group s = false).
    { unfold mk_split in E3. repeat match type of E3 with context [if ?b then _ else _] => destruct b end; try discriminate; repeat (apply bind_ok in E3; destruct E3 as (? & _ & E3)); injection E3 as <-; reflexivity. }
    destruct (p_content (Proj.view h)) as [|sh d|l|l] eqn:P.
    - assert (E2' : Ok (s, PNone) = Ok (a', c')) by (destruct s; exact E2). injection E2' as <- <-. split; [exact Gs|]. destruct (length (o_group h)); exact I.
    - destruct s; try discriminate. apply bind_ok in E2. destruct E2 as (c2 & E4 & E2). injection E2 as <- <-. split; [exact Gs|]. eapply rebin_depth; [|exact D|exact E4].
      intros sh0 d0 c0 E0. unfold rebin_array in E0. destruct (_ <=? _); [discriminate|]. apply bind_ok in E0. destruct E0 as (? & _ & E0). injection E0 as <-. exact I.
    - destruct s; try discriminate. apply bind_ok in E2. destruct E2 as (c2 & E4 & E2). injection E2 as <- <-. split; [exact Gs|]. eapply rebin_depth; [|exact D|exact E4].
      intros sh0 d0 c0 E0. unfold rebin_array in E0. destruct (_ <=? _); [discriminate|]. apply bind_ok in E0. destruct E0 as (? & _ & E0). injection E0 as <-. exact I.
    - destruct s; discriminate. }
  destruct K as (Ga & D). apply rebuild_made.
  replace (filter is_group (replace_nth i a' (o_group h ++ o_fixed h ++ o_prof h))) with (o_group h); [eapply unembed_depth; eauto|].
  rewrite replace_nth_at. replace i with (length (o_group h) + (i - length (o_group h))) by lia. rewrite at_axis_app2. symmetry. apply groups_first; auto.
  destruct W as ((HG & HF & HP) & _). apply at_axis_group; auto. apply Forall_app. split; [apply fixed_rest; auto|apply prof_rest; auto].
Qed.
Lemma keep_groups_is : keep_groups = cfilter.
Proof. reflexivity. Qed.
