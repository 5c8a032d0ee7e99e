(** Lemmas about histogram arithmetic with any arithmetic, and about sums in any order. *)
From Coq Require Import String Permutation Qabs Lqa.
From Verif Require Import Base Num NumFacts Axis Calc Content Fill FillSpec FillProofs FillProofs2 FillProofs3 FillMain FillR FillRSpec FillRProofs RoundProofs FillRMain
  HistAlg AlgSpec HistAlgProofs HistAlgMain Nd Proj ProjSpec AlgR.
Local Open Scope list_scope.

Section Any.
Variables add mul : Num -> Num -> Num.
(** ** What + does to the blocks *)
Definition joinR (x y : option (list Num)) : option (list Num) :=
  match x, y with
  | Some d, Some e => Some (map2 add d e)
  | Some d, None => Some d
  | None, y => y
  end.
Lemma arr_add_sameR k d e : length d = length e -> arr_addR add k k d e = Ok (map2 add d e).
Proof. intros H. unfold arr_addR, arr_zipR. rewrite !Nat.eqb_refl, H, Nat.eqb_refl. reflexivity. Qed.
Lemma arr_iadd_sameR k d e : length d = length e -> arr_iaddR add k k d e = Ok (map2 add d e).
Proof. intros H. unfold arr_iaddR, arr_zipR. rewrite !Nat.eqb_refl, H, Nat.eqb_refl. reflexivity. Qed.

Lemma content_add_okR L k n : forall a b, content_ok L n a -> content_ok L n b ->
  exists c, content_addR add k k a b = Ok c /\ content_ok L n c /\
    forall ks, block c ks = joinR (block a ks) (block b ks).
Proof.
  induction n as [|n IH]; intros a b Ha Hb; destruct a as [|d|l], b as [|e|m]; try contradiction; cbn [content_ok] in *.
  - cbn [content_addR]. rewrite arr_add_sameR by congruence. cbn [rmap bind]. eexists. split; [reflexivity|].
    split; [rewrite map2_length; congruence|]. intros [|? ?]; reflexivity.
  - destruct Ha as (Fl & Nl & Kl), Hb as (Fm & Nm & Km). cbn [content_addR].
    destruct (add_items_ok (content_addR add k k) m (content_ok L n) l Fl Fm) as (l' & E & F).
    { intros x x' _ Hx Hx'. destruct (IH x x' Hx Hx') as (y & Ey & _). eauto. }
    rewrite E. cbn [bind]. eexists. split; [reflexivity|].
    assert (Ek := forall2_keys _ _ _ F). destruct (joined_keys l l' m Ek Nl Nm Kl Km) as (N & K).
    split; [split; [|split; auto]|].
    + apply Forall_app. split; [|apply forall_app_filter; auto]. clear - F Fl IH.
      induction F as [|[k1 x] [k2 y] l l' [E H] _ IHF]; auto. inversion Fl; subst. constructor; auto.
      cbn [fst snd] in *. destruct (assoc k1 m) as [x'|]; [|subst; auto]. destruct H as (Hx' & H).
      destruct (IH x x') as (y' & Ey & Hy & _); auto. congruence.
    + intros [|k0 ks]; [reflexivity|]. cbn [block]. rewrite assoc_app, assoc_new.
      assert (G := assoc_same_keys (fun k1 x y => match assoc k1 m with
        | Some x' => content_ok L n x' /\ content_addR add k k x x' = Ok y | None => y = x end) l l' k0 F). cbn beta in G. unfold has_key.
      destruct (assoc k0 l) as [x|] eqn:El.
      * destruct (assoc k0 l') as [y|]; [|tauto]. destruct (assoc k0 m) as [x'|].
        -- destruct G as (Hx' & G). rewrite Forall_forall in Fl. assert (Hx := Fl _ (assoc_in _ _ _ El)).
           destruct (IH x x' Hx Hx') as (y' & Ey & _ & V). rewrite G in Ey. inversion Ey; subst. apply V.
        -- subst. destruct (block x ks); reflexivity.
      * destruct (assoc k0 l'); [tauto|]. reflexivity.
Qed.

Lemma hist_add_okR L k n a b : hist_ok L n a -> hist_ok L n b ->
  exists c, content_addR add k k a b = Ok c /\ hist_ok L n c /\
    (forall ks, block c ks = joinR (block a ks) (block b ks)) /\
    (c = CNone <-> a = CNone /\ b = CNone).
Proof.
  intros [->|Ha] [->|Hb].
  - exists CNone. repeat split; auto. left; auto. intros ks. rewrite block_none. reflexivity.
  - exists b. split; [destruct b; try reflexivity; cbn [content_addR]; rewrite copycontent_id; reflexivity|].
    split; [right; auto|]. split; [intros ks; rewrite block_none; reflexivity|].
    split; [intros ->|intros (_ & ->)]; destruct n; contradiction.
  - exists a. split; [destruct a; try reflexivity; cbn [content_addR]; rewrite copycontent_id; reflexivity|].
    split; [right; auto|]. split; [intros ks; rewrite block_none; destruct (block a ks); reflexivity|].
    split; [intros ->|intros (-> & _)]; destruct n; contradiction.
  - destruct (content_add_okR L k n a b Ha Hb) as (c & E & Hc & V). exists c. split; auto. split; [right; auto|].
    split; auto. split; [intros ->|intros (-> & _)]; destruct n; contradiction.
Qed.

Lemma dict_iadd_okR L k n : forall a b c, content_ok L n a -> content_ok L n b -> content_addR add k k a b = Ok c ->
  (match a with CArr d => array_iaddR add k k d b | _ => dict_iaddR add k k a b end) = (c, None).
Proof.
  induction n as [|n IH]; intros a b c Ha Hb E; destruct a as [|d|l], b as [|e|m]; try contradiction; cbn [content_ok] in *.
  - cbn [content_addR] in E. rewrite arr_add_sameR in E by congruence. cbn [rmap bind] in E. unfold array_iaddR.
    rewrite arr_iadd_sameR by congruence. congruence.
  - destruct Ha as (Fl & Nl & Kl), Hb as (Fm & Nm & Km). cbn [content_addR dict_iaddR] in *.
    destruct (add_items (content_addR add k k) m l) as [l'|] eqn:El; [|discriminate]. cbn [bind] in E.
    rewrite (iadd_items_ok (content_addR add k k) _ m (content_ok L n) l Fl Fm) with (l' := l'); auto.
    + rewrite map_copy_id. congruence.
    + intros x x' Hx Hx'. destruct (content_add_okR L k n x x' Hx Hx') as (y & Ey & _). exists y. split; auto.
Qed.
Lemma content_iadd_okR L k n a b c : hist_ok L n a -> hist_ok L n b -> content_addR add k k a b = Ok c ->
  content_iaddR add k k a b = (c, None).
Proof.
  intros [->|Ha] [->|Hb] E.
  - inversion E; auto.
  - destruct b; try (destruct n; contradiction); cbn [content_addR content_iaddR] in *; congruence.
  - destruct a; try (destruct n; contradiction); cbn [content_addR content_iaddR] in *; rewrite copycontent_id in E; inversion E; reflexivity.
  - assert (G := dict_iadd_okR L k n a b c Ha Hb E). destruct a, b; try (destruct n; contradiction); auto.
Qed.

Lemma content_mul_okR L v n : forall a, content_ok L n a ->
  exists c, content_mulR mul v a = Ok c /\ content_imulR mul v a = (c, None) /\ content_ok L n c /\
    forall ks, block c ks = option_map (map (fun x => mul x v)) (block a ks).
Proof.
  induction n as [|n IH]; intros a Ha; destruct a as [|d|l]; try contradiction; cbn [content_ok] in *.
  - cbn [content_mulR content_imulR]. eexists. split; [reflexivity|]. split; [reflexivity|].
    split; [rewrite map_length; auto|]. intros [|? ?]; reflexivity.
  - destruct Ha as (Fl & Nl & Kl). cbn [content_mulR content_imulR].
    assert (exists l', mul_items (content_mulR mul v) l = Ok l' /\ imul_items (content_imulR mul v) l = (l', None) /\
      Forall2 (fun a b => fst a = fst b /\ (content_ok L n (snd b) /\
         forall ks, block (snd b) ks = option_map (map (fun x => mul x v)) (block (snd a) ks))) l l') as (l' & E & E' & F).
    { clear Nl Kl. induction Fl as [|[k x] l Hx Fl IHl]; [exists []; repeat split; auto|].
      destruct (IH x Hx) as (y & Ey & Ey' & Hy & Vy). destruct IHl as (l' & E & E' & F).
      exists ((k, y) :: l'). cbn [mul_items imul_items]. fold (mul_items (content_mulR mul v) l). fold (imul_items (content_imulR mul v) l).
      rewrite Ey, Ey', E, E'. cbn [bind]. repeat split; auto. }
    rewrite E, E'. cbn [rmap bind]. eexists. split; [reflexivity|]. split; [reflexivity|].
    assert (Ek := forall2_keys _ _ _ F). split.
    + rewrite Ek. split; auto. clear - F. induction F as [|a b l l' (_ & H & _) F IH]; constructor; auto.
    + intros [|k ks]; [reflexivity|]. cbn [block].
      assert (G := assoc_same_keys (fun _ a b => forall ks, block b ks = option_map (map (fun x => mul x v)) (block a ks)) l l' k).
      destruct (assoc k l), (assoc k l'); try (exfalso; apply G; clear - F; induction F as [|a b ? ? (E & _ & H) ? ?]; constructor; auto; fail).
      * apply G. clear - F; induction F as [|a b ? ? (E & _ & H) ? ?]; constructor; auto.
      * reflexivity.
Qed.

Lemma hist_addR_main h g : hobj_ok h -> hobj_ok g -> axes_eqb (o_axes h) (o_axes g) = true -> weighted h = weighted g ->
  exists c, hist_addR add h g = Ok (with_content h c) /\ hobj_ok (with_content h c) /\
    content_addR add (l_last (o_layout h)) (l_last (o_layout h)) (o_content h) (o_content g) = Ok c /\
    (forall ks, block c ks = joinR (block (o_content h) ks) (block (o_content g) ks)).
Proof.
  intros Hh Hg E W. destruct (same_layout' h g Hh Hg E W) as (EL & EG).
  unfold hist_addR. rewrite E, EL. destruct Hh as (K1 & K2 & K3 & Hh), Hg as (_ & _ & _ & Hg). rewrite EL, EG in Hg.
  destruct (hist_add_okR (o_layout h) (l_last (o_layout h)) (length (o_group h)) (o_content h) (o_content g) Hh Hg) as (c & Ec & Hc & V & _).
  exists c. rewrite Ec. cbn [bind]. split; auto. split; [|auto]. split; auto.
Qed.
Lemma mul_blocksR h v : hobj_ok h -> o_content h <> CNone ->
  exists s, hist_mulR mul h v = Ok s /\ hist_imulR mul h v = (s, None) /\ hobj_ok s /\ o_content s <> CNone /\ o_axes s = o_axes h /\ o_layout s = o_layout h /\
    forall ks, block (o_content s) ks = option_map (map (fun x => mul x v)) (block (o_content h) ks).
Proof.
  intros (K1 & K2 & K3 & [H|H]) N; [contradiction|].
  destruct (content_mul_okR (o_layout h) v _ _ H) as (c & E1 & E2 & O & B). exists (with_content h c).
  unfold hist_mulR, hist_imulR. rewrite E1, E2. cbn [rmap bind]. split; [auto|]. split; [auto|]. split.
  { split; auto. split; auto. split; auto. right. exact O. }
  split; [cbn; intros ->; destruct (length (o_group h)); contradiction|]. split; [reflexivity|]. split; [reflexivity|]. exact B.
Qed.
End Any.
