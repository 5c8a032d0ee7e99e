From Coq Require Import String Permutation.
From Verif Require Import Num Base Tree Instr InstrSpec InstrProofs Axis Calc Content Fill FillProofs Elem HistFill HistSpec Book BookFill BookFillSpec Lib FillMem FillMemSpec FillMemProofs.
Local Open Scope list_scope.

Lemma bind_ok {A B} (r : res A) (k : A -> res B) b : bind r k = Ok b -> exists a, r = Ok a /\ k a = Ok b.
Proof. destruct r; cbn; [eauto|discriminate]. Qed.
Lemma mapM_two {A B} (f : A -> res B) l r : mapM f l = Ok r -> Forall2 (fun a b => f a = Ok b) l r.
Proof.
  revert r. induction l as [|x l IH]; intros r H; cbn in H; [injection H as <-; constructor|].
  apply bind_ok in H. destruct H as (y & Y & H). apply bind_ok in H. destruct H as (ys & Ys & H). injection H as <-. constructor; auto.
Qed.

Section MemM.
  Variable cast : Num -> Z.
  Variable rnd : Qc -> Num.
  Variable user : string -> list arg -> res val.
  Variable int32 : nat -> bool.
  Notation mread := (mread cast rnd user).
  Notation outs := (outs cast rnd user).
  Notation slots_ref := (slots_ref cast rnd user).

  Definition pure_post (h : hist) (len : nat) (o : list (tree * V)) (c : content) : content * option err :=
    match read_dest h o with Err e => (c, Some e) | Ok d => postfill (hist_layout h) len d c end.

  Lemma fixed_refs m o o' d h : outs m o o' -> read_dest h o' = Ok d ->
    Forall2 (slots_ref m) (map (fun p => ref_find (axis_goal p) o) (h_fixed h)) (d_fixed d).
  Proof.
    intros O H. unfold read_dest in H. apply bind_ok in H. destruct H as (g & _ & H). apply bind_ok in H. destruct H as (f & F & H).
    apply bind_ok in H. destruct H as (pr & _ & H). apply bind_ok in H. destruct H as (w & _ & H). injection H as <-. cbn [d_fixed].
    apply mapM_two in F. induction F as [|p c l l' E F IH]; cbn [map]; constructor; auto.
    assert (S := outs_find cast rnd user m o o' (axis_goal p) O). destruct (ref_find (axis_goal p) o) as [r|], (dest_find (axis_goal p) o') as [v|]; try contradiction.
    - destruct v; try discriminate. injection E as <-. exact S.
    - injection E as <-. exact I.
  Qed.
  Lemma combine_refs m (ts : list nat) rs cs : Forall2 (slots_ref m) rs cs ->
    Forall2 (fun a b => fst a = fst b /\ slots_ref m (snd a) (snd b)) (combine ts rs) (combine ts cs).
  Proof. intros H. revert ts. induction H as [|r c rs cs E H IH]; intros [|t ts]; cbn; constructor; auto. Qed.

  Lemma weights_ok len m0 m o o' d h : outs m0 o o' -> ext m0 m -> Forall (fun p => okv len (snd p)) o' -> read_dest h o' = Ok d ->
    exists m1, weights_m cast rnd user h len o m = (m1, Ok (weights len (d_weight d))) /\ ext m m1.
  Proof.
    intros O X K H. unfold read_dest in H. apply bind_ok in H. destruct H as (g & _ & H). apply bind_ok in H. destruct H as (f & _ & H).
    apply bind_ok in H. destruct H as (pr & _ & H). apply bind_ok in H. destruct H as (w & W & H). injection H as <-. cbn [d_weight].
    unfold weights_m. destruct (h_weight h) as [[v|t]|]; [injection W as <-; exists m; split; [auto|apply ext_refl]| |injection W as <-; exists m; split; [auto|apply ext_refl]].
    apply bind_ok in W. destruct W as (x & N & W). apply bind_ok in W. destruct W as (x2 & N2 & W). injection W as <-.
    apply (outs_ext cast rnd user m0 m) in O; auto.
    assert (S := outs_find cast rnd user m o o' t O). assert (S2 := outs_find cast rnd user m o o' (square t) O).
    destruct (dest_find t o') as [v|] eqn:D; [|discriminate]. destruct (dest_find (square t) o') as [v2|] eqn:D2; [|discriminate].
    destruct (ref_find t o) as [r|]; [|contradiction]. destruct (ref_find (square t) o) as [r2|]; [|contradiction].
    destruct (clean_ok cast rnd user len r r2 m v v2 x x2) as (m1 & w' & w2' & E & E1 & R & R2); auto; try (eapply find_okv; eauto).
    rewrite E, R, R2. exists m1. split; auto.
  Qed.

  Lemma postfill_ok h len o o' c m : outs m o o' -> Forall (fun p => okv len (snd p)) o' ->
    let (m', r) := postfill_m cast rnd user h len o c m in ext m m' /\ r = pure_post h len o' c.
  Proof.
    intros O K. unfold postfill_m, pure_post. rewrite (outs_contents cast rnd user m o o' O).
    destruct (read_dest h o') as [d|e] eqn:D; [|split; [apply ext_refl|auto]].
    assert (F := flat_indexes_ok cast rnd user m _ _ (combine_refs m (l_tots (hist_layout h)) _ _ (fixed_refs m o o' d h O D))).
    destruct (flat_indexes_m cast rnd user _ m) as (m1, r). destruct F as (E1 & F). unfold postfill.
    destruct r as [idx|e]; destruct (flat_indexes _) as [i|e'] eqn:FI; cbn in F; try contradiction; [|subst; split; auto].
    destruct (weights_ok len m m1 o o' d h O E1 K D) as (m2 & W & E2). rewrite W.
    assert (X : ext m m2) by (eapply ext_trans; eauto).
    rewrite (outs_contents cast rnd user m2 o o' (outs_ext cast rnd user _ _ _ _ X O)), D.
    destruct idx as [ri|], i as [ci|]; cbn in F; try contradiction.
    - destruct (stands_ext cast rnd user _ _ _ _ E2 F) as (_ & R). cbn [option_map]. rewrite R. split; auto.
    - split; auto.
  Qed.

  (** ** Calls in the instructions *)
  Lemma takes_out_false t f args : no_extra t -> subtree (TCall f args) t -> takes_out f (List.length args) = false.
  Proof.
    intros N S. unfold takes_out. destruct (assoc f ufuncs) as [k|] eqn:E; auto. apply Nat.eqb_neq. eapply N; eauto.
  Qed.
  Lemma no_extra_sub t a : no_extra t -> subtree a t -> no_extra a.
  Proof.
    intros N S f args k S'. apply N. clear N k. induction S as [|g l a' I S IH]; auto. econstructor; eauto.
  Qed.
  Lemma rename_fits names t : forall r, no_extra t -> rename names t = Ok r -> fits r.
  Proof.
    induction t as [c|s|s b|c|f args IH] using tree_ind'; intros r N H.
    1-4: cbn in H; try destruct (find_name _ names); try discriminate; injection H as <-; exact I.
    destruct (find_name (TCall f args) names) as [n|] eqn:E.
    { cbn [rename] in H. rewrite E in H. injection H as <-. exact I. }
    rewrite rename_call in H by auto. destruct (mapM (rename names) args) as [rs|] eqn:M; [|discriminate]. cbn in H. injection H as <-. cbn [fits].
    assert (L := mapM_len _ _ _ M). rewrite L. split; [eapply takes_out_false; [exact N|constructor]|].
    apply mapM_two in M. assert (Q : forall a, In a args -> no_extra a) by (intros a Ha; apply (no_extra_sub _ _ N); econstructor; [exact Ha|constructor]).
    clear N L E. induction M as [|a r args rs E M IHM]; auto. inversion IH as [|? ? I1 I2]; subst. split.
    - apply I1; auto. apply Q. left; auto.
    - apply IHM; auto. intros b Hb. apply Q. right; auto.
  Qed.
  Lemma emit_fits goals nodes : forall k names live is, (forall x, In x nodes -> no_extra x) -> emit goals nodes k names live = Ok is -> Forall fits_i is.
  Proof.
    induction nodes as [|x nodes IH]; intros k names live is Q H; [cbn in H; injection H as <-; constructor|].
    cbn [emit] in H. apply bind_ok in H. destruct H as (first & F & H). apply bind_ok in H. destruct H as (rest & R & H). injection H as <-.
    constructor; [|apply Forall_app; split; [destruct (mem x goals); repeat constructor|apply Forall_app; split]].
    - destruct x as [c|s|s b|c|f args]; try (injection F as <-; exact I); [discriminate|].
      apply bind_ok in F. destruct F as (e & E & F). injection F as <-. cbn. eapply rename_fits; [|exact E]. apply Q. left; auto.
    - apply Forall_map. apply Forall_forall. intros; exact I.
    - eapply IH; [|exact R]. intros y Hy. apply Q. right; auto.
  Qed.

  Lemma square_arity t : no_extra t -> no_extra (square t).
  Proof.
    intros N f args k S E. inversion S as [|g l a I S']; subst.
    - cbn in E. injection E as <-. cbn. lia.
    - destruct I as [<-|[<-|[]]]; eapply N; eauto.
  Qed.
  Lemma const_arity c : no_extra (TConst c).
  Proof. intros f args k S. inversion S. Qed.
  Lemma axis_arity p : no_extra (snd p) -> no_extra (axis_goal p).
  Proof.
    intros N f args k S E. unfold axis_goal in S. inversion S as [|g l a I S']; subst.
    - exfalso. destruct (fst p); try discriminate E;
        repeat match goal with b : bool |- _ => destruct b; try discriminate E end.
    - destruct I as [<-|I]; [eapply N; eauto|]. apply in_map_iff in I. destruct I as (c & <- & _). inversion S'.
  Qed.
  Lemma goals_arity h : hist_no_extra h -> forall g, In g (hist_goals h) -> no_extra g.
  Proof.
    intros N g G. unfold hist_goals in G. rewrite !in_app_iff in G. unfold hist_no_extra, hist_exprs in N.
    destruct G as [G|[G|[G|G]]].
    - apply in_map_iff in G. destruct G as (p & <- & P). apply axis_arity, N. rewrite !in_app_iff. left. apply in_map; auto.
    - apply in_map_iff in G. destruct G as (p & <- & P). apply axis_arity, N. rewrite !in_app_iff. right; left. apply in_map; auto.
    - apply in_flat_map in G. destruct G as (t & T & G). assert (X : no_extra t) by (apply N; rewrite !in_app_iff; auto).
      destruct G as [<-|[<-|[]]]; auto using square_arity.
    - destruct (h_weight h) as [[v|t]|]; [| |destruct G].
      + destruct G as [<-|[<-|[]]]; auto using square_arity, const_arity.
      + assert (X : no_extra t) by (apply N; rewrite !in_app_iff; cbn; auto). destruct G as [<-|[<-|[]]]; auto using square_arity.
  Qed.
  Lemma instructions_fit order srcs goals is : is_order order -> Permutation srcs (sources goals) -> (forall g, In g goals -> no_extra g) ->
    instructions order srcs goals = Ok is -> Forall fits_i is.
  Proof.
    intros O P N H. eapply emit_fits; [|exact H]. intros x Hx. destruct (walkdown_spec order goals srcs O P) as (_ & _ & W).
    apply W in Hx. destruct Hx as (T & _). apply table_subtree in T. destruct T as (g & G & S). eapply no_extra_sub; eauto.
  Qed.

  Variable order : tree -> list tree -> list tree.

  Lemma hist_fill_ok srcs h A c m : is_order order -> Permutation srcs (sources (hist_goals h)) -> hist_no_extra h -> passed A m ->
    let (m', r) := hist_fill_m cast rnd user int32 order srcs h A c m in
    ext m m' /\ r = hist_fill cast rnd user order srcs h (seen A m) c.
  Proof.
    intros O P N Q. unfold hist_fill_m, hist_fill. destruct (instructions order srcs (hist_goals h)) as [is|e] eqn:I; [|cbn; split; [apply ext_refl|auto]].
    cbn [bind]. destruct (fields srcs) as [fs|e]; [|cbn; split; [apply ext_refl|auto]]. cbn [bind].
    assert (F := fill_arrays_ok cast rnd user int32 A is m (instructions_fit order srcs _ is O P (goals_arity h N) I) Q).
    destruct (fill_arrays_m cast rnd user int32 A is m) as (m1, r). destruct F as (E & F).
    destruct r as [(len, o)|e]; destruct (fill_arrays cast rnd user (seen A m) is) as [(len', o')|e'] eqn:FA; cbn in F; try contradiction; [|cbn; subst; auto].
    destruct F as (F1 & F). subst len'. cbn [bind fst snd].
    assert (R := postfill_ok h len o o' (prefill (hist_layout h) (List.length (h_group h)) c) m1 F (fill_arrays_okv cast rnd user _ _ _ _ FA)).
    destruct (postfill_m cast rnd user h len o _ m1) as (m2, r). destruct R as (E2 & ->). split; [eapply ext_trans; eauto|].
    unfold pure_post. destruct (read_dest h o'); auto.
  Qed.

  Lemma setc_same cs i c : nth_error cs i = Some c -> setc cs i c = cs.
  Proof. revert i. induction cs as [|x cs IH]; intros [|i] H; cbn in *; try discriminate; [congruence|]. rewrite IH; auto. Qed.
  Lemma postfill_all_ok hs len o o' ids : forall stored cs m, outs m o o' -> Forall (fun p => okv len (snd p)) o' ->
    let (m', r) := postfill_all_m cast rnd user hs len o stored ids cs m in ext m m' /\ r = postfill_all hs len o' stored ids cs.
  Proof.
    induction ids as [|i ids IH]; intros stored cs m O K; cbn [postfill_all_m postfill_all]; [split; [apply ext_refl|auto]|].
    destruct (nth_error hs i) as [h|]; [|split; [apply ext_refl|auto]]. destruct (nth_error cs i) as [c|] eqn:C; [|split; [apply ext_refl|auto]].
    assert (R : let (m', r) := postfill_m cast rnd user h len (if existsb (Nat.eqb i) stored then o else []) c m in
      ext m m' /\ r = pure_post h len (if existsb (Nat.eqb i) stored then o' else []) c).
    { destruct (existsb (Nat.eqb i) stored); apply postfill_ok; auto; constructor. }
    destruct (postfill_m _ _ _ h len _ c m) as (m1, r). destruct R as (E & ->). unfold pure_post.
    destruct (read_dest h _) as [d|e]; [|split; [auto|rewrite setc_same; auto]].
    destruct (postfill (hist_layout h) len d c) as (c1, [e|]); [split; auto|].
    assert (R := IH (filter (fun j => negb (Nat.eqb i j)) stored) (setc cs i c1) m1 (outs_ext _ _ _ _ _ _ _ E O) K).
    destruct (postfill_all_m _ _ _ hs len o _ ids _ m1) as (m2, r). destruct R as (E2 & ->). split; auto. eapply ext_trans; eauto.
  Qed.

  Variable limit : nat.
  Lemma book_fill_ok srcs hs A B b cs m :
    (forall is stored, snd (book_fields order limit srcs hs B b) = Ok (is, stored) -> Forall fits_i is) -> passed A m ->
    let (m', r) := book_fill_m cast rnd user int32 order limit srcs hs A B b cs m in
    ext m m' /\ r = book_fill cast rnd user order limit srcs hs (seen A m) B b cs.
  Proof.
    intros N Q. unfold book_fill_m, book_fill. destruct (book_hists limit B b) as [ids|e]; [|split; [apply ext_refl|auto]].
    destruct (book_fields order limit srcs hs B b) as (B1, r). destruct r as [(is, stored)|e]; [|cbn; split; [apply ext_refl|auto]].
    cbn [bind fst snd].
    assert (F := fill_arrays_ok cast rnd user int32 A is m (N _ _ eq_refl) Q).
    destruct (fill_arrays_m cast rnd user int32 A is m) as (m1, r). destruct F as (E & F).
    destruct r as [(len, o)|e]; destruct (fill_arrays cast rnd user (seen A m) is) as [(len', o')|e'] eqn:FA; cbn in F; try contradiction; [|cbn; subst; auto].
    destruct F as (F1 & F). subst len'. cbn [bind fst snd].
    assert (R := postfill_all_ok hs len o o' ids stored (prefill_all hs ids cs) m1 F (fill_arrays_okv cast rnd user _ _ _ _ FA)).
    destruct (postfill_all_m _ _ _ hs len o stored ids _ m1) as (m2, (cs1, e)). destruct R as (E2 & R). rewrite <- R. split; auto. eapply ext_trans; eauto.
  Qed.
End MemM.
