(** Lemmas about comparison, grouping, and JSON text. *)
From Coq Require Import String.
From Verif Require Import Base Num NumFacts Axis Calc Content Fill FillSpec FillProofs FillProofs2 FillProofs3 FillMain
  HistAlg AlgSpec HistAlgProofs HistAlgMain Json JsonProofs.
Local Open Scope string_scope.
Local Open Scope list_scope.

Ltac eqb_refl := repeat match goal with
  | |- context [String.eqb ?x ?x] => rewrite String.eqb_refl
  | |- context [Nat.eqb ?x ?x] => rewrite Nat.eqb_refl
  | |- context [Z.eqb ?x ?x] => rewrite Z.eqb_refl
  | |- context [Bool.eqb ?x ?x] => rewrite Bool.eqb_reflx
  | |- context [neqb ?x ?x] => rewrite (neqb_refl x) by tauto
  | |- context [nums_eqb ?x ?x] => rewrite (nums_eqb_refl x) by tauto
  end.
Lemma axis_eqb_refl a : nan_free_axis a -> axis_eqb a a = true.
Proof. destruct a; cbn [axis_eqb nan_free_axis]; intros H; eqb_refl; reflexivity. Qed.
Lemma nums_eqb_nan l : nums_eqb l l = true -> Forall (fun x => isnan x = false) l.
Proof.
  induction l as [|x l IH]; cbn [nums_eqb]; auto. intros H. apply andb_prop in H. destruct H as (H1 & H2). constructor; auto.
  destruct x; auto; discriminate.
Qed.
Lemma neqb_nan x : neqb x x = true -> isnan x = false.
Proof. destruct x; auto; discriminate. Qed.
Lemma axis_eqb_self a : axis_eqb a a = true -> nan_free_axis a.
Proof.
  destruct a; cbn [axis_eqb nan_free_axis]; auto; intros H; repeat (apply andb_prop in H; destruct H as (H & ?));
    auto using neqb_nan, nums_eqb_nan.
Qed.
Lemma axis_eqb_iff a b : axis_eqb a b = true <-> a = b /\ nan_free_axis a.
Proof.
  split.
  - intros H. assert (E := axis_eqb_eq a b H). subst. split; auto. apply axis_eqb_self; auto.
  - intros (-> & H). apply axis_eqb_refl; auto.
Qed.
Lemma axes_eqb_iff l m : axes_eqb l m = true <-> l = m /\ Forall nan_free_axis l.
Proof.
  revert m. induction l as [|a l IH]; intros [|b m]; cbn [axes_eqb]; try (split; [discriminate|intros (? & _); discriminate]).
  - split; auto.
  - rewrite andb_true_iff, axis_eqb_iff, IH. split.
    + intros ((-> & ?) & -> & ?). split; auto.
    + intros (E & F). injection E as -> ->. inversion F; auto.
Qed.

Lemma compatible_unnamed a b : comparable a -> compatible a b = Some (axis_eqb (unnamed a) (unnamed b)).
Proof. destruct a, b; cbn [compatible comparable unnamed axis_eqb]; intros H; try contradiction; try reflexivity. Qed.
Lemma unnamed_nan a : nan_free_axis (unnamed a) <-> nan_free_axis a.
Proof. destruct a; cbn; tauto. Qed.
Lemma compatible_iff a b : comparable a -> (compatible a b = Some true <-> unnamed a = unnamed b /\ nan_free_axis a).
Proof.
  intros H. rewrite compatible_unnamed by auto. rewrite <- (unnamed_nan a), <- axis_eqb_iff. split; [intros E; injection E; auto|intros ->; auto].
Qed.
Lemma comparable_unnamed a b : unnamed a = unnamed b -> comparable a -> comparable b.
Proof. destruct a, b; cbn; try discriminate; auto. Qed.

Lemma compatible_zip_iff l : forall m, Forall comparable l -> length l = length m ->
  (compatible_zip l m = Some true <-> map unnamed l = map unnamed m /\ Forall nan_free_axis l).
Proof.
  induction l as [|a l IH]; intros [|b m]; cbn [compatible_zip length map]; intros F Hn; try discriminate.
  - split; auto.
  - inversion F; subst. assert (Hn' : length l = length m) by lia. assert (I := compatible_iff a b).
    rewrite compatible_unnamed by auto. rewrite compatible_unnamed in I by auto.
    destruct (axis_eqb (unnamed a) (unnamed b)) eqn:E.
    + destruct I as (I & _); auto. destruct (I eq_refl) as (Ea & Na). rewrite IH; auto. split.
      * intros (-> & ?). rewrite Ea. auto.
      * intros (E' & F'). injection E' as _ E'. inversion F'; auto.
    + split; [discriminate|]. intros (E' & F'). injection E' as E1 E2. inversion F'; subst.
      assert (X := proj2 (I ltac:(auto))). discriminate X. auto.
Qed.

(** ** Python's == on dicts with string keys *)
Lemma sassoc_in {A} k (v : A) l : NoDup (map fst l) -> In (k, v) l -> sassoc k l = Some v.
Proof.
  induction l as [|[k' v'] l IH]; cbn [map fst sassoc In]; intros N H; [destruct H|]. inversion N as [|? ? Hn N']; subst.
  destruct H as [H|H].
  - injection H as -> ->. rewrite String.eqb_refl. auto.
  - destruct (String.eqb k k') eqn:E; auto. apply String.eqb_eq in E. subst. destruct Hn. apply in_map_iff. exists (k', v). auto.
Qed.
Lemma dict_eqb_refl {A} (eqb : A -> A -> bool) l : NoDup (map fst l) -> Forall (fun kv => eqb (snd kv) (snd kv) = true) l ->
  dict_eqb eqb l l = true.
Proof.
  intros N F. unfold dict_eqb. rewrite Nat.eqb_refl. cbn [andb]. apply forallb_forall. intros [k v] H. cbn [fst snd].
  rewrite (sassoc_in k v) by auto. rewrite Forall_forall in F. apply (F _ H).
Qed.

(** ** Grouping *)
Lemma group_weight_none hs : Forall (fun h => o_weight h = None) hs -> group_weight None hs = Ok None.
Proof. induction 1 as [|h hs Hh H IH]; cbn [group_weight]; auto. rewrite Hh. auto. Qed.
Lemma group_weight_some hs : Forall (fun h => o_weight h <> None) hs -> forall v, exists v', group_weight (Some v) hs = Ok (Some v').
Proof.
  induction 1 as [|h hs Hh H IH]; intros v; cbn [group_weight]; eauto. destruct (o_weight h) as [u|]; [|congruence].
  destruct (wsrc_eqb v u); auto.
Qed.
Lemma in_names {A} (hs : list (string * A)) n x (f : A -> content) : NoDup (map fst hs) -> In (n, x) hs ->
  assoc (GStr n) (map (fun nx => (GStr (fst nx), f (snd nx))) hs) = Some (f x).
Proof.
  induction hs as [|[m y] hs IH]; cbn [map fst snd assoc]; intros N H; [destruct H|]. inversion N as [|? ? Hn N']; subst.
  cbn [gkey_eqb]. destruct H as [H|H].
  - injection H as -> ->. rewrite String.eqb_refl. auto.
  - destruct (String.eqb n m) eqn:E; auto. apply String.eqb_eq in E. subst. destruct Hn. apply in_map_iff. exists (m, x). auto.
Qed.
Lemma not_in_names {A} (hs : list (string * A)) k (f : A -> content) : (forall n, In n (map fst hs) -> k <> GStr n) ->
  assoc k (map (fun nx => (GStr (fst nx), f (snd nx))) hs) = None.
Proof.
  induction hs as [|[m y] hs IH]; cbn [map fst snd assoc]; intros N; auto.
  destruct (gkey_eqb k (GStr m)) eqn:E.
  - destruct k; try discriminate. apply String.eqb_eq in E. subst. destruct (N m); auto. left. auto.
  - apply IH. intros n Hn. apply N. right. auto.
Qed.

(** ** JSON text *)
Section Text.
  Variable repr_num : Num -> string.
  Notation text := (through_text repr_num).
  Lemma text_nest shape : forall d, text (nest shape d) = nest shape d.
  Proof.
    induction shape as [|t ts IH]; intros d; cbn [nest through_text]; auto. f_equal. rewrite map_map. apply map_ext. auto.
  Qed.
  Lemma text_content shape : forall c, string_keys c -> forall j, content_tojson shape c = Ok j -> text j = j.
  Proof.
    induction c as [|d|l IH] using content_ind'; intros S j E; cbn [content_tojson] in E; [discriminate| |].
    - injection E as <-. apply text_nest.
    - destruct (json_items (content_tojson shape) l) as [js|] eqn:Ej; [|discriminate]. cbn [rmap bind] in E. injection E as <-.
      cbn [through_text]. f_equal. revert js Ej S. induction IH as [|[k x] l Hx IH IHl]; intros js Ej S; cbn [json_items] in Ej.
      + injection Ej as <-. reflexivity.
      + fold (json_items (content_tojson shape) l) in Ej. cbn [string_keys] in S. destruct S as ((s & ->) & Sx & S).
        destruct (content_tojson shape x) as [y|] eqn:Ey; [|discriminate]. cbn [bind] in Ej.
        destruct (json_items (content_tojson shape) l) as [t|]; [|discriminate]. cbn [bind] in Ej. injection Ej as <-.
        cbn [map fst snd]. rewrite (Hx Sx y Ey). f_equal. apply (IHl t); auto.
  Qed.
  Lemma text_obj l : (forall k j, In (k, j) l -> text j = j) -> text (obj l) = obj l.
  Proof.
    unfold obj. cbn [through_text]. intros H. f_equal. rewrite map_map. cbn [fst snd]. apply map_ext_in. intros [k j] Hj. cbn [fst snd].
    f_equal. eauto.
  Qed.
  Lemma text_axis a j : axis_tojson a = Ok j -> text j = j.
  Proof.
    destruct a; cbn [axis_tojson]; intros E; try discriminate; injection E as <-; try reflexivity.
    cbn. rewrite map_map. reflexivity.
  Qed.
  Lemma text_axes axes : forall js, mapM axis_tojson axes = Ok js -> map text js = js.
  Proof.
    induction axes as [|a axes IH]; intros js E; cbn [mapM] in E; [injection E as <-; auto|].
    destruct (axis_tojson a) as [j|] eqn:Ej; [|discriminate]. cbn [bind] in E.
    destruct (mapM axis_tojson axes) as [js'|]; [|discriminate]. cbn [bind] in E. injection E as <-. cbn [map].
    rewrite (text_axis a j Ej), IH; auto.
  Qed.
  Lemma text_wsrc w : text (wsrc_tojson w) = wsrc_tojson w.
  Proof. destruct w; reflexivity. Qed.
  Lemma text_hist h j : string_keys (o_content h) -> hist_tojson h = Ok j -> text j = j.
  Proof.
    intros S E. unfold hist_tojson in E. destruct (mapM axis_tojson (o_axes h)) as [axes|] eqn:Ea; [|discriminate]. cbn [bind] in E.
    match type of E with (do c <- ?X; _) = _ => destruct X as [c|] eqn:Ec end; [|discriminate]. cbn [bind] in E. injection E as <-.
    apply text_obj. intros k j Hj. cbn [app] in Hj. destruct Hj as [Hj|[Hj|Hj]].
    { injection Hj as <- <-. auto. }
    { injection Hj as <- <-. cbn [through_text]. rewrite (text_axes _ _ Ea). auto. }
    rewrite !in_app_iff in Hj. destruct Hj as [Hj|[Hj|[Hj|[Hj|Hj]]]].
    - destruct (o_weight h); cbn [opt In] in Hj; [|destruct Hj]. destruct Hj as [Hj|[]]. injection Hj as <- <-. apply text_wsrc.
    - destruct (o_filter h); cbn [opt In] in Hj; [|destruct Hj]. destruct Hj as [Hj|[]]. injection Hj as <- <-. apply text_wsrc.
    - destruct (o_defs h) as [|d ds]; [destruct Hj|]. destruct Hj as [Hj|[]]. injection Hj as <- <-. apply text_obj.
      intros k j Hj. apply (in_map_iff (fun kv => (fst kv, wsrc_tojson (snd kv))) (d :: ds)) in Hj. destruct Hj as (x & Hx & _). injection Hx as <- <-. apply text_wsrc.
    - destruct (o_content h) as [|d|l] eqn:Eh.
      + injection Ec as <-. destruct Hj.
      + destruct (content_tojson _ (CArr d)) as [x|] eqn:Ex; [|discriminate]. cbn [bind] in Ec. injection Ec as <-. destruct Hj as [Hj|[]]. injection Hj as <- <-.
        eapply text_content; [|exact Ex]. auto.
      + destruct (content_tojson _ (CDict l)) as [x|] eqn:Ex; [|discriminate]. cbn [bind] in Ec. injection Ec as <-. destruct Hj as [Hj|[]]. injection Hj as <- <-.
        eapply text_content; [|exact Ex]. auto.
    - destruct (o_attach h) as [|d ds]; [destruct Hj|]. destruct Hj as [Hj|[]]. injection Hj as <- <-. apply text_obj.
      intros k j Hj. apply (in_map_iff (fun kv => (fst kv, JStr (snd kv))) (d :: ds)) in Hj. destruct Hj as (x & Hx & _). injection Hx as <- <-. reflexivity.
  Qed.
End Text.
