(** Lemmas about books as trees: JSON. *)
From Coq Require Import String Permutation.
From Verif Require Import Base Num NumFacts Axis Calc Content Fill FillProofs2 HistAlg AlgSpec HistAlgProofs Json JsonProofs CompareProofs
  Glob Book BookTree BookTreeSpec BookTreeProofs.
Local Open Scope string_scope.
Local Open Scope list_scope.

(** ** Prefixes of what passes the check pass it *)
Lemma chain_prefix l : forall m, assert_chain (l ++ m) = None -> assert_chain l = None.
Proof.
  induction l as [|x l IH]; intros m; auto. cbn [app assert_chain]. destruct l as [|y l]; auto. cbn [app].
  destruct (node_assert x y); auto. intros H. apply (IH m). exact H.
Qed.
Lemma changed_prefix c l m : changed c (l ++ m) = None -> changed c l = None.
Proof.
  destruct c; auto. cbn [changed]. unfold assertcompatible. rewrite map_app. destruct (assert_chain (map snd l ++ map snd m)) eqn:E; [discriminate|].
  rewrite (chain_prefix _ _ E), flat_map_app, forallb_app. destruct (forallb _ (flat_map _ l)); auto.
Qed.
Lemma tset_plain c l n v : cut_slash n = None -> tsetitem c l n v = (sassoc_set n v l, changed c (sassoc_set n v l)).
Proof. intros C. unfold tsetitem. destruct (String.length n); cbn [tset_n]; rewrite C; auto. Qed.
Lemma set_all_proper c items : forall l, NoDup (map fst (l ++ items)) -> (forall k x, In (k, x) items -> cut_slash k = None) ->
  changed c (l ++ items) = None -> set_all c l items = Ok (l ++ items).
Proof.
  induction items as [|[n x] t IH]; intros l ND S C; cbn [set_all].
  - rewrite app_nil_r in *. rewrite C. auto.
  - rewrite tset_plain by (apply (S n x); left; auto). assert (N : ~ In n (map fst l)).
    { rewrite map_app in ND. cbn [map fst] in ND. apply NoDup_remove_2 in ND. rewrite in_app_iff in ND. tauto. }
    assert (E : l ++ (n, x) :: t = (l ++ [(n, x)]) ++ t) by (rewrite <- app_assoc; reflexivity).
    rewrite set_new by auto. rewrite (changed_prefix c (l ++ [(n, x)]) t) by (rewrite <- E; auto). rewrite E in *.
    apply IH; auto. intros k y Hk. apply (S k y). right. auto.
Qed.
Lemma fromdicts_proper P c l att : proper P (NBook c l att) -> tfromdicts c l att = Ok (NBook c l att).
Proof.
  intros H. inversion H as [|? ? ? ND F C]; subst. unfold tfromdicts. rewrite (set_all_proper c l []); auto.
  intros k x Hi. apply (F k x Hi).
Qed.

(** ** node["name"] = name *)
Definition no_key (k : string) (j : json) : Prop := match j with JObj l => has_key (GStr k) l = false | _ => False end.
Lemma gstr_eqb a b : gkey_eqb (GStr a) (GStr b) = String.eqb a b. Proof. reflexivity. Qed.
Lemma jset_new n v j : no_key n j -> exists j', jset n v j = Ok j' /\ jget n j' = Ok v /\
  (forall k, String.eqb k n = false -> jget k j' = jget k j /\ jfind k j' = jfind k j).
Proof.
  destruct j as [| | | | | |l]; cbn [no_key]; try tauto. intros H. cbn [jset]. rewrite H. eexists. split; [reflexivity|].
  assert (A : assoc (GStr n) l = None). { unfold has_key in H. destruct (assoc (GStr n) l); auto. discriminate. }
  split.
  - cbn [jget]. rewrite assoc_app, A. cbn [assoc]. rewrite gstr_eqb, String.eqb_refl. auto.
  - intros k Hk. cbn [jget jfind]. rewrite assoc_app. cbn [assoc]. rewrite gstr_eqb, Hk. destruct (assoc (GStr k) l); auto.
Qed.
Lemma assoc_obj k l : assoc (GStr k) (map (fun kv : string * json => (GStr (fst kv), snd kv)) l) = sassoc k l.
Proof. induction l as [|[k' v] l IH]; cbn [map fst snd assoc sassoc]; auto. rewrite gstr_eqb, IH. auto. Qed.
Lemma no_key_obj k l : ~ In k (map fst l) -> no_key k (obj l).
Proof. intros H. cbn [no_key obj]. unfold has_key. rewrite assoc_obj. apply sassoc_none in H. rewrite H. auto. Qed.
Lemma hist_no_name h j : hist_tojson h = Ok j -> no_key "name" j.
Proof.
  unfold hist_tojson. destruct (mapM axis_tojson (o_axes h)); [|discriminate]. cbn [bind].
  match goal with |- (do c <- ?X; _) = _ -> _ => destruct X as [c|] eqn:Ec end; [|discriminate]. cbn [bind]. intros E.
  apply (f_equal (fun r => match r with Ok x => x | Err _ => JNull end)) in E. cbv beta iota in E. subst j. apply no_key_obj.
  assert (Hc : map fst c = [] \/ map fst c = ["content"]).
  { destruct (o_content h); [injection Ec as <-; auto| |]; match type of Ec with (do j <- ?X; _) = _ => destruct X end; try discriminate; injection Ec as <-; auto. }
  rewrite !map_app. intros Hin. destruct (o_weight h), (o_filter h), (o_defs h), (o_attach h), Hc as [Hc|Hc]; rewrite Hc in Hin; cbn in Hin;
    repeat match type of Hin with _ \/ _ => destruct Hin as [Hin|Hin] end; try discriminate; auto.
Qed.
Lemma book_no_name c l att j : node_tojson (NBook c l att) = Ok j -> no_key "name" j.
Proof.
  cbn [node_tojson]. match goal with |- (do js <- ?X; _) = _ -> _ => destruct X as [js|] end; [|discriminate]. cbn [bind]. intros E.
  apply (f_equal (fun r => match r with Ok x => x | Err _ => JNull end)) in E. cbv beta iota in E. subst j. apply no_key_obj.
  rewrite map_app. intros Hin. destruct att; cbn in Hin; repeat match type of Hin with _ \/ _ => destruct Hin as [Hin|Hin] end; try discriminate; auto.
Qed.

Section Json.
  Variable axis_check : list (string * wsrc) -> string -> option err.
  Variable weight_check : list (string * wsrc) -> option wsrc -> option wsrc -> option err.
  Notation constructed := (constructed axis_check weight_check).
  Notation fromjson := (book_fromjson axis_check weight_check).

  Lemma hist_reads j j' : (forall k, String.eqb k "name" = false -> jget k j' = jget k j /\ jfind k j' = jfind k j) ->
    hist_fromjson axis_check weight_check j' = hist_fromjson axis_check weight_check j.
  Proof.
    intros H. unfold hist_fromjson. destruct (H "type" eq_refl) as (-> & _), (H "axis" eq_refl) as (-> & _), (H "weight" eq_refl) as (_ & ->),
      (H "filter" eq_refl) as (_ & ->), (H "defs" eq_refl) as (_ & ->), (H "attachment" eq_refl) as (_ & ->), (H "content" eq_refl) as (_ & ->). reflexivity.
  Qed.
  Lemma book_reads limit j j' : (forall k, String.eqb k "name" = false -> jget k j' = jget k j /\ jfind k j' = jfind k j) ->
    fromjson limit j' = fromjson limit j.
  Proof.
    intros H. destruct limit; cbn [book_fromjson]; auto.
    destruct (H "type" eq_refl) as (-> & _), (H "content" eq_refl) as (-> & _), (H "attachment" eq_refl) as (_ & ->). reflexivity.
  Qed.
  Lemma class_of_name c : class_of (class_name c) = Ok c.
  Proof. destruct c; reflexivity. Qed.
  Lemma class_not_hist c : String.eqb (class_name c) "Hist" = false.
  Proof. destruct c; reflexivity. Qed.
  Lemma hist_type h j : hist_tojson h = Ok j -> jget "type" j = Ok (JStr "Hist").
  Proof.
    unfold hist_tojson. destruct (mapM axis_tojson (o_axes h)); [|discriminate]. cbn [bind].
    match goal with |- (do c <- ?X; _) = _ -> _ => destruct X as [c|] eqn:Ec end; [|discriminate]. cbn [bind]. intros E.
    apply (f_equal (fun r => match r with Ok x => x | Err _ => JNull end)) in E. cbv beta iota in E. subst j. reflexivity.
  Qed.
  Lemma book_type c l att j : node_tojson (NBook c l att) = Ok j -> jget "type" j = Ok (JStr (class_name c)).
  Proof.
    cbn [node_tojson]. match goal with |- (do js <- ?X; _) = _ -> _ => destruct X as [js|] end; [|discriminate]. cbn [bind]. intros E.
    apply (f_equal (fun r => match r with Ok x => x | Err _ => JNull end)) in E. cbv beta iota in E. subst j. reflexivity.
  Qed.

  (** one entry, read back *)
  Definition reads_back (j : json) (n : string) (x : node) : Prop := exists N, forall limit, N <= limit ->
    (do t <- jget "type" j; do t <- j_str t; do k <- jget "name" j; do k <- j_str k;
     do v <- if String.eqb t "Hist" then rmap NHist (hist_fromjson axis_check weight_check j) else fromjson limit j; Ok (k, v)) = Ok (n, x).
  Definition comes_back (x : node) : Prop :=
    exists j, node_tojson x = Ok j /\ no_key "name" j /\
      match x with
      | NHist h => jget "type" j = Ok (JStr "Hist") /\ hist_fromjson axis_check weight_check j = Ok h
      | NBook c _ _ => jget "type" j = Ok (JStr (class_name c)) /\ exists N, forall limit, N <= limit -> fromjson limit j = Ok x
      end.
  Lemma entry_back n x : comes_back x -> exists j j', node_tojson x = Ok j /\ jset "name" (JStr n) j = Ok j' /\ reads_back j' n x.
  Proof.
    intros (j & E & K & H). destruct (jset_new "name" (JStr n) j K) as (j' & E' & G & R). exists j, j'. split; auto. split; auto.
    destruct (R "type" eq_refl) as (T & _). unfold reads_back. rewrite G, T. destruct x as [h|c l a].
    - destruct H as (-> & H). exists 0. intros limit _. cbn [bind j_str String.eqb]. change (String.eqb "Hist" "Hist") with true. cbv iota.
      rewrite (hist_reads j j' R), H. reflexivity.
    - destruct H as (-> & N & H). exists N. intros limit L. cbn [bind j_str]. rewrite class_not_hist, (book_reads limit j j' R), (H limit L). reflexivity.
  Qed.
  Lemma items_back l : Forall (fun kx => comes_back (snd kx)) l ->
    exists js N, tojson_items node_tojson l = Ok js /\ forall limit, N <= limit -> forall acc,
      NoDup (map fst (acc ++ l)) ->
      (fix go (l : list json) (content : list (string * node)) : res (list (string * node)) :=
           match l with
           | [] => Ok content
           | x :: l =>
             do t <- jget "type" x; do t <- j_str t;
             do n <- jget "name" x; do n <- j_str n;
             do v <- if String.eqb t "Hist" then rmap NHist (hist_fromjson axis_check weight_check x)
                     else fromjson limit x;
             go l (sassoc_set n v content)
           end) js acc = Ok (acc ++ l).
  Proof.
    induction 1 as [|[n x] l H F (js & N & E & IH)].
    - exists [], 0. split; auto. intros limit _ acc _. rewrite app_nil_r. auto.
    - cbn [snd] in H. destruct (entry_back n x H) as (j & j' & Ej & Ej' & M & R). exists (j' :: js), (Nat.max M N). split.
      + cbn [tojson_items]. rewrite Ej. cbn [bind]. rewrite Ej'. cbn [bind]. fold (tojson_items node_tojson). rewrite E. reflexivity.
      + intros limit L acc ND. specialize (R limit ltac:(lia)).
        destruct (jget "type" j') as [t|]; [|discriminate]. cbn [bind] in *. destruct (j_str t) as [t'|]; [|discriminate]. cbn [bind] in *.
        destruct (jget "name" j') as [k|]; [|discriminate]. cbn [bind] in *. destruct (j_str k) as [k'|]; [|discriminate]. cbn [bind] in *.
        destruct (if String.eqb t' "Hist" then _ else _) as [v|]; [|discriminate]. cbn [bind] in *. injection R as -> ->.
        assert (Nn : ~ In n (map fst acc)).
        { rewrite map_app in ND. cbn [map fst] in ND. apply NoDup_remove_2 in ND. rewrite in_app_iff in ND. tauto. }
        rewrite set_new by auto. assert (Ea : acc ++ (n, x) :: l = (acc ++ [(n, x)]) ++ l) by (rewrite <- app_assoc; reflexivity).
        rewrite Ea in *. apply (IH limit); auto. lia.
  Qed.
  Lemma proper_back x : proper constructed x -> comes_back x.
  Proof.
    induction x as [h|c l att IH] using node_induct; intros H; inversion H as [? Hh|? ? ? ND F C]; subst.
    - destruct (hist_json_roundtrip _ _ h Hh) as (j & E & E'). exists j. split; auto. split; [eapply hist_no_name; eauto|]. split; auto. eapply hist_type; eauto.
    - destruct (items_back l) as (js & N & E & G).
      { rewrite Forall_forall in *. intros [k x] Hi. apply IH; auto. apply (F k x Hi). }
      assert (Ej : exists j, node_tojson (NBook c l att) = Ok j). { cbn [node_tojson]. fold (tojson_items node_tojson). rewrite E. cbn [bind]. eauto. }
      destruct Ej as (j & Ej). exists j. split; auto. split; [eapply book_no_name; eauto|]. assert (T := book_type _ _ _ _ Ej). split; auto.
      exists (S N). intros [|limit] L; [lia|]. cbn [book_fromjson]. rewrite T. cbn [bind j_str]. rewrite class_of_name. cbn [bind].
      cbn [node_tojson] in Ej. fold (tojson_items node_tojson) in Ej. rewrite E in Ej. cbn [bind] in Ej.
      apply (f_equal (fun r => match r with Ok x => x | Err _ => JNull end)) in Ej. cbv beta iota in Ej.
      assert (J1 : jget "content" j = Ok (JList js)) by (subst j; reflexivity).
      assert (J2 : j_dict j_string (jfind "attachment" j) = att). { subst j. destruct att as [|p att]; auto. apply (strings_roundtrip (p :: att)). }
      rewrite J1. cbn [bind]. rewrite (G limit ltac:(lia) []) by auto. cbn [bind app]. rewrite J2. eapply fromdicts_proper; eauto.
  Qed.

  (** ** through text *)
  Variable repr_num : Num -> string.
  Notation text := (through_text repr_num).
  Lemma jset_text n v j j' : text j = j -> text v = v -> jset n v j = Ok j' -> text j' = j'.
  Proof.
    destruct j as [| | | | | |l]; cbn [jset]; try discriminate. intros T V E.
    apply (f_equal (fun r => match r with Ok x => x | Err _ => JNull end)) in E. cbv beta iota in E. subst j'.
    cbn [through_text] in *. injection T as T. f_equal. destruct (has_key (GStr n) l).
    - revert T. induction l as [|[k x] l IH]; cbn [map fst snd]; auto. intros T. injection T as T1 T2 T3. f_equal; auto.
      destruct (gkey_eqb k (GStr n)); cbn [fst snd]; rewrite T1, ?V, ?T2; auto.
    - rewrite map_app, T. cbn [map fst snd]. rewrite V. auto.
  Qed.
  Lemma text_node x : all_in (fun h => string_keys (o_content h)) x -> proper constructed x -> forall j, node_tojson x = Ok j -> text j = j.
  Proof.
    induction x as [h|c l att IH] using node_induct; intros S H j E.
    - eapply text_hist; eauto. apply (S [] h). reflexivity.
    - inversion H as [|? ? ? ND F C]; subst. cbn [node_tojson] in E. fold (tojson_items node_tojson) in E.
      destruct (tojson_items node_tojson l) as [js|] eqn:Ej; [|discriminate]. cbn [bind] in E.
      apply (f_equal (fun r => match r with Ok x => x | Err _ => JNull end)) in E. cbv beta iota in E. subst j.
      assert (L : map text js = js).
      { assert (Sub : forall k x, In (k, x) l -> all_in (fun h => string_keys (o_content h)) x /\ proper constructed x).
        { intros k x Hi. split; [|apply (F k x Hi)]. intros p h Hp. apply (S (k :: p) h). rewrite node_at_cons, (sassoc_in k x l ND Hi). auto. }
        clear S H ND F C. revert js Ej. induction l as [|[n x] l IHl]; intros js Ej; cbn [tojson_items] in Ej.
        - injection Ej as <-. reflexivity.
        - inversion IH as [|? ? I1 I2]; subst. cbn [snd] in I1. destruct (node_tojson x) as [j|] eqn:E1; [|discriminate]. cbn [bind] in Ej.
          destruct (jset "name" (JStr n) j) as [j'|] eqn:E2; [|discriminate]. cbn [bind] in Ej. fold (tojson_items node_tojson) in Ej.
          destruct (tojson_items node_tojson l) as [js'|] eqn:E3; [|discriminate]. cbn [bind] in Ej. injection Ej as <-. cbn [map]. f_equal.
          + destruct (Sub n x (or_introl eq_refl)) as (S1 & S2). apply (jset_text "name" (JStr n) j j'); auto.
          + apply IHl; auto. intros k y Hk. apply (Sub k y). right. auto. }
      apply text_obj. intros k j Hj. apply in_app_iff in Hj. destruct Hj as [[Hj|[Hj|[]]]|Hj].
      + injection Hj as <- <-. reflexivity.
      + injection Hj as <- <-. cbn [through_text]. rewrite L. auto.
      + destruct att as [|p att]; [contradiction|]. destruct Hj as [Hj|[]]. injection Hj as <- <-. unfold strings. apply text_obj.
        intros k j Hj. apply in_map_iff in Hj. destruct Hj as (kv & E & _). injection E as <- <-. reflexivity.
  Qed.
End Json.
