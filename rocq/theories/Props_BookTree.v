(** Properties of books as trees: equality (C32), JSON (C63), comparison (C64), SystematicsBook (C65)
    and group (C66). *)
From Coq Require Import String Permutation.
From Verif Require Import Base Num NumFacts Axis Calc Content Fill FillSpec FillProofs2 HistAlg AlgSpec HistAlgProofs HistAlgMain Json JsonProofs CompareProofs
  Props_Alg Glob Book BookTree BookTreeSpec BookTreeProofs BookTreeJson BookTreeCompare BookTreeGroup.
Local Open Scope string_scope.
Local Open Scope list_scope.
Notation node := BookTree.node.

(** ** Concrete books *)
(** bin("x", 2, 0, 2), and the same with three bins, with an attachment *)
Definition bt_h (bins : nat) (att : list (string * string)) (c : content) : hobj := {|
  o_group := []; o_fixed := [ABin "x" bins (nz 0) (nz 2) false false false true]; o_prof := []; o_weight := None; o_filter := None;
  o_defs := []; o_attach := att; o_content := c |}.
Definition bt_1 : hobj := bt_h 2 [("systematic", "up")] (arr [1; 2]%Z).
Definition bt_2 : hobj := bt_h 2 [("systematic", "down")] (arr [3; 4]%Z).
Definition bt_3 : hobj := bt_h 3 [("systematic", "other")] (arr [5; 6; 7]%Z).
Notation nocheck := (fun _ _ => None).
Notation nocheck' := (fun _ _ _ => None).
Lemma bt_constructed : constructed nocheck nocheck' bt_1 /\ constructed nocheck nocheck' bt_2 /\ constructed nocheck nocheck' bt_3.
Proof.
  split; [|split]; split.
  - exists [ABin "x" 2 (nz 0) (nz 2) false false false true]. split; [|reflexivity]. constructor; [|constructor].
    apply (built_bin "x" 2 (nz 0) (nz 2) false false false true). reflexivity.
  - right. reflexivity.
  - exists [ABin "x" 2 (nz 0) (nz 2) false false false true]. split; [|reflexivity]. constructor; [|constructor].
    apply (built_bin "x" 2 (nz 0) (nz 2) false false false true). reflexivity.
  - right. reflexivity.
  - exists [ABin "x" 3 (nz 0) (nz 2) false false false true]. split; [|reflexivity]. constructor; [|constructor].
    apply (built_bin "x" 3 (nz 0) (nz 2) false false false true). reflexivity.
  - right. reflexivity.
Qed.
Lemma bt_plain : plain_hist bt_1 /\ plain_hist bt_2 /\ plain_hist bt_3.
Proof. repeat split; repeat constructor. Qed.

(** b = Book(); b["a/h"] = bt_1; b["a/k"] = bt_3; b["z"] = bt_2 *)
Definition set_ (x : node) (name : string) (v : node) : node :=
  match x with NBook c l a => NBook c (fst (tsetitem c l name v)) a | NHist _ => x end.
Definition bt_book : node :=
  set_ (set_ (set_ (NBook KBook [] []) "a/h" (NHist bt_1)) "a/k" (NHist bt_3)) "z" (NHist bt_2).
Lemma bt_made (P : hobj -> Prop) : P bt_1 -> P bt_2 -> P bt_3 -> made P bt_book.
Proof.
  intros H1 H2 H3. unfold bt_book. cbn [set_].
  apply made_set; [|constructor; auto|left; reflexivity]. apply made_set; [|constructor; auto|left; reflexivity].
  apply made_set; [|constructor; auto|left; reflexivity]. apply made_new.
Qed.

(** ** C32: == of histograms is an equivalence *)
(** What the comparison of parsed weights and filters is: an equivalence that tells none from some. *)
Definition fair (parsed_eqb : list (string * wsrc) * option wsrc * option wsrc -> list (string * wsrc) * option wsrc * option wsrc -> bool) : Prop :=
  (forall x, parsed_eqb x x = true) /\ (forall x y, parsed_eqb x y = true -> parsed_eqb y x = true) /\
  (forall x y z, parsed_eqb x y = true -> parsed_eqb y z = true -> parsed_eqb x z = true) /\
  (forall d w f d' w' f', parsed_eqb (d, w, f) (d', w', f') = true -> (w = None <-> w' = None) /\ (f = None <-> f' = None)).
(** A histogram as Python keeps it (its dicts have no key twice), without NaN in its parameters and contents. *)
Definition sane (h : hobj) : Prop :=
  hobj_ok h /\ NoDup (map fst (o_defs h)) /\ NoDup (map fst (o_attach h)) /\ Forall (fun kv => snd kv <> XNum NaN) (o_defs h) /\
  Forall nan_free_axis (o_axes h) /\ nan_free (o_content h).
Lemma dict_eqb_iff {A} (eqb : A -> A -> bool) (R : A -> A -> Prop) (l m : list (string * A)) :
  (forall x y, eqb x y = true <-> R x y) -> NoDup (map fst l) -> NoDup (map fst m) ->
  (dict_eqb eqb l m = true <-> forall k, match sassoc k l, sassoc k m with Some x, Some y => R x y | None, None => True | _, _ => False end).
Proof.
  intros HR N1 N2. unfold dict_eqb. rewrite andb_true_iff, Nat.eqb_eq, forallb_forall. split.
  - intros (E & F) k. destruct (sassoc k l) as [x|] eqn:S.
    + apply sassoc_some in S. specialize (F _ S). cbn [fst snd] in F. destruct (sassoc k m) as [y|]; [apply HR; auto|discriminate].
    + destruct (sassoc k m) as [y|] eqn:T; auto. apply sassoc_none in S. apply S.
      assert (I : incl (map fst m) (map fst l)).
      { apply NoDup_length_incl; auto; [rewrite !map_length; lia|]. intros n Hn. destruct (sassoc_key n l Hn) as (x & Sx). apply sassoc_some in Sx.
        specialize (F _ Sx). cbn [fst snd] in F. destruct (sassoc n m) as [z|] eqn:U; [|discriminate]. apply sassoc_some in U. eapply in_key; eauto. }
      apply I. apply sassoc_some in T. eapply in_key; eauto.
  - intros H. split.
    + assert (I : forall n, In n (map fst l) <-> In n (map fst m)).
      { intros n. specialize (H n). split; intros Hn; destruct (sassoc_key n _ Hn) as (x & Sx); rewrite Sx in H.
        - destruct (sassoc n m) as [y|] eqn:T; [|contradiction]. apply sassoc_some in T. eapply in_key; eauto.
        - destruct (sassoc n l) as [y|] eqn:T; [|contradiction]. apply sassoc_some in T. eapply in_key; eauto. }
      rewrite <- (map_length fst l), <- (map_length fst m). apply Nat.le_antisymm; apply NoDup_incl_length; auto; intros n Hn; apply I; auto.
    + intros [k x] Hi. cbn [fst snd]. specialize (H k). rewrite (sassoc_in k x l N1 Hi) in H. destruct (sassoc k m) as [y|]; [apply HR; auto|contradiction].
Qed.
Lemma wsrc_eqb_iff a b : wsrc_eqb a b = true <-> a = b /\ a <> XNum NaN.
Proof.
  destruct a as [s|x], b as [t|y]; cbn [wsrc_eqb].
  - rewrite String.eqb_eq. split; [intros ->; split; [auto|discriminate]|intros (E & _); injection E; auto].
  - split; [discriminate|intros (E & _); discriminate].
  - split; [discriminate|intros (E & _); discriminate].
  - rewrite neqb_iff. split.
    + intros (-> & H). split; auto. intros E. injection E as ->. discriminate.
    + intros (E & H). injection E as ->. split; auto. destruct y; auto. exfalso. apply H. reflexivity.
Qed.
Lemma hist_eqb_iff parsed_eqb h g : fair parsed_eqb -> sane h -> sane g ->
  (hist_eqb parsed_eqb h g = true <->
   o_group h = o_group g /\ o_fixed h = o_fixed g /\ o_prof h = o_prof g /\
   parsed_eqb (o_defs h, o_weight h, o_filter h) (o_defs g, o_weight g, o_filter g) = true /\
   (forall k, sassoc k (o_defs h) = sassoc k (o_defs g)) /\ (forall k, sassoc k (o_attach h) = sassoc k (o_attach g)) /\
   (forall ks, AlgSpec.node (o_content h) ks = AlgSpec.node (o_content g) ks)).
Proof.
  intros (_ & _ & _ & Fr) (Oh & D1 & A1 & Nd & Nx & Nc) (Og & D2 & A2 & Nd' & Nx' & Nc').
  assert (Dd : dict_eqb wsrc_eqb (o_defs h) (o_defs g) = true <-> forall k, sassoc k (o_defs h) = sassoc k (o_defs g)).
  { rewrite (dict_eqb_iff wsrc_eqb _ _ _ wsrc_eqb_iff D1 D2). split; intros H k; specialize (H k).
    - destruct (sassoc k (o_defs h)), (sassoc k (o_defs g)); try contradiction; auto. destruct H as (-> & _). auto.
    - rewrite <- H. destruct (sassoc k (o_defs h)) as [x|] eqn:S; auto. split; auto. apply sassoc_some in S. rewrite Forall_forall in Nd. apply (Nd _ S). }
  assert (Da : dict_eqb String.eqb (o_attach h) (o_attach g) = true <-> forall k, sassoc k (o_attach h) = sassoc k (o_attach g)).
  { rewrite (dict_eqb_iff String.eqb eq _ _ String.eqb_eq A1 A2). split; intros H k; specialize (H k).
    - destruct (sassoc k (o_attach h)), (sassoc k (o_attach g)); try contradiction; auto. congruence.
    - rewrite <- H. destruct (sassoc k (o_attach h)); auto. }
  assert (Nx0 := Nx). unfold o_axes in Nx0. rewrite !Forall_app in Nx0. destruct Nx0 as (Ng & Nf & Np).
  unfold hist_eqb. rewrite !andb_true_iff, Dd, Da, !axes_eqb_iff. split.
  - intros ((((((( E1 & _) & (E2 & _)) & (E3 & _)) & E4) & E5) & E7) & E6). repeat (split; [assumption|]).
    apply (C32_contents_equal h g Oh Og); auto.
    + unfold o_axes. congruence.
    + unfold weighted, o_layout. cbn [l_weighted]. destruct (Fr _ _ _ _ _ _ E4) as (W & F).
      destruct (o_weight h), (o_weight g), (o_filter h), (o_filter g); auto; intuition discriminate.
  - intros (E1 & E2 & E3 & E4 & E5 & E6 & E7). repeat (split; auto). apply (C32_contents_equal h g Oh Og); auto.
    + unfold o_axes. congruence.
    + unfold weighted, o_layout. cbn [l_weighted]. destruct (Fr _ _ _ _ _ _ E4) as (W & F).
      destruct (o_weight h), (o_weight g), (o_filter h), (o_filter g); auto; intuition discriminate.
Qed.
Theorem C32_hist_equality_equivalence parsed_eqb h g k : fair parsed_eqb -> sane h -> sane g -> sane k ->
  hist_eqb parsed_eqb h h = true /\
  (hist_eqb parsed_eqb h g = true -> hist_eqb parsed_eqb g h = true) /\
  (hist_eqb parsed_eqb h g = true -> hist_eqb parsed_eqb g k = true -> hist_eqb parsed_eqb h k = true).
Proof.
  intros F Hh Hg Hk. assert (F0 := F). destruct F0 as (R & S & T & _). rewrite !hist_eqb_iff by auto. split; [|split].
  - repeat (split; auto).
  - intros (E1 & E2 & E3 & E4 & E5 & E6 & E7). repeat (split; auto).
  - intros (E1 & E2 & E3 & E4 & E5 & E6 & E7) (G1 & G2 & G3 & G4 & G5 & G6 & G7).
    split; [congruence|]. split; [congruence|]. split; [congruence|]. split; [eauto|]. split; [intros; congruence|]. split; [intros; congruence|]. intros. rewrite E7. auto.
Qed.
(** == of books: the same class, the same names in the same order, equal entries and attachments. *)
Inductive sane_node : node -> Prop :=
| sane_hist h : sane h -> sane_node (NHist h)
| sane_book c l att : NoDup (map fst att) -> (forall n x, In (n, x) l -> sane_node x) -> sane_node (NBook c l att).
Section Books.
  Variable parsed_eqb : list (string * wsrc) * option wsrc * option wsrc -> list (string * wsrc) * option wsrc * option wsrc -> bool.
  Lemma node_eqb_books c l x d m y : node_eqb parsed_eqb (NBook c l x) (NBook d m y) = true <->
    c = d /\ eqb_items (node_eqb parsed_eqb) l m = true /\ dict_eqb String.eqb x y = true.
  Proof. cbn [node_eqb]. fold (eqb_items (node_eqb parsed_eqb)). rewrite !andb_true_iff, class_eqb_eq. tauto. Qed.
  Lemma att_eqb_iff (l m : list (string * string)) : NoDup (map fst l) -> NoDup (map fst m) ->
    (dict_eqb String.eqb l m = true <-> forall k, sassoc k l = sassoc k m).
  Proof.
    intros A1 A2. rewrite (dict_eqb_iff String.eqb eq _ _ String.eqb_eq A1 A2). split; intros H k; specialize (H k).
    - destruct (sassoc k l), (sassoc k m); try contradiction; auto. congruence.
    - rewrite <- H. destruct (sassoc k l); auto.
  Qed.
  Lemma eqb_items_cons f n x l k y m : eqb_items f ((n, x) :: l) ((k, y) :: m) = true <-> n = k /\ f x y = true /\ eqb_items f l m = true.
  Proof. cbn [eqb_items]. rewrite !andb_true_iff, String.eqb_eq. tauto. Qed.
  Theorem C32_book_equality_equivalence a b c : fair parsed_eqb -> sane_node a -> sane_node b -> sane_node c ->
    node_eqb parsed_eqb a a = true /\
    (node_eqb parsed_eqb a b = true -> node_eqb parsed_eqb b a = true) /\
    (node_eqb parsed_eqb a b = true -> node_eqb parsed_eqb b c = true -> node_eqb parsed_eqb a c = true).
  Proof.
    intros F. revert b c. induction a as [h|k l x IH] using node_induct; intros b c Sa Sb Sc.
    - inversion Sa as [? Sh|]; subst. cbn [node_eqb].
      split; [exact (proj1 (C32_hist_equality_equivalence parsed_eqb h h h F Sh Sh Sh))|].
      destruct b as [g|]; cbn [node_eqb]; [|split; discriminate]. inversion Sb as [? Sg|]; subst.
      split; [exact (proj1 (proj2 (C32_hist_equality_equivalence parsed_eqb h g g F Sh Sg Sg)))|].
      destruct c as [g'|]; cbn [node_eqb]; [|discriminate]. inversion Sc as [? Sg'|]; subst.
      exact (proj2 (proj2 (C32_hist_equality_equivalence parsed_eqb h g g' F Sh Sg Sg'))).
    - inversion Sa as [|? ? ? Nx Fl]; subst. split; [|split].
      + apply node_eqb_books. split; auto. split; [|apply att_eqb_iff; auto].
        clear Sa. induction l as [|[n y] l IHl]; auto. apply eqb_items_cons. split; auto. inversion IH as [|? ? I1 I2]; subst. split.
        * assert (Sy : sane_node y) by (eapply Fl; left; eauto). exact (proj1 (I1 y y Sy Sy Sy)).
        * apply IHl; auto. intros ? ? ?. eapply Fl. right. eauto.
      + destruct b as [|d m y]; [discriminate|]. rewrite !node_eqb_books. inversion Sb as [|? ? ? Ny Fm]; subst. intros (-> & E & A). split; auto. split.
        * clear Sa Sb. revert m Fm E. induction l as [|[n v] l IHl]; intros [|[n' w] m] Fm E; try discriminate; auto.
          apply eqb_items_cons in E. destruct E as (-> & E1 & E2). inversion IH as [|? ? I1 I2]; subst. apply eqb_items_cons. split; auto. split.
          -- assert (Sv : sane_node v) by (eapply Fl; left; eauto). assert (Sw : sane_node w) by (eapply Fm; left; eauto).
             exact (proj1 (proj2 (I1 w w Sv Sw Sw)) E1).
          -- apply IHl; auto; intros ? ? ?; [eapply Fl|eapply Fm]; right; eauto.
        * apply att_eqb_iff; auto. intros q. symmetry. exact (proj1 (att_eqb_iff x y Nx Ny) A q).
      + destruct b as [|d m y]; [discriminate|]. destruct c as [|e m' z]; [rewrite node_eqb_books; discriminate|]. rewrite !node_eqb_books.
        inversion Sb as [|? ? ? Ny Fm]; subst. inversion Sc as [|? ? ? Nz Fm']; subst. intros (-> & E & A) (-> & E' & A'). split; auto. split.
        * clear Sa Sb Sc. revert m m' Fm Fm' E E'. induction l as [|[n v] l IHl]; intros [|[n' w] m] [|[n2 w2] m'] Fm Fm' E E'; try discriminate; auto.
          apply eqb_items_cons in E. apply eqb_items_cons in E'. destruct E as (-> & E1 & E2), E' as (-> & E1' & E2'). inversion IH as [|? ? I1 I2]; subst.
          apply eqb_items_cons. split; auto. split.
          -- assert (Sv : sane_node v) by (eapply Fl; left; eauto). assert (Sw : sane_node w) by (eapply Fm; left; eauto).
             assert (Sw2 : sane_node w2) by (eapply Fm'; left; eauto). exact (proj2 (proj2 (I1 w w2 Sv Sw Sw2)) E1 E1').
          -- apply (IHl I2) with (m := m); auto; intros ? ? ?; [eapply Fl|eapply Fm|eapply Fm']; right; eauto.
        * apply att_eqb_iff; auto. intros q. transitivity (sassoc q y); [exact (proj1 (att_eqb_iff x y Nx Ny) A q)|exact (proj1 (att_eqb_iff y z Ny Nz) A' q)].
  Qed.
End Books.
(** The order of the names counts: books with the same entries can differ. *)
Theorem C32_book_order_refuted : exists x y, made plain_hist x /\ made plain_hist y /\
  (forall p, node_at x p = None <-> node_at y p = None) /\ (forall p h, node_at x p = Some (NHist h) <-> node_at y p = Some (NHist h)) /\
  forall parsed_eqb, node_eqb parsed_eqb x y = false.
Proof.
  exists (set_ (set_ (NBook KBook [] []) "a" (NHist bt_1)) "b" (NHist bt_2)), (set_ (set_ (NBook KBook [] []) "b" (NHist bt_2)) "a" (NHist bt_1)).
  destruct bt_plain as (P1 & P2 & P3).
  assert (At : forall p, p <> [] -> node_at (set_ (set_ (NBook KBook [] []) "a" (NHist bt_1)) "b" (NHist bt_2)) p =
    node_at (set_ (set_ (NBook KBook [] []) "b" (NHist bt_2)) "a" (NHist bt_1)) p).
  { intros [|k p]; [congruence|]. intros _. cbn [set_]. rewrite !node_at_cons. change (fst (tsetitem KBook [] "a" (NHist bt_1))) with [("a", NHist bt_1)].
    change (fst (tsetitem KBook [] "b" (NHist bt_2))) with [("b", NHist bt_2)].
    change (fst (tsetitem KBook [("a", NHist bt_1)] "b" (NHist bt_2))) with [("a", NHist bt_1); ("b", NHist bt_2)].
    change (fst (tsetitem KBook [("b", NHist bt_2)] "a" (NHist bt_1))) with [("b", NHist bt_2); ("a", NHist bt_1)].
    cbn [sassoc]. destruct (String.eqb k "a") eqn:Ea; [apply String.eqb_eq in Ea; subst; reflexivity|]. destruct (String.eqb k "b"); auto. }
  split; [|split]; [| |split; [|split]].
  1-2: cbn [set_]; apply made_set; [|constructor; auto|left; reflexivity]; apply made_set; [apply made_new|constructor; auto|left; reflexivity].
  - intros [|k p]; [cbn; split; discriminate|]. rewrite At by discriminate. tauto.
  - intros [|k p] h; [cbn; split; discriminate|]. rewrite At by discriminate. tauto.
  - reflexivity.
Qed.
Example C32_sane : fair (fun x y => match x, y with (_, w, f), (_, w', f') =>
    match w, w', f, f' with None, None, None, None | Some _, Some _, None, None | None, None, Some _, Some _ | Some _, Some _, Some _, Some _ => true | _, _, _, _ => false end end)
  /\ sane bt_1 /\ sane_node (NBook KBook [("h", NHist bt_1)] [("k", "v")]).
Proof.
  assert (S : sane bt_1).
  { split; [split; [constructor|split; [repeat constructor|split; [constructor|right; reflexivity]]]|].
    split; [constructor|]. split; [repeat constructor; cbn; intuition|]. split; [constructor|]. split; [repeat constructor|].
    intros [|k ks] d H; [injection H as <-; repeat constructor|discriminate]. }
  split; [|split; [exact S|]].
  - split; [|split; [|split]].
    + intros [[d [w|]] [f|]]; auto.
    + intros [[d [w|]] [f|]] [[d' [w'|]] [f'|]]; auto.
    + intros [[d [w|]] [f|]] [[d' [w'|]] [f'|]] [[e [v|]] [g|]]; auto; discriminate.
    + intros d [w|] [f|] d' [w'|] [f'|]; try discriminate; intros _; split; split; auto; discriminate.
  - constructor; [repeat constructor; cbn; intuition|]. intros n x [E|[]]. injection E as <- <-. constructor. exact S.
Qed.

(** ** C63: JSON *)
Section Json.
  Variable axis_check : list (string * wsrc) -> string -> option err.
  Variable weight_check : list (string * wsrc) -> option wsrc -> option wsrc -> option err.
  Notation constructed := (constructed axis_check weight_check).
  Notation fromjson := (book_fromjson axis_check weight_check).
  (** Every book that programs can make comes back from its JSON (given enough stack). *)
  Theorem C63_book_json_roundtrip c l att : made constructed (NBook c l att) ->
    exists j, node_tojson (NBook c l att) = Ok j /\ exists N, forall limit, N <= limit -> fromjson limit j = Ok (NBook c l att).
  Proof. intros H. destruct (proper_back axis_check weight_check _ (made_proper _ _ H)) as (j & E & _ & _ & R). exists j. auto. Qed.
  (** Through the text of json.dumps and json.loads too, if the group keys of the histograms are texts. *)
  Theorem C63_book_json_text repr_num c l att : made constructed (NBook c l att) -> all_in (fun h => string_keys (o_content h)) (NBook c l att) ->
    exists j, node_tojson (NBook c l att) = Ok j /\ exists N, forall limit, N <= limit -> fromjson limit (through_text repr_num j) = Ok (NBook c l att).
  Proof.
    intros H S. assert (Pr := made_proper _ _ H). destruct (C63_book_json_roundtrip c l att H) as (j & E & R). exists j. split; auto.
    rewrite (text_node axis_check weight_check repr_num _ S Pr j E). auto.
  Qed.
End Json.
Example C63_case : made (constructed nocheck nocheck') bt_book /\ all_in (fun h => string_keys (o_content h)) bt_book /\
  match bt_book with NBook c l _ => c = KBook /\ map fst l = ["a"; "z"] | NHist _ => False end.
Proof.
  destruct bt_constructed as (H1 & H2 & H3). split; [apply bt_made; auto|]. split; [|split; reflexivity].
  assert (E : bt_book = NBook KBook [("a", NBook KBook [("h", NHist bt_1); ("k", NHist bt_3)] []); ("z", NHist bt_2)] []) by reflexivity. rewrite E.
  intros [|k p] h; [discriminate|]. rewrite node_at_cons. cbn [sassoc].
  destruct (String.eqb k "a").
  - destruct p as [|k' p]; [discriminate|]. rewrite node_at_cons. cbn [sassoc].
    destruct (String.eqb k' "h"); [|destruct (String.eqb k' "k"); [|discriminate]]; (destruct p; [|discriminate]); intros X; injection X as <-; exact I.
  - destruct (String.eqb k "z"); [|discriminate]. destruct p; [|discriminate]. intros X. injection X as <-. exact I.
Qed.
(** A failed assignment to a SystematicsBook leaves a book that has a JSON but does not come back. *)
Theorem C63_failed_assignment_refuted : exists l v, made (constructed nocheck nocheck') (NBook KSystematics l []) /\ constructed nocheck nocheck' v /\
  snd (tsetitem KSystematics l "up" (NHist v)) = Some ValueError /\
  exists j, node_tojson (NBook KSystematics (fst (tsetitem KSystematics l "up" (NHist v))) []) = Ok j /\
    forall limit, book_fromjson nocheck nocheck' (S limit) j = Err ValueError.
Proof.
  exists [], (bt_h 2 [] (arr [1; 2]%Z)). split; [apply made_new|]. split.
  - split; [|right; reflexivity]. exists [ABin "x" 2 (nz 0) (nz 2) false false false true]. split; [|reflexivity]. constructor; [|constructor].
    apply (built_bin "x" 2 (nz 0) (nz 2) false false false true). reflexivity.
  - split; [reflexivity|].
    match goal with |- exists j, ?t = Ok j /\ _ => let x := eval vm_compute in t in match x with Ok ?j => exists j end end.
    split; [vm_compute; reflexivity|]. intros limit. cbn. reflexivity.
Qed.

(** ** C64: comparison *)
Theorem C64_compatible x y : made plain_hist x -> made plain_hist y -> plain_names x ->
  (node_compatible x y = Ok true <-> alike false x y).
Proof.
  intros Hx Hy Pn. apply made_proper in Hx. apply made_proper in Hy. split; [apply compatible_alike|apply alike_compatible]; auto.
Qed.
Theorem C64_compatible_no_error x y : made plain_hist x -> made plain_hist y -> plain_names x -> same_kinds x y ->
  exists b, node_compatible x y = Ok b.
Proof. intros Hx Hy. apply made_proper in Hx. apply made_proper in Hy. apply compatible_total; auto. Qed.
Theorem C64_compatible_equivalence x y z : made plain_hist x -> made plain_hist y -> made plain_hist z ->
  plain_names x -> plain_names y ->
  node_compatible x x = Ok true /\
  (node_compatible x y = Ok true -> node_compatible y x = Ok true) /\
  (node_compatible x y = Ok true -> node_compatible y z = Ok true -> node_compatible x z = Ok true).
Proof.
  intros Hx Hy Hz Px Py. rewrite !C64_compatible by auto. split; [|split].
  - eapply alike_refl. eapply made_proper; eauto.
  - apply alike_sym.
  - apply alike_trans.
Qed.
Theorem C64_assertcompatible c l att : made plain_hist (NBook c l att) -> (forall n x, In (n, x) l -> plain_names x) ->
  (assertcompatible l = None <-> forall n x m y, In (n, x) l -> In (m, y) l -> alike true x y) /\
  (assertcompatible l = None \/ assertcompatible l = Some ValueError).
Proof.
  intros H Pn. apply made_proper in H. inversion H as [|? ? ? ND F C]; subst.
  assert (G : Forall (proper plain_hist) (map snd l)). { apply Forall_forall. intros x Hx. apply in_map_iff in Hx. destruct Hx as ([n x'] & <- & Hx). apply (F n x' Hx). }
  split; [split|].
  - intros E n x m y Hx Hy. eapply chain_alike; eauto; [apply (in_map snd) in Hx|apply (in_map snd) in Hy]; auto.
  - intros A. apply alike_chain; auto.
    + intros x Hx. apply in_map_iff in Hx. destruct Hx as ([n x'] & <- & Hx). eapply Pn; eauto.
    + intros x y Hx Hy. apply in_map_iff in Hx. apply in_map_iff in Hy. destruct Hx as ([n x'] & <- & Hx), Hy as ([m y'] & <- & Hy). eapply A; eauto.
  - apply chain_value. auto.
Qed.
(** x and a book with the same names, in another order and of another class, with other contents *)
Definition bt_other : node :=
  set_ (set_ (set_ (NBook KChannels [] []) "z" (NHist bt_1)) "a/k" (NHist bt_3)) "a/h" (NHist bt_2).
Lemma bt_book_is : bt_book = NBook KBook [("a", NBook KBook [("h", NHist bt_1); ("k", NHist bt_3)] []); ("z", NHist bt_2)] [].
Proof. reflexivity. Qed.
Lemma bt_names : plain_names bt_book.
Proof.
  rewrite bt_book_is. intros [|k p] n y; cbn [app]; rewrite node_at_cons; cbn [sassoc].
  - destruct (String.eqb n "a") eqn:E; [apply String.eqb_eq in E; subst; reflexivity|].
    destruct (String.eqb n "z") eqn:E'; [apply String.eqb_eq in E'; subst; reflexivity|discriminate].
  - destruct (String.eqb k "a").
    + destruct p as [|k' p]; cbn [app]; rewrite node_at_cons; cbn [sassoc].
      * destruct (String.eqb n "h") eqn:E; [apply String.eqb_eq in E; subst; reflexivity|].
        destruct (String.eqb n "k") eqn:E'; [apply String.eqb_eq in E'; subst; reflexivity|discriminate].
      * destruct (String.eqb k' "h"), (String.eqb k' "k"), p; try discriminate; cbn; discriminate.
    + destruct (String.eqb k "z"); [|discriminate]. destruct p; discriminate.
Qed.
Example C64_case : made plain_hist bt_book /\ made plain_hist bt_other /\ plain_names bt_book /\ node_compatible bt_book bt_other = Ok true /\
  node_compatible bt_book (set_ bt_other "z" (NHist bt_3)) = Ok false.
Proof.
  destruct bt_plain as (P1 & P2 & P3). split; [apply bt_made; auto|]. split; [|split; [exact bt_names|split; reflexivity]].
  unfold bt_other. cbn [set_].
  apply made_set; [|constructor; auto|left; reflexivity]. apply made_set; [|constructor; auto|left; reflexivity].
  apply made_set; [|constructor; auto|left; reflexivity]. apply made_new.
Qed.
(** With wildcard characters in a name, comparing a book with itself raises; so does comparing books
    where one has a histogram and the other a book. *)
Theorem C64_wildcard_names_refuted : exists x, made plain_hist x /\ alike true x x /\
  node_compatible x x = Err AttributeError /\ assertcompatible [("a", x); ("b", x)] = Some ValueError.
Proof.
  destruct bt_plain as (P1 & P2 & P3). exists (set_ (NBook KBook [] []) "h*" (NHist bt_1)).
  assert (M : made plain_hist (set_ (NBook KBook [] []) "h*" (NHist bt_1))).
  { cbn [set_]. apply made_set; [apply made_new|constructor; auto|left; reflexivity]. }
  split; auto. split; [eapply alike_refl; eapply made_proper; eauto|]. split; reflexivity.
Qed.
Theorem C64_kinds_refuted : exists x y, made plain_hist x /\ made plain_hist y /\ plain_names x /\ node_compatible x y = Err AttributeError.
Proof.
  destruct bt_plain as (P1 & P2 & P3). exists (set_ (NBook KBook [] []) "h" (NHist bt_1)), (set_ (NBook KBook [] []) "h/k" (NHist bt_1)).
  split; [|split; [|split; [|reflexivity]]].
  1-2: cbn [set_]; apply made_set; [apply made_new|constructor; auto|left; reflexivity].
  change (set_ (NBook KBook [] []) "h" (NHist bt_1)) with (NBook KBook [("h", NHist bt_1)] []).
  intros [|k p] n y; cbn [app]; rewrite node_at_cons; cbn [sassoc].
  - destruct (String.eqb n "h") eqn:E; [apply String.eqb_eq in E; subst; reflexivity|discriminate].
  - destruct (String.eqb k "h"); [|discriminate]. destruct p; discriminate.
Qed.

(** ** C65: SystematicsBook *)
(** Its entries are alike, and each histogram anywhere in it has a 'systematic' attachment. *)
Definition systematic (l : list (string * node)) : Prop :=
  (forall n x m y, In (n, x) l -> In (m, y) l -> alike true x y) /\
  (forall n x p h, In (n, x) l -> node_at x p = Some (NHist h) -> In "systematic" (map fst (o_attach h))).
Lemma changed_systematic l : (forall n x, In (n, x) l -> proper plain_hist x) ->
  (changed KSystematics l = None -> systematic l) /\
  ((forall n x, In (n, x) l -> plain_names x) -> systematic l -> changed KSystematics l = None) /\
  (changed KSystematics l = None \/ changed KSystematics l = Some ValueError).
Proof.
  intros F.
  assert (G : Forall (proper plain_hist) (map snd l)). { apply Forall_forall. intros x Hx. apply in_map_iff in Hx. destruct Hx as ([n x'] & <- & Hx). apply (F n x' Hx). }
  assert (Hs : forall h, In h (flat_map (fun kx : string * node => hists_of (snd kx)) l) <-> exists n x p, In (n, x) l /\ node_at x p = Some (NHist h)).
  { intros h. rewrite in_flat_map. split.
    - intros ([n x] & Hx & H). apply (in_hists plain_hist x h (F n x Hx)) in H. destruct H as (p & H). exists n, x, p. auto.
    - intros (n & x & p & Hx & H). exists (n, x). split; auto. apply (in_hists plain_hist x h (F n x Hx)). eauto. }
  assert (Has : forallb (has "systematic") (flat_map (fun kx : string * node => hists_of (snd kx)) l) = true <->
    (forall n x p h, In (n, x) l -> node_at x p = Some (NHist h) -> In "systematic" (map fst (o_attach h)))).
  { rewrite forallb_forall. split.
    - intros H n x p h Hx Hp. apply mem_in. apply H. apply Hs. eauto.
    - intros H h Hh. apply Hs in Hh. destruct Hh as (n & x & p & Hx & Hp). apply mem_in. eapply H; eauto. }
  cbn [changed]. unfold assertcompatible. split; [|split].
  - destruct (assert_chain (map snd l)) eqn:A; [discriminate|]. destruct (forallb _ _) eqn:B; [|discriminate]. intros _. split; [|apply Has; auto].
    intros n x m y Hx Hy. eapply chain_alike; eauto; [apply (in_map snd) in Hx|apply (in_map snd) in Hy]; auto.
  - intros Pn (A & B). rewrite alike_chain; auto; [rewrite (proj2 Has B); auto| |].
    + intros x Hx. apply in_map_iff in Hx. destruct Hx as ([n x'] & <- & Hx). eapply Pn; eauto.
    + intros x y Hx Hy. apply in_map_iff in Hx. apply in_map_iff in Hy. destruct Hx as ([n x'] & <- & Hx), Hy as ([m y'] & <- & Hy). eapply A; eauto.
  - destruct (chain_value _ G) as [->| ->]; auto. destruct (forallb _ _); auto.
Qed.
Lemma sassoc_set_get {A} k n (v : A) l : sassoc k (sassoc_set n v l) = if String.eqb k n then Some v else sassoc k l.
Proof.
  induction l as [|[k' v'] l IH]; cbn [sassoc_set sassoc]; auto.
  destruct (String.eqb n k') eqn:E; cbn [sassoc].
  - apply String.eqb_eq in E. subst. destruct (String.eqb k k'); auto.
  - rewrite IH. destruct (String.eqb k k') eqn:E'; auto. apply String.eqb_eq in E'. subst. rewrite String.eqb_sym, E. auto.
Qed.
Theorem C65_systematics_checked l att : made plain_hist (NBook KSystematics l att) -> systematic l.
Proof.
  intros H. apply made_proper in H. inversion H as [|? ? ? ND F C]; subst. apply changed_systematic; auto. intros n x Hx. apply (F n x Hx).
Qed.
(** An assignment is refused, with ValueError, exactly if it would break that. *)
Theorem C65_systematics_assignment l att n v : made plain_hist (NBook KSystematics l att) -> made plain_hist v -> cut_slash n = None ->
  plain_names (NBook KSystematics l att) -> plain_names v ->
  let l' := fst (tsetitem KSystematics l n v) in
  (forall k, sassoc k l' = if String.eqb k n then Some v else sassoc k l) /\
  (snd (tsetitem KSystematics l n v) = None <-> systematic l') /\
  (snd (tsetitem KSystematics l n v) = None \/ snd (tsetitem KSystematics l n v) = Some ValueError).
Proof.
  intros H Hv Cn Pl Pv. rewrite tset_plain by auto. cbn [fst snd]. set (l' := sassoc_set n v l). apply made_proper in H. apply made_proper in Hv. inversion H as [|? ? ? ND F C]; subst.
  assert (In' : forall k x, In (k, x) l' -> x = v \/ In (k, x) l).
  { intros k x Hx. unfold l' in Hx. apply set_in in Hx. tauto. }
  assert (F' : forall k x, In (k, x) l' -> proper plain_hist x).
  { intros k x Hx. destruct (In' k x Hx) as [->|Hi]; auto. apply (F k x Hi). }
  destruct (changed_systematic l' F') as (A & B & V). split; [|split; [split|]]; auto.
  - intros k. apply sassoc_set_get.
  - apply B. intros k x Hx. destruct (In' k x Hx) as [->|Hi]; auto. eapply plain_sub; eauto.
Qed.
(** s = SystematicsBook(); s["up"] = Book({"h": bt_1}); s["down/h"] = bt_2 *)
Definition bt_sys : node :=
  set_ (set_ (NBook KSystematics [] []) "up" (set_ (NBook KBook [] []) "h" (NHist bt_1))) "down/h" (NHist bt_2).
Lemma bt_sys_made : made plain_hist bt_sys.
Proof.
  destruct bt_plain as (P1 & P2 & P3). unfold bt_sys. cbn [set_].
  apply made_set; [|constructor; auto|left; reflexivity]. apply made_set; [apply made_new| |left; reflexivity].
  apply made_set; [apply made_new|constructor; auto|left; reflexivity].
Qed.
Example C65_case : made plain_hist bt_sys /\
  bt_sys = NBook KSystematics [("up", NBook KBook [("h", NHist bt_1)] []); ("down", NBook KBook [("h", NHist bt_2)] [])] [].
Proof. split; [exact bt_sys_made|reflexivity]. Qed.
(** A refused assignment is not undone: the book then has the wrong entry, and refuses good ones. *)
Theorem C65_failed_assignment_refuted : exists l v w, made plain_hist (NBook KSystematics l []) /\ made plain_hist v /\
  snd (tsetitem KSystematics l "other" v) = Some ValueError /\
  ~ systematic (fst (tsetitem KSystematics l "other" v)) /\
  snd (tsetitem KSystematics l "good" w) = None /\
  snd (tsetitem KSystematics (fst (tsetitem KSystematics l "other" v)) "good" w) = Some ValueError.
Proof.
  destruct bt_plain as (P1 & P2 & P3).
  exists [("up", NHist bt_1)], (NHist bt_3), (NHist bt_2). split; [|split; [constructor; auto|]].
  - change [("up", NHist bt_1)] with (fst (tsetitem KSystematics [] "up" (NHist bt_1))). apply made_set; [apply made_new|constructor; auto|left; reflexivity].
  - split; [reflexivity|]. split; [|split; reflexivity]. change (fst (tsetitem KSystematics [("up", NHist bt_1)] "other" (NHist bt_3))) with [("up", NHist bt_1); ("other", NHist bt_3)].
    intros (A & _). specialize (A "up" (NHist bt_1) "other" (NHist bt_3) (or_introl eq_refl) (or_intror (or_introl eq_refl))).
    inversion A as [? ? _ E|]; subst. discriminate.
Qed.
(** Nor is the check made when a book inside it is changed. *)
Theorem C65_inner_change_refuted : exists l n y y', made plain_hist (NBook KSystematics (l ++ [(n, y)]) []) /\
  match y with NBook c m a => y' = NBook c (fst (tsetitem c m "k" (NHist bt_3))) a /\ snd (tsetitem c m "k" (NHist bt_3)) = None | NHist _ => False end /\
  made plain_hist y' /\ ~ systematic (l ++ [(n, y')]).
Proof.
  destruct bt_plain as (P1 & P2 & P3).
  exists [("up", NBook KBook [("h", NHist bt_1)] [])], "down", (NBook KBook [("h", NHist bt_2)] []), (NBook KBook [("h", NHist bt_2); ("k", NHist bt_3)] []).
  split; [exact bt_sys_made|]. split; [split; reflexivity|]. split.
  - change (NBook KBook [("h", NHist bt_2); ("k", NHist bt_3)] []) with (set_ (set_ (NBook KBook [] []) "h" (NHist bt_2)) "k" (NHist bt_3)). cbn [set_].
    apply made_set; [|constructor; auto|left; reflexivity]. apply made_set; [apply made_new|constructor; auto|left; reflexivity].
  - intros (A & _). specialize (A _ _ _ _ (or_introl eq_refl) (or_intror (or_introl eq_refl))). inversion A as [|? ? ? ? ? ? _ N _]; subst.
    specialize (N "k"). cbn in N. destruct N as (_ & N). destruct N as [E|[]]; [right; left; reflexivity|discriminate].
Qed.

(** ** C66: group *)
(** The value of a key in the attachments of several books: the last one that has it. *)
Fixpoint latest (k : string) (books : list (string * node)) : option string :=
  match books with
  | [] => None
  | (_, b) :: t => match latest k t with Some v => Some v | None => sassoc k (attachment_of b) end
  end.
Section Group.
  (** the order of Python's sets *)
  Variable order : list string -> list string.
  Hypothesis Horder : forall l, Permutation l (order l).
  Definition books_made (books : list (string * node)) : Prop :=
    forall n b, In (n, b) books -> made (fun _ => True) b /\ is_hist_node b = false.
  Lemma made_goods books : books_made books -> goods books.
  Proof. intros H n b Hb. destruct (H n b Hb) as (M & K). split; auto. apply made_proper. auto. Qed.
  (** At each path where books have histograms, the result has their group; and nowhere else. *)
  Theorem C66_group_histograms limit cls by_ books out : books_made books -> book_group order limit cls by_ books = Ok out ->
    forall p, match members books p with
              | [] => forall g, node_at out p <> Some (NHist g)
              | hs => exists g, node_at out p = Some (NHist g) /\ group_hists by_ hs = Ok g
              end.
  Proof. intros H. apply group_hists_at; auto. apply made_goods. auto. Qed.
  (** The paths are those of the books, with the same classes. *)
  Theorem C66_group_paths limit cls by_ books out : books_made books -> book_group order limit cls by_ books = Ok out ->
    forall p k, p <> [] -> (option_map kind_of (node_at out p) = Some k <->
      exists n b, In (n, b) books /\ option_map kind_of (node_at b p) = Some k).
  Proof. intros H. apply group_kinds; auto. apply made_goods. auto. Qed.
  (** It succeeds if the books are as [groupable] says. *)
  Theorem C66_group_succeeds cls by_ books : books_made books -> books <> [] -> cls <> KSystematics -> groupable by_ books ->
    exists N, forall limit, N <= limit -> exists out, book_group order limit cls by_ books = Ok out.
  Proof.
    intros H Hn Hc Hg. exists (fold_right (fun kx n => Nat.max (height (snd kx)) n) 0 books). intros limit Hl.
    apply group_total; auto; [apply made_goods; auto|]. intros k b Hb.
    apply Nat.le_trans with (2 := Hl). clear - Hb. induction books as [|[k' b'] t IH]; [contradiction|]. cbn [fold_right snd].
    destruct Hb as [E|Hb]; [injection E as <- <-; lia|]. specialize (IH Hb). lia.
  Qed.
  (** The entries of each book are under its name in the histograms of the result. *)
  Theorem C66_group_keeps_entries limit cls by_ books out p n b h0 h : books_made books -> NoDup (map fst books) ->
    book_group order limit cls by_ books = Ok out -> In (n, b) books -> node_at b p = Some (NHist h) ->
    (forall m x, In (m, x) (members books p) -> hobj_ok x /\ o_content x <> CNone /\ o_axes x = o_axes h0 /\ o_filter x = None) ->
    ((forall m x, In (m, x) (members books p) -> o_weight x = None) \/ (forall m x, In (m, x) (members books p) -> o_weight x <> None)) ->
    Forall nan_free_axis (o_axes h0) -> ~ In (AGroupby by_) (o_axes h0) ->
    exists g, node_at out p = Some (NHist g) /\ o_axes g = AGroupby by_ :: o_axes h0 /\
      (forall ks, block (o_content g) (GStr n :: ks) = block (o_content h) ks) /\
      (forall k ks, (forall m b, In (m, b) books -> k <> GStr m) -> block (o_content g) (k :: ks) = None).
  Proof.
    intros H ND E Hb Hp Ok W N NI.
    assert (Keys : forall m, In m (map fst (members books p)) -> exists b, In (m, b) books).
    { intros m Hm. clear - Hm. induction books as [|[k c] t IH]; [contradiction|]. cbn [members] in Hm.
      destruct (node_at c p) as [[x|]|]; try (destruct (IH Hm) as (d & Hd); exists d; right; auto; fail).
      cbn [map fst] in Hm. destruct Hm as [<-|Hm]; [exists c; left; auto|]. destruct (IH Hm) as (d & Hd). exists d. right. auto. }
    assert (ND' : NoDup (map fst (members books p))).
    { clear - ND Keys. revert ND Keys. induction books as [|[k c] t IH]; intros ND Keys; [constructor|]. cbn [map fst] in ND. inversion ND as [|? ? N1 N2]; subst.
      assert (K2 : forall t', (forall m, In m (map fst (members t' p)) -> In m (map fst t'))).
      { clear. induction t' as [|[k c] t IH]; cbn [members]; auto. intros m. destruct (node_at c p) as [[x|]|]; cbn [map fst]; intros Hm; try (right; auto; fail).
        destruct Hm as [->|Hm]; [left; auto|right; auto]. }
      assert (IH' : NoDup (map fst (members t p))).
      { apply IH; auto. intros m Hm. apply K2 in Hm. apply in_map_iff in Hm. destruct Hm as ([m' d] & <- & Hd). exists d. auto. }
      cbn [members]. destruct (node_at c p) as [[x|]|]; auto. cbn [map fst]. constructor; auto. }
    assert (Hm : In (n, h) (members books p)).
    { clear - Hb Hp. induction books as [|[k c] t IH]; [contradiction|]. cbn [members]. destruct Hb as [X|Hb].
      - injection X as -> ->. rewrite Hp. left. auto.
      - specialize (IH Hb). destruct (node_at c p) as [[x|]|]; auto. right. auto. }
    assert (G := C66_group_histograms limit cls by_ books out H E p).
    destruct (members books p) as [|[n1 h1] rest] eqn:M; [contradiction|]. destruct G as (g & At & Gr).
    destruct (Ok n1 h1 (or_introl eq_refl)) as (_ & _ & Ax & _).
    destruct (C34_group by_ h1 n1 rest) as (s & Es & _ & As & Bs & Ns); auto.
    - apply Forall_forall. intros [m x] Hx. destruct (Ok m x Hx) as (O1 & O2 & O3 & O4). cbn [snd]. split; [exact O1|]. split; [exact O2|]. split; [congruence|exact O4].
    - destruct W as [W|W]; [left|right]; apply Forall_forall; intros [m x] Hx; cbn [snd]; eapply W; eauto.
    - rewrite Ax. auto.
    - rewrite Ax. auto.
    - exists g. assert (s = g) by congruence. subst s. split; auto. split; [congruence|]. split.
      + intros ks. apply (Bs n h ks Hm).
      + intros k ks Hk. apply Ns. intros m Hx. destruct (Keys m Hx) as (b' & Hb'). eapply Hk; eauto.
  Qed.
  (** Its attachments are those of the books, the last one first. *)
  Theorem C66_group_attachments limit cls by_ books out : (forall n b, In (n, b) books -> NoDup (map fst (attachment_of b))) ->
    book_group order limit cls by_ books = Ok out -> forall k, sassoc k (attachment_of out) = latest k books.
  Proof.
    intros ND E k. destruct limit; [discriminate|]. cbn [book_group] in E. destruct books as [|kb t] eqn:B; [discriminate|]. rewrite <- B in *. clear B kb t.
    match type of E with (do items <- ?X; _) = _ => destruct X as [items|]; [|discriminate] end. cbn [bind] in E. unfold tfromdicts in E.
    destruct (set_all cls [] items) as [l|]; [|discriminate]. cbn [bind] in E. injection E as <-. cbn [attachment_of].
    assert (U : forall (b a : list (string * string)), NoDup (map fst b) -> sassoc k (dict_update a b) = match sassoc k b with Some v => Some v | None => sassoc k a end).
    { induction b as [|[k' v'] b IH]; intros a N; auto. cbn [map fst] in N. inversion N as [|? ? N1 N2]; subst. unfold dict_update. cbn [fold_left fst snd].
      fold (dict_update (sassoc_set k' v' a) b). rewrite IH by auto. cbn [sassoc]. rewrite sassoc_set_get.
      destruct (String.eqb k k') eqn:Ek; auto. apply String.eqb_eq in Ek. subst. rewrite (proj2 (sassoc_none k' b)) by auto. auto. }
    assert (V : forall bs (a : list (string * string)), (forall n b, In (n, b) bs -> NoDup (map fst (attachment_of b))) ->
      sassoc k (fold_left (fun d kx => dict_update d (attachment_of (snd kx))) bs a) = match latest k bs with Some v => Some v | None => sassoc k a end).
    { induction bs as [|[n b] bs IH]; intros a N; auto. cbn [fold_left snd latest]. rewrite IH by (intros; eapply N; right; eauto). rewrite U by (eapply N; left; eauto).
      destruct (latest k bs); auto. }
    rewrite V by auto. cbn [sassoc]. destruct (latest k books); auto.
  Qed.
End Group.
Definition bt_books : list (string * node) := [("one", bt_book); ("two", bt_other)].
Example C66_case : books_made bt_books /\ NoDup (map fst bt_books) /\
  exists out, book_group (fun l => l) 2 KBook "source" bt_books = Ok out /\ option_map kind_of (node_at out ["a"; "h"]) = Some "Hist" /\
    members bt_books ["a"; "h"] = [("one", bt_1); ("two", bt_2)].
Proof.
  split; [|split; [repeat constructor; cbn; intuition discriminate|]].
  - intros n b [E|[E|[]]]; injection E as <- <-; (split; [|reflexivity]); [apply bt_made; auto|].
    unfold bt_other. cbn [set_]. apply made_set; [|constructor; auto|left; reflexivity]. apply made_set; [|constructor; auto|left; reflexivity].
    apply made_set; [|constructor; auto|left; reflexivity]. apply made_new.
  - match goal with |- exists out, ?t = Ok out /\ _ => let x := eval vm_compute in t in match x with Ok ?j => exists j end end.
    split; [vm_compute; reflexivity|]. split; [vm_compute; reflexivity|reflexivity].
Qed.
Lemma bt_at x p y : x = bt_book \/ x = bt_other -> node_at x p = Some y ->
  (p = [] /\ y = x) \/ (p = ["a"] /\ exists l, y = NBook KBook l []) \/
  ((p = ["z"] \/ p = ["a"; "h"]) /\ (y = NHist bt_1 \/ y = NHist bt_2)) \/ (p = ["a"; "k"] /\ y = NHist bt_3).
Proof.
  assert (B2 : bt_other = NBook KChannels [("z", NHist bt_1); ("a", NBook KBook [("k", NHist bt_3); ("h", NHist bt_2)] [])] []) by reflexivity.
  intros [->| ->] H; [rewrite bt_book_is in *|rewrite B2 in *]; (destruct p as [|k p]; [injection H as <-; auto|]); rewrite node_at_cons in H; cbn [sassoc] in H; right.
  - destruct (String.eqb k "a") eqn:E; [apply String.eqb_eq in E; subst|destruct (String.eqb k "z") eqn:E'; [apply String.eqb_eq in E'; subst|discriminate]].
    + destruct p as [|k p]; [injection H as <-; left; eauto|]. rewrite node_at_cons in H; cbn [sassoc] in H.
      destruct (String.eqb k "h") eqn:F; [apply String.eqb_eq in F; subst|destruct (String.eqb k "k") eqn:F'; [apply String.eqb_eq in F'; subst|discriminate]];
        (destruct p; [injection H as <-|discriminate]); auto 6.
    + destruct p; [injection H as <-; auto 6|discriminate].
  - destruct (String.eqb k "z") eqn:E'; [apply String.eqb_eq in E'; subst|destruct (String.eqb k "a") eqn:E; [apply String.eqb_eq in E; subst|discriminate]].
    + destruct p; [injection H as <-; auto 6|discriminate].
    + destruct p as [|k p]; [injection H as <-; left; eauto|]. rewrite node_at_cons in H; cbn [sassoc] in H.
      destruct (String.eqb k "k") eqn:F'; [apply String.eqb_eq in F'; subst|destruct (String.eqb k "h") eqn:F; [apply String.eqb_eq in F; subst|discriminate]];
        (destruct p; [injection H as <-|discriminate]); auto 6.
Qed.
Example C66_groupable_case : groupable "source" bt_books.
Proof.
  assert (In' : forall n b, In (n, b) bt_books -> b = bt_book \/ b = bt_other) by (intros n b [E|[E|[]]]; injection E as <- <-; auto).
  split; [|split; [|split]].
  - intros n b p c l a Hb H. destruct (bt_at b p _ (In' n b Hb) H) as [(_ & E)|[(_ & l' & E)|[(_ & [E|E])|(_ & E)]]]; try discriminate; try (injection E as -> _; discriminate).
    destruct (In' n b Hb) as [->| ->]; injection E as -> _; discriminate.
  - intros n b p k y Hb H. destruct (bt_at b _ _ (In' n b Hb) H) as [(E & _)|[(E & _)|[([E|E] & _)|(E & _)]]];
      apply (f_equal (fun l => last l "")) in E; rewrite last_last in E; cbn [last] in E; subst k; try reflexivity.
  - intros n b n' b' p x y Hb Hb' Hp H H'.
    destruct (bt_at b _ _ (In' n b Hb) H) as [(E & F)|[(E & l & F)|[([E|E] & [F|F])|(E & F)]]]; try congruence; subst p x;
    destruct (bt_at b' _ _ (In' n' b' Hb') H') as [(E & F)|[(E & l' & F)|[([E|E] & [F|F])|(E & F)]]]; try discriminate; subst y; reflexivity.
  - intros p Hm. unfold bt_books in *. cbn [members] in *.
    destruct (node_at bt_book p) as [x|] eqn:A; [destruct (bt_at bt_book _ _ (or_introl eq_refl) A) as [(E & F)|[(E & l & F)|[([E|E] & _)|(E & F)]]]|
      destruct (node_at bt_other p) as [x|] eqn:B; [destruct (bt_at bt_other _ _ (or_intror eq_refl) B) as [(E & F)|[(E & l & F)|[([E|E] & _)|(E & F)]]]|]];
      try subst p; try subst x; try discriminate; try congruence.
    + exfalso. apply Hm. reflexivity.
    + exfalso. apply Hm. cbn in A. injection A as <-. reflexivity.
    + vm_compute in A. injection A as <-. eexists. vm_compute. reflexivity.
    + vm_compute in A. injection A as <-. eexists. vm_compute. reflexivity.
    + eexists. vm_compute. reflexivity.
Qed.
(** SystematicsBooks cannot be grouped, because the histograms of the result have no attachment; nor
    can books with wildcard characters in a name, nor no books. *)
Theorem C66_systematics_refuted : exists x, made plain_hist x /\ (exists g, group_hists "source" (members [("one", x); ("two", x)] ["up"; "h"]) = Ok g) /\
  (exists g, group_hists "source" (members [("one", x); ("two", x)] ["down"; "h"]) = Ok g) /\
  forall limit, book_group (fun l => l) (S (S (S limit))) KSystematics "source" [("one", x); ("two", x)] = Err ValueError.
Proof.
  exists bt_sys. split; [exact bt_sys_made|].
  split; [|split].
  - match goal with |- exists out, ?t = Ok out => let x := eval vm_compute in t in match x with Ok ?j => exists j end end. vm_compute. reflexivity.
  - match goal with |- exists out, ?t = Ok out => let x := eval vm_compute in t in match x with Ok ?j => exists j end end. vm_compute. reflexivity.
  - intros limit. vm_compute. reflexivity.
Qed.
Theorem C66_wildcard_names_refuted : exists x, made plain_hist x /\ (exists g, group_hists "source" (members [("one", x); ("two", x)] ["h*"]) = Ok g) /\
  forall limit, book_group (fun l => l) (S limit) KBook "source" [("one", x); ("two", x)] = Err AttributeError.
Proof.
  destruct bt_plain as (P1 & P2 & P3). exists (set_ (NBook KBook [] []) "h*" (NHist bt_1)). split; [|split].
  - cbn [set_]. apply made_set; [apply made_new|constructor; auto|left; reflexivity].
  - match goal with |- exists out, ?t = Ok out => let x := eval vm_compute in t in match x with Ok ?j => exists j end end. vm_compute. reflexivity.
  - intros limit. vm_compute. reflexivity.
Qed.

Print Assumptions C32_hist_equality_equivalence.
Print Assumptions C32_book_equality_equivalence.
Print Assumptions C32_book_order_refuted.
Print Assumptions C63_book_json_roundtrip.
Print Assumptions C63_book_json_text.
Print Assumptions C63_failed_assignment_refuted.
Print Assumptions C64_compatible.
Print Assumptions C64_compatible_no_error.
Print Assumptions C64_compatible_equivalence.
Print Assumptions C64_assertcompatible.
Print Assumptions C64_wildcard_names_refuted.
Print Assumptions C64_kinds_refuted.
Print Assumptions C65_systematics_checked.
Print Assumptions C65_systematics_assignment.
Print Assumptions C65_failed_assignment_refuted.
Print Assumptions C65_inner_change_refuted.
Print Assumptions C66_group_histograms.
Print Assumptions C66_group_paths.
Print Assumptions C66_group_succeeds.
Print Assumptions C66_group_keeps_entries.
Print Assumptions C66_group_attachments.
Print Assumptions C66_systematics_refuted.
Print Assumptions C66_wildcard_names_refuted.
