(** C80, books: what a book prints reads back as an empty book of the same shape. *)
From Coq Require Import String.
From Verif Require Import Base Num NumFacts Axis Content Fill AxisAttr AxisAttrSpec AxisAttrProofs HistAlg AlgSpec HistAlgProofs Json JsonProofs
  Book BookTree BookTreeSpec BookTreeProofs BookTreeJson Repr ReprBook Props_Repr Props_BookTree.
Local Open Scope string_scope.
Local Open Scope list_scope.

(** Entries that differ at most in contents and attachments: the same classes of books, with the same
    names in the same order, and histograms with the same axes, weights, filters and definitions. *)
Inductive same_definition : node -> node -> Prop :=
| same_hists h g : same_but_content_and_attachment h g -> same_definition (NHist h) (NHist g)
| same_books c l x m y : Forall2 (fun a b => fst a = fst b /\ same_definition (snd a) (snd b)) l m -> same_definition (NBook c l x) (NBook c m y).
(** Nothing filled and nothing attached. *)
Inductive bare_entry : node -> Prop :=
| bare_hist h : o_content h = CNone -> o_attach h = [] -> bare_entry (NHist h)
| bare_book c l : Forall (fun nx => bare_entry (snd nx)) l -> bare_entry (NBook c l []).

Lemma class_of_name c : class_of (class_name c) = Ok c.
Proof. destruct c; reflexivity. Qed.
Lemma class_name_inj c d : class_name c = class_name d -> c = d.
Proof. destruct c, d; intros H; try reflexivity; discriminate H. Qed.
Lemma sassoc_in {A} n (v : A) l : NoDup (map fst l) -> In (n, v) l -> sassoc n l = Some v.
Proof.
  induction l as [|[k w] l IH]; intros ND H; [destruct H|]; destruct H as [E|I]; cbn [sassoc map fst] in *; inversion ND; subst.
  - injection E as -> ->. rewrite String.eqb_refl. auto.
  - destruct (String.eqb_spec n k) as [->|N]; auto. exfalso. apply (in_map fst) in I. auto.
Qed.

Section Books.
  Variable axis_check : list (string * wsrc) -> string -> option err.
  Variable weight_check : list (string * wsrc) -> option wsrc -> option wsrc -> option err.
  Notation constructed := (constructed axis_check weight_check).
  Notation read := (call_node axis_check weight_check).
  Definition read_items : list (string * book_call) -> list (string * node) -> res (list (string * node)) :=
    fix go l d := match l with [] => Ok d | (n, x) :: l => do v <- read x; go l (sassoc_set n v d) end.
  Lemma read_book name items : read (BCBook name items) = (do c <- class_of name; do d <- read_items items []; construct c d).
  Proof. reflexivity. Qed.
  Lemma read_items_ok l : (forall n x, In (n, x) l -> exists y, read (node_print x) = Ok y /\ same_definition x y /\ bare_entry y) ->
    forall d, NoDup (map fst (d ++ l)) ->
    exists m, read_items (map (fun nx => (fst nx, node_print (snd nx))) l) d = Ok (d ++ m) /\
      Forall2 (fun a b => fst a = fst b /\ same_definition (snd a) (snd b)) l m /\ Forall (fun nx => bare_entry (snd nx)) m.
  Proof.
    induction l as [|[n x] l IH]; intros H d ND; cbn [map fst snd read_items].
    - exists []. rewrite app_nil_r. auto.
    - destruct (H n x (or_introl eq_refl)) as (y & -> & Sy & By). cbn [bind]. rewrite set_new.
      + destruct (IH (fun k z I => H k z (or_intror I)) (d ++ [(n, y)])) as (m & E & F & G).
        * rewrite <- app_assoc. cbn [app]. rewrite map_app in *. exact ND.
        * exists ((n, y) :: m). fold read_items. rewrite E, <- app_assoc. split; auto.
      + rewrite map_app in ND. cbn [map fst] in ND. apply NoDup_remove_2 in ND. intros I. apply ND, in_or_app. auto.
  Qed.

  (** What a book prints reads back as the unfilled book with its entries, if neither it nor a book in
      it is a SamplesBook or a SystematicsBook. *)
  Theorem C80_book_reads_back : forall x, made constructed x ->
    (forall p c l a, node_at x p = Some (NBook c l a) -> c <> KSamples /\ c <> KSystematics) ->
    exists y, read (node_print x) = Ok y /\ same_definition x y /\ bare_entry y.
  Proof.
    intros x M. apply made_proper in M. induction x as [h|c l a IH] using node_induct; intros K.
    - inversion M; subst. destruct (C80_hist_reads_back axis_check weight_check h) as (g & E & S & C & A); auto.
      exists (NHist g). cbn [node_print call_node]. rewrite E. split; auto. split; constructor; auto.
    - inversion M as [|? ? ? ND F Ch]; subst. cbn [node_print]. rewrite read_book, class_of_name. cbn [bind].
      destruct (read_items_ok l) with (d := @nil (string * node)) as (m & E & Sm & Bm); auto.
      + intros n x I. rewrite Forall_forall in IH. apply (IH _ I); [apply (F n x I)|]. intros p d l' a' Ep. apply (K (n :: p) d l' a').
        rewrite node_at_cons. replace (sassoc n l) with (Some x); auto. symmetry. apply sassoc_in; auto.
      + rewrite E. cbn [bind app]. destruct (K [] c l a eq_refl) as (K1 & K2).
        assert (Em : map fst m = map fst l). { clear -Sm. induction Sm as [|u v ? ? [H _] _ IHs]; cbn; auto. rewrite IHs, H. auto. }
        assert (T : tfromdicts c m [] = Ok (NBook c m [])).
        { unfold tfromdicts. rewrite (set_all_proper c m []); auto.
          - cbn [app]. rewrite Em. auto.
          - intros k z I. assert (I' : In k (map fst l)) by (rewrite <- Em; apply (in_map fst) in I; auto). apply in_map_iff in I'. destruct I' as ([k' z'] & <- & I'). apply (F k' z' I').
          - cbn [app]. destruct c; auto. congruence. }
        exists (NBook c m []). split; [destruct c; auto; congruence|]. split; constructor; auto.
  Qed.
  (** Books that print the same differ at most in contents and attachments, whatever their classes. *)
  Theorem C80_book_prints_all : forall x y, made constructed x -> made constructed y -> node_print x = node_print y -> same_definition x y.
  Proof.
    intros x y Mx My. apply made_proper in Mx, My. revert y My. induction x as [h|c l a IH] using node_induct; intros [g|d m b] My E; cbn [node_print] in E; try discriminate.
    - injection E. intros E'. inversion Mx; inversion My; subst. constructor. eapply C80_hist_prints_all; eauto.
      unfold hist_repr in *. congruence.
    - injection E as Ec El. apply class_name_inj in Ec. subst d. constructor. inversion Mx as [|? ? ? _ F _]; inversion My as [|? ? ? _ G _]; subst.
      clear Mx My. revert m El G. induction l as [|[n x] l IHl]; intros [|[k y] m] El G; cbn [map fst snd] in El; try discriminate; constructor.
      + injection El as En Ex _. split; auto. cbn [snd]. inversion IH as [|? ? IHx _]; subst. apply IHx; auto; [eapply F; left; reflexivity|eapply G; left; reflexivity].
      + injection El as _ _ El. inversion IH; subst. apply IHl; auto; intros k' z I; [apply (F k' z)|apply (G k' z)]; right; auto.
  Qed.
  Theorem C80_book_prints_only : forall x y, same_definition x y -> node_print x = node_print y.
  Proof.
    intros x. induction x as [h|c l a IH] using node_induct; intros y S; inversion S as [? ? H|? ? ? m ? H]; subst; cbn [node_print].
    - f_equal. apply C80_hist_prints_only. auto.
    - f_equal. clear S. revert IH. induction H as [|[n x] [k y'] ? ? [H1 H2] _ IHs]; intros IH; cbn [map fst snd] in *; auto. inversion IH; subst. f_equal; auto. f_equal; auto.
  Qed.
End Books.
Print Assumptions C80_book_reads_back.
Print Assumptions C80_book_prints_all.
Print Assumptions C80_book_prints_only.

(** SamplesBook({...}) takes the names for samples: the histograms are lost. *)
Theorem C80_samplesbook_refuted : exists x y, made (constructed nocheck nocheck') x /\ call_node nocheck nocheck' (node_print x) = Ok y /\
  hists_of x <> [] /\ hists_of y = [] /\ ~ same_definition x y.
Proof.
  destruct bt_constructed as (H1 & H2 & _). exists (set_ (NBook KSamples [] []) "a/h" (NHist bt_1)). eexists.
  split; [cbn [set_]; apply made_set; [apply made_new|constructor; auto|left; reflexivity]|]. split; [vm_compute; reflexivity|].
  split; [discriminate|]. split; [reflexivity|]. intros S. inversion S as [|? ? ? ? ? F]; subst. inversion F as [|? ? ? ? [_ T]]; subst. cbn [snd] in T. inversion T as [|? ? ? ? ? G]; subst. inversion G.
Qed.
Print Assumptions C80_samplesbook_refuted.
(** SystematicsBook({...}) fails: what tells the systematics is an attachment. *)
Theorem C80_systematicsbook_refuted : exists x, made (constructed nocheck nocheck') x /\ hists_of x <> [] /\ call_node nocheck nocheck' (node_print x) = Err ValueError.
Proof.
  destruct bt_constructed as (H1 & H2 & _). exists (set_ (set_ (NBook KSystematics [] []) "up" (NHist bt_1)) "down" (NHist bt_2)).
  split; [cbn [set_]; apply made_set; [apply made_set; [apply made_new|constructor; auto|left; vm_compute; reflexivity]|constructor; auto|left; vm_compute; reflexivity]|].
  split; [discriminate|]. vm_compute. reflexivity.
Qed.
Print Assumptions C80_systematicsbook_refuted.
(** Book({'a': Book({'h': Hist(...), 'k': Hist(...)}), 'z': Hist(...)}) *)
Example C80_book_example : made (constructed nocheck nocheck') bt_book /\
  (forall p c l a, node_at bt_book p = Some (NBook c l a) -> c <> KSamples /\ c <> KSystematics) /\
  node_print bt_book = BCBook "Book" [("a", BCBook "Book" [("h", BCHist (hist_repr bt_1)); ("k", BCHist (hist_repr bt_3))]); ("z", BCHist (hist_repr bt_2))] /\
  call_node nocheck nocheck' (node_print bt_book) =
    Ok (NBook KBook [("a", NBook KBook [("h", NHist (bt_h 2 [] CNone)); ("k", NHist (bt_h 3 [] CNone))] []); ("z", NHist (bt_h 2 [] CNone))] []).
Proof.
  destruct bt_constructed as (H1 & H2 & H3). split; [apply bt_made; auto|]. split.
  - assert (Eb : bt_book = NBook KBook [("a", NBook KBook [("h", NHist bt_1); ("k", NHist bt_3)] []); ("z", NHist bt_2)] []) by (vm_compute; reflexivity).
    rewrite Eb. intros p c l a E. destruct p as [|k [|k' [|k2 p]]]; cbn [node_at find fst] in E;
      repeat match type of E with context [String.eqb ?u ?v] => destruct (String.eqb u v); cbn [node_at find fst] in E end; try discriminate E; injection E as <- _ _; split; discriminate.
  - split; vm_compute; reflexivity.
Qed.
