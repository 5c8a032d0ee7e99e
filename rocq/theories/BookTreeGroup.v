(** Lemmas about books as trees: group. *)
From Coq Require Import String Permutation.
From Verif Require Import Base Num NumFacts Axis Calc Content Fill FillProofs2 HistAlg AlgSpec HistAlgProofs Json JsonProofs CompareProofs ExprFacts
  Glob Book BookTree BookTreeSpec BookTreeProofs BookTreeJson.
Local Open Scope string_scope.
Local Open Scope list_scope.
Notation node := BookTree.node.

Definition is_book (x : node) : Prop := is_hist_node x = false.

Lemma entry_at n x q : node_at x (n :: q) = match entry_of n x with Some y => node_at y q | None => None end.
Proof. destruct x as [h|c l a]; [reflexivity|]. rewrite node_at_cons. reflexivity. Qed.
Lemma members_cons n books q : members books (n :: q) = members (with_name n books) q.
Proof.
  induction books as [|[k b] t IH]; [reflexivity|]. unfold with_name in *. cbn [members flat_map fst snd]. rewrite entry_at.
  destruct (entry_of n b) as [y|]; cbn [app members]; rewrite IH; auto.
Qed.
Lemma with_name_none n books : with_name n books = [] <-> ~ In n (flat_map (fun kx => names_of (snd kx)) books).
Proof.
  unfold with_name. induction books as [|[k b] t IH]; cbn [flat_map snd fst]; [intuition|]. rewrite in_app_iff. destruct b as [h|c l a]; cbn [entry_of names_of].
  - cbn [app In]. rewrite IH. tauto.
  - destruct (sassoc n l) as [y|] eqn:S; cbn [app].
    + split; [discriminate|]. intros H. exfalso. apply H. left. apply sassoc_some in S. apply in_map_iff. exists (n, y). auto.
    + apply sassoc_none in S. rewrite IH. tauto.
Qed.
Lemma with_name_in n books k y : In (k, y) (with_name n books) <-> exists b, In (k, b) books /\ entry_of n b = Some y.
Proof.
  unfold with_name. rewrite in_flat_map. split.
  - intros ([k' b] & Hi & H). cbn [fst snd] in H. destruct (entry_of n b) as [z|] eqn:E; [|contradiction]. destruct H as [H|[]]. injection H as <- <-. eauto.
  - intros (b & Hi & E). exists (k, b). split; auto. cbn [fst snd]. rewrite E. left. auto.
Qed.
Lemma kind_hist x : kind_of x = "Hist" <-> is_hist_node x = true.
Proof. destruct x as [h|[] l a]; cbn; split; intros H; try discriminate; auto. Qed.
Lemma all_hists_some l hs : all_hists l = Some hs -> members l [] = hs /\ (forall q, q <> [] -> members l q = []) /\ (forall kx, In kx l -> is_hist_node (snd kx) = true).
Proof.
  revert hs. induction l as [|[k [h|c m a]] l IH]; intros hs; cbn [all_hists]; try discriminate.
  - intros E. injection E as <-. split; [reflexivity|]. split; [intros q _; reflexivity|intros ? []].
  - destruct (all_hists l) as [t|]; cbn [option_map]; [|discriminate]. intros E. injection E as <-. destruct (IH t eq_refl) as (A & B & C). split; [|split].
    + cbn [members node_at]. rewrite A. auto.
    + intros [|x q] Q; [congruence|]. cbn [members node_at]. apply B. auto.
    + intros kx [<-|H]; [reflexivity|auto].
Qed.
Lemma all_hists_none l : all_hists l = None -> exists kx, In kx l /\ is_hist_node (snd kx) = false.
Proof.
  induction l as [|[k [h|c m a]] l IH]; cbn [all_hists]; try discriminate.
  - destruct (all_hists l); cbn [option_map]; [discriminate|]. intros _. destruct IH as (kx & H & H'); auto. exists kx. split; auto. right. auto.
  - intros _. exists (k, NBook c m a). split; [left; auto|auto].
Qed.
Lemma members_books l : (forall kx, In kx l -> is_hist_node (snd kx) = false) -> members l [] = [].
Proof.
  induction l as [|[k [h|c m a]] l IH]; intros H; cbn [members node_at]; auto.
  - specialize (H (k, NHist h) (or_introl eq_refl)). discriminate.
  - apply IH. intros kx Hi. apply H. right. auto.
Qed.
Lemma sassoc_map_in {A} (items : list (string * A)) n : NoDup (map fst items) -> forall x, In (n, x) items -> sassoc n items = Some x.
Proof. intros ND x. apply sassoc_in. auto. Qed.

Section Group.
  Variable order : list string -> list string.
  Hypothesis Horder : forall l, Permutation l (order l).
  Variable by_ : string.

  Definition one_name (limit : nat) (books : list (string * node)) (n : string) : res (string * node) :=
    if wild n then Err AttributeError
    else
    let members := with_name n books in
    match members with
    | [] => Err TypeError
    | (_, y) :: rest =>
      if forallb (fun kx => String.eqb (kind_of (snd kx)) (kind_of y)) rest then
        match y with
        | NHist _ => match all_hists members with
                     | Some hs => do g <- group_hists by_ hs; Ok (n, NHist g)
                     | None => Err TypeError
                     end
        | NBook c _ _ => do g <- book_group order limit c by_ members; Ok (n, g)
        end
      else Err TypeError
    end.
  Lemma group_S limit cls books : books <> [] -> book_group order (S limit) cls by_ books =
    do items <- mapM (one_name limit books) (order (nodup string_dec (flat_map (fun kx => names_of (snd kx)) books)));
    tfromdicts cls items (fold_left (fun d kx => dict_update d (attachment_of (snd kx))) books []).
  Proof. destruct books; [congruence|reflexivity]. Qed.
  Lemma one_name_fst limit books n kx : one_name limit books n = Ok kx -> fst kx = n.
  Proof.
    unfold one_name. destruct (wild n); [discriminate|]. destruct (with_name n books) as [|[k y] rest]; [discriminate|].
    destruct (forallb _ rest); [|discriminate]. destruct y as [h|c l a].
    - destruct (all_hists _) as [hs|]; [|discriminate]. destruct (group_hists by_ hs); cbn [bind]; intros E; [injection E as <-; auto|discriminate].
    - destruct (book_group _ _ _ _ _); cbn [bind]; intros E; [injection E as <-; auto|discriminate].
  Qed.
  Lemma mapM_fst limit books ns : forall items, mapM (one_name limit books) ns = Ok items -> map fst items = ns.
  Proof.
    induction ns as [|n ns IH]; cbn [mapM]; intros items E; [injection E as <-; auto|].
    destruct (one_name limit books n) as [kx|] eqn:E1; [|discriminate]. cbn [bind] in E. destruct (mapM _ ns) as [t|]; [|discriminate]. cbn [bind] in E. injection E as <-.
    cbn [map]. rewrite (one_name_fst _ _ _ _ E1), (IH t eq_refl). auto.
  Qed.
  Lemma mapM_each limit books ns : forall items n, mapM (one_name limit books) ns = Ok items -> In n ns -> exists x, In (n, x) items /\ one_name limit books n = Ok (n, x).
  Proof.
    induction ns as [|n' ns IH]; cbn [mapM]; intros items n E Hi; [contradiction|].
    destruct (one_name limit books n') as [kx|] eqn:E1; [|discriminate]. cbn [bind] in E. destruct (mapM _ ns) as [t|] eqn:E2; [|discriminate]. cbn [bind] in E. injection E as <-.
    destruct Hi as [->|Hi].
    - destruct kx as [k x]. assert (E3 := one_name_fst _ _ _ _ E1). cbn [fst] in E3. subst k. exists x. split; auto. left. auto.
    - destruct (IH t n eq_refl Hi) as (x & H & H'). exists x. split; auto. right. auto.
  Qed.
  Lemma set_all_keys c items : forall l out, NoDup (map fst (l ++ items)) -> (forall k x, In (k, x) items -> cut_slash k = None) ->
    set_all c l items = Ok out -> out = l ++ items.
  Proof.
    induction items as [|[n x] t IH]; intros l out ND S; cbn [set_all].
    - destruct (changed c l); [discriminate|]. intros E. injection E as <-. rewrite app_nil_r. auto.
    - rewrite tset_plain by (apply (S n x); left; auto). assert (N : ~ In n (map fst l)).
      { rewrite map_app in ND. cbn [map fst] in ND. apply NoDup_remove_2 in ND. rewrite in_app_iff in ND. tauto. }
      assert (E : l ++ (n, x) :: t = (l ++ [(n, x)]) ++ t) by (rewrite <- app_assoc; reflexivity).
      rewrite set_new by auto. destruct (changed c _); [discriminate|]. rewrite E in *.
      apply IH; auto. intros k y Hk. apply (S k y). right. auto.
  Qed.

  (** entries that programs can make, with any histograms *)
  Notation good := (proper (fun _ => True)).
  Definition goods (books : list (string * node)) : Prop := forall k b, In (k, b) books -> good b /\ is_hist_node b = false.
  Lemma names_slashless books n : goods books -> In n (flat_map (fun kx => names_of (snd kx)) books) -> cut_slash n = None.
  Proof.
    intros G H. apply in_flat_map in H. destruct H as ([k b] & Hi & H). cbn [snd] in H. destruct (G k b Hi) as (Hb & _). destruct b as [h|c l a]; [contradiction|].
    cbn [names_of] in H. apply in_map_iff in H. destruct H as ([n' x] & <- & H). inversion Hb as [|? ? ? _ F _]; subst. apply (F n' x H).
  Qed.
  Lemma with_name_good books n k y : goods books -> In (k, y) (with_name n books) -> good y.
  Proof.
    intros G H. apply with_name_in in H. destruct H as (b & Hi & E). destruct (G k b Hi) as (Hb & _). destruct b as [h|c l a]; [discriminate|].
    cbn [entry_of] in E. eapply proper_get; eauto.
  Qed.
  Lemma group_items limit cls books out : goods books -> books <> [] -> book_group order (S limit) cls by_ books = Ok out ->
    exists items att, out = NBook cls items att /\ NoDup (map fst items) /\
      (forall n, In n (map fst items) <-> In n (flat_map (fun kx => names_of (snd kx)) books)) /\
      (forall n x, In (n, x) items -> cut_slash n = None /\ one_name limit books n = Ok (n, x)).
  Proof.
    intros G Hn. rewrite group_S by auto. set (ns := order (nodup string_dec (flat_map (fun kx => names_of (snd kx)) books))).
    assert (Pn : forall n, In n ns <-> In n (flat_map (fun kx => names_of (snd kx)) books)).
    { intros n. rewrite <- (nodup_In string_dec (flat_map (fun kx => names_of (snd kx)) books) n). split; apply Permutation_in; [apply Permutation_sym|]; apply Horder. }
    assert (ND : NoDup ns). { eapply Permutation_NoDup; [apply Horder|]. apply NoDup_nodup. }
    destruct (mapM (one_name limit books) ns) as [items|] eqn:E; [|discriminate]. cbn [bind]. unfold tfromdicts. destruct (set_all cls [] items) as [l|] eqn:S; [|discriminate].
    cbn [bind]. intros Eo. injection Eo as <-. assert (Fst := mapM_fst _ _ _ _ E). exists items, (fold_left (fun d kx => dict_update d (attachment_of (snd kx))) books []).
    assert (Hk : forall k x, In (k, x) items -> In k ns). { intros k x H. rewrite <- Fst. apply in_map_iff. exists (k, x). auto. }
    split; [|split; [|split]].
    - apply set_all_keys in S; auto.
      + rewrite S. reflexivity.
      + cbn [app]. rewrite Fst. auto.
      + intros k x H. apply (names_slashless books k G). apply Pn. eauto.
    - rewrite Fst. auto.
    - intros n. rewrite Fst. apply Pn.
    - intros n x H. split; [apply (names_slashless books n G); apply Pn; eauto|]. destruct (mapM_each _ _ _ _ n E (Hk n x H)) as (x' & H' & E').
      assert (x' = x). { assert (ND' : NoDup (map fst items)) by (rewrite Fst; auto). apply (sassoc_in n x items ND') in H. apply (sassoc_in n x' items ND') in H'. congruence. }
      subst x'. auto.
  Qed.

  Lemma kinds_agree books n k y rest : with_name n books = (k, y) :: rest -> forallb (fun kx => String.eqb (kind_of (snd kx)) (kind_of y)) rest = true ->
    forall kx, In kx (with_name n books) -> kind_of (snd kx) = kind_of y.
  Proof.
    intros E F kx Hi. rewrite E in Hi. destruct Hi as [<-|Hi]; auto. rewrite forallb_forall in F. apply String.eqb_eq. auto.
  Qed.

  (** the histograms of the result *)
  Lemma group_hists_at limit : forall cls books out, goods books -> book_group order limit cls by_ books = Ok out ->
    forall p, match members books p with
              | [] => forall g, node_at out p <> Some (NHist g)
              | hs => exists g, node_at out p = Some (NHist g) /\ group_hists by_ hs = Ok g
              end.
  Proof.
    induction limit as [|limit IH]; intros cls books out G E p; [discriminate|]. assert (Hn : books <> []) by (intros ->; discriminate).
    destruct (group_items _ _ _ _ G Hn E) as (items & att & -> & ND & Names & Each). destruct p as [|n q].
    - rewrite members_books; [|intros [k b] Hi; apply (G k b Hi)]. cbn [node_at]. intros g H. discriminate.
    - rewrite members_cons, node_at_cons. destruct (sassoc n items) as [x|] eqn:S.
      + apply sassoc_some in S. destruct (Each n x S) as (_ & Ex). unfold one_name in Ex. destruct (wild n); [discriminate|].
        destruct (with_name n books) as [|[k y] rest] eqn:W; [discriminate|]. rewrite <- W in *. destruct (forallb _ rest) eqn:F; [|discriminate].
        assert (K := kinds_agree books n k y rest W F). destruct y as [h|c l a].
        * destruct (all_hists (with_name n books)) as [hs|] eqn:A; [|discriminate]. destruct (all_hists_some _ _ A) as (M0 & M1 & _).
          destruct (group_hists by_ hs) as [g|] eqn:Eg; [|discriminate]. cbn [bind] in Ex. injection Ex as <-. destruct q as [|n' q].
          -- rewrite M0. destruct hs as [|hs0 hs']; [rewrite W in A; cbn [all_hists] in A; destruct (all_hists rest); discriminate|]. exists g. auto.
          -- rewrite M1 by discriminate. cbn [node_at]. intros ? ?. discriminate.
        * destruct (book_group order limit c by_ (with_name n books)) as [g|] eqn:Eg; [|discriminate]. cbn [bind] in Ex. injection Ex as <-.
          apply (IH c (with_name n books)); auto. intros k' b Hb. split; [eapply with_name_good; eauto|]. specialize (K _ Hb). cbn [snd] in K.
          destruct b as [h|? ? ?]; auto. cbn [kind_of] in K. destruct c; discriminate.
      + assert (W : with_name n books = []). { apply with_name_none. intros H. apply Names in H. apply sassoc_none in S. contradiction. }
        rewrite W. cbn [members]. discriminate.
  Qed.
  (** the paths and classes of the result *)
  Lemma group_kinds limit : forall cls books out, goods books -> book_group order limit cls by_ books = Ok out ->
    forall p k, p <> [] -> (option_map kind_of (node_at out p) = Some k <-> exists n b, In (n, b) books /\ option_map kind_of (node_at b p) = Some k).
  Proof.
    induction limit as [|limit IH]; intros cls books out G E p k Hp; [discriminate|]. assert (Hn : books <> []) by (intros ->; discriminate).
    destruct (group_items _ _ _ _ G Hn E) as (items & att & -> & ND & Names & Each). destruct p as [|n q]; [congruence|]. rewrite node_at_cons.
    assert (R : (exists m b, In (m, b) books /\ option_map kind_of (node_at b (n :: q)) = Some k) <->
                (exists m y, In (m, y) (with_name n books) /\ option_map kind_of (node_at y q) = Some k)).
    { split.
      - intros (m & b & Hb & Eb). rewrite entry_at in Eb. destruct (entry_of n b) as [y|] eqn:Ey; [|discriminate]. exists m, y. split; auto. apply with_name_in. eauto.
      - intros (m & y & Hy & Ey). apply with_name_in in Hy. destruct Hy as (b & Hb & Eb). exists m, b. split; auto. rewrite entry_at, Eb. auto. }
    rewrite R. clear R. destruct (sassoc n items) as [x|] eqn:S.
    - apply sassoc_some in S. destruct (Each n x S) as (_ & Ex). unfold one_name in Ex. destruct (wild n); [discriminate|].
      destruct (with_name n books) as [|[k0 y] rest] eqn:W; [discriminate|]. rewrite <- W in *. destruct (forallb _ rest) eqn:F; [|discriminate].
      assert (K := kinds_agree books n k0 y rest W F). assert (H0 : In (k0, y) (with_name n books)) by (rewrite W; left; auto).
      destruct y as [h|c l a].
      + destruct (all_hists (with_name n books)) as [hs|] eqn:A; [|discriminate]. destruct (all_hists_some _ _ A) as (_ & _ & HH).
        destruct (group_hists by_ hs) as [g|] eqn:Eg; [|discriminate]. cbn [bind] in Ex. injection Ex as <-. destruct q as [|n' q].
        * cbn [node_at option_map kind_of]. split.
          -- intros Ek. injection Ek as <-. exists k0, (NHist h). auto.
          -- intros (m & y & Hy & Ey). specialize (K _ Hy). cbn [snd kind_of] in K. congruence.
        * cbn [node_at option_map]. split; [discriminate|]. intros (m & y & Hy & Ey). specialize (HH _ Hy). cbn [snd] in HH. destruct y; discriminate.
      + destruct (book_group order limit c by_ (with_name n books)) as [g|] eqn:Eg; [|discriminate]. cbn [bind] in Ex. injection Ex as <-.
        assert (G' : goods (with_name n books)).
        { intros k' b Hb. split; [eapply with_name_good; eauto|]. specialize (K _ Hb). cbn [snd] in K. destruct b as [h|? ? ?]; auto. cbn [kind_of] in K. destruct c; discriminate. }
        destruct q as [|n' q].
        * assert (Hg : kind_of g = class_name c).
          { destruct limit; [discriminate|]. destruct (group_items _ _ _ _ G' ltac:(rewrite W; discriminate) Eg) as (? & ? & -> & _). reflexivity. }
          cbn [node_at option_map]. rewrite Hg. split.
          -- intros Ek. injection Ek as <-. exists k0, (NBook c l a). auto.
          -- intros (m & y & Hy & Ey). specialize (K _ Hy). cbn [snd kind_of] in K. congruence.
        * apply (IH c (with_name n books)); auto. discriminate.
    - assert (W : with_name n books = []). { apply with_name_none. intros H. apply Names in H. apply sassoc_none in S. contradiction. }
      rewrite W. split; [discriminate|]. intros (m & y & [] & _).
  Qed.

  (** ** When it succeeds *)
  Notation groupable := (groupable by_).
  Fixpoint height (x : node) : nat := match x with NHist _ => 0 | NBook _ l _ => S (fold_right (fun kx n => Nat.max (height (snd kx)) n) 0 l) end.
  Lemma height_entry n b y : entry_of n b = Some y -> height y < height b.
  Proof.
    destruct b as [h|c l a]; [discriminate|]. cbn [entry_of]. intros E. apply sassoc_some in E. change (height y < S (fold_right (fun kx m => Nat.max (height (snd kx)) m) 0 l)).
    apply le_n_S. induction l as [|kx l IH]; [contradiction|]. cbn [fold_right]. destruct E as [->|E]; [cbn [snd]; lia|]. specialize (IH E). lia.
  Qed.
  Lemma groupable_sub books n k y : groupable books -> In (k, y) (with_name n books) -> is_hist_node y = false -> groupable (with_name n books) /\ wild n = false.
  Proof.
    intros (A & B & C & D) H Hb. split; [|].
    - assert (Up : forall k y, In (k, y) (with_name n books) -> exists b, In (k, b) books /\ forall q, node_at b (n :: q) = node_at y q).
      { intros k' y' Hy. apply with_name_in in Hy. destruct Hy as (b & Hb' & E). exists b. split; auto. intros q. rewrite entry_at, E. auto. }
      split; [|split; [|split]].
      + intros k' y' p c l a Hy E. destruct (Up _ _ Hy) as (b & Hb' & U). apply (A k' b (n :: p) c l a); auto. rewrite U. auto.
      + intros k' y' p j z Hy E. destruct (Up _ _ Hy) as (b & Hb' & U). apply (B k' b (n :: p) j z); auto. cbn [app]. rewrite U. auto.
      + intros k1 y1 k2 y2 p u v H1 H2 Hp E1 E2. destruct (Up _ _ H1) as (b1 & Hb1 & U1), (Up _ _ H2) as (b2 & Hb2 & U2).
        apply (C k1 b1 k2 b2 (n :: p) u v); auto; [discriminate|rewrite U1; auto|rewrite U2; auto].
      + intros p M. specialize (D (n :: p)). rewrite members_cons in D. auto.
    - apply with_name_in in H. destruct H as (b & Hi & E). apply (B k b [] n y Hi). cbn [app]. rewrite entry_at, E. reflexivity.
  Qed.
  Lemma mapM_total {A B} (f : A -> res B) l : (forall x, In x l -> exists y, f x = Ok y) -> exists ys, mapM f l = Ok ys.
  Proof.
    induction l as [|x l IH]; intros H; cbn [mapM]; eauto. destruct (H x (or_introl eq_refl)) as (y & ->). destruct IH as (ys & ->); [intros; apply H; right; auto|]. cbn [bind]. eauto.
  Qed.
  Lemma group_total limit : forall cls books, goods books -> books <> [] -> cls <> KSystematics -> groupable books ->
    (forall k b, In (k, b) books -> height b <= limit) -> exists out, book_group order limit cls by_ books = Ok out.
  Proof.
    induction limit as [|limit IH]; intros cls books G Hn Hc Gr Hl.
    - destruct books as [|[k b] t]; [congruence|]. destruct (G k b (or_introl eq_refl)) as (_ & Hb). specialize (Hl k b (or_introl eq_refl)).
      destruct b as [h|c l a]; [discriminate|]. cbn [height] in Hl. lia.
    - rewrite group_S by auto. set (ns := order (nodup string_dec (flat_map (fun kx => names_of (snd kx)) books))).
      assert (Pn : forall n, In n ns <-> In n (flat_map (fun kx => names_of (snd kx)) books)).
      { intros n. rewrite <- (nodup_In string_dec (flat_map (fun kx => names_of (snd kx)) books) n). split; apply Permutation_in; [apply Permutation_sym|]; apply Horder. }
      assert (ND : NoDup ns). { eapply Permutation_NoDup; [apply Horder|]. apply NoDup_nodup. }
      destruct (mapM_total (one_name limit books) ns) as (items & E).
      { intros n Hin. unfold one_name.
        destruct (with_name n books) as [|[k y] rest] eqn:W. { apply Pn in Hin. apply with_name_none in W. contradiction. }
        rewrite <- W. assert (H0 : In (k, y) (with_name n books)) by (rewrite W; left; auto).
        destruct Gr as (A & B & C & D).
        assert (Wn : wild n = false). { apply with_name_in in H0. destruct H0 as (b & Hi & Eb). apply (B k b [] n y Hi). cbn [app]. rewrite entry_at, Eb. reflexivity. }
        rewrite Wn. assert (K : forall kx, In kx (with_name n books) -> kind_of (snd kx) = kind_of y).
        { intros [k' y'] Hy. cbn [snd]. apply with_name_in in H0, Hy. destruct H0 as (b & Hi & Eb), Hy as (b' & Hi' & Eb').
          apply (C k' b' k b [n] y' y); auto; [discriminate|rewrite entry_at, Eb'; auto|rewrite entry_at, Eb; auto]. }
        assert (Fb : forallb (fun kx => String.eqb (kind_of (snd kx)) (kind_of y)) rest = true).
        { apply forallb_forall. intros kx Hk. apply String.eqb_eq. apply K. rewrite W. right. auto. }
        rewrite Fb. destruct y as [h|c l a].
        - destruct (all_hists (with_name n books)) as [hs|] eqn:Ah.
          + destruct (all_hists_some _ _ Ah) as (M0 & _). specialize (D [n]). rewrite members_cons, M0 in D. destruct D as (g & ->); [|cbn [bind]; eauto].
            intros ->. rewrite W in Ah. cbn [all_hists] in Ah. destruct (all_hists rest); discriminate.
          + destruct (all_hists_none _ Ah) as (kx & Hk & Hb). specialize (K _ Hk). destruct kx as [k' [h'|c' l' a']]; [discriminate|]. cbn [snd kind_of] in K. destruct c'; discriminate.
        - destruct (IH c (with_name n books)) as (g & ->); [| | | | |cbn [bind]; eauto].
          + intros k' b Hb. split; [eapply with_name_good; eauto|]. specialize (K _ Hb). cbn [snd] in K. destruct b as [h|? ? ?]; auto. cbn [kind_of] in K. destruct c; discriminate.
          + rewrite W. discriminate.
          + apply with_name_in in H0. destruct H0 as (b & Hi & Eb). apply (A k b [n] c l a Hi). rewrite entry_at, Eb. reflexivity.
          + apply (groupable_sub books n k (NBook c l a)); auto. split; auto.
          + intros k' b Hb. apply with_name_in in Hb. destruct Hb as (b' & Hi & Eb). specialize (Hl k' b' Hi). apply height_entry in Eb. lia. }
      rewrite E. cbn [bind]. unfold tfromdicts. assert (Fst := mapM_fst _ _ _ _ E). rewrite (set_all_proper cls items []).
      + cbn [bind]. eauto.
      + cbn [app]. rewrite Fst. auto.
      + intros k x H. apply (names_slashless books k G). apply Pn. rewrite <- Fst. apply in_map_iff. exists (k, x). auto.
      + destruct cls; try reflexivity. congruence.
  Qed.
End Group.
