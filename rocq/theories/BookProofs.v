(** Lookup, assignment and deletion in books, in terms of paths. *)
From Coq Require Import String Ascii.
From Verif Require Import Base Book BookSpec.
Local Open Scope string_scope.
Local Open Scope list_scope.

(** ** Dictionaries *)
Lemma dget_dset k x l k' : dget k' (dset k x l) = if String.eqb k' k then Some x else dget k' l.
Proof.
  induction l as [|(a, y) l IH]; cbn [dset dget].
  - reflexivity.
  - destruct (String.eqb k a) eqn:E; cbn [dget].
    + apply String.eqb_eq in E. subst a. destruct (String.eqb k' k); auto.
    + rewrite IH. destruct (String.eqb k' a) eqn:E1; auto. destruct (String.eqb k' k) eqn:E2; auto.
      apply String.eqb_eq in E1, E2. subst. rewrite String.eqb_refl in E. discriminate.
Qed.
Lemma dget_in k l x : dget k l = Some x -> In (k, x) l.
Proof.
  induction l as [|(a, y) l IH]; cbn [dget]; [discriminate|]. destruct (String.eqb k a) eqn:E.
  - apply String.eqb_eq in E. subst a. intros H. inversion H. left. auto.
  - intros H. right. auto.
Qed.
Lemma in_dget k l x : NoDup (map fst l) -> In (k, x) l -> dget k l = Some x.
Proof.
  induction l as [|(a, y) l IH]; cbn [dget map fst In]; [tauto|]. intros N [H|H].
  - inversion H; subst. rewrite String.eqb_refl. auto.
  - inversion N; subst. destruct (String.eqb k a) eqn:E; auto. apply String.eqb_eq in E. subst a.
    exfalso. apply H2. apply (in_map fst) in H. auto.
Qed.
Lemma dget_none k l : dget k l = None <-> ~ In k (map fst l).
Proof.
  induction l as [|(a, y) l IH]; cbn [dget map fst In]; [tauto|]. destruct (String.eqb k a) eqn:E.
  - apply String.eqb_eq in E. subst a. split; [discriminate|]. intros H. exfalso. apply H. auto.
  - apply String.eqb_neq in E. rewrite IH. split; intros H; [intros [H'|H']; auto|intros H'; apply H; auto].
Qed.
Lemma dset_keys k x l : map fst (dset k x l) = match dget k l with Some _ => map fst l | None => map fst l ++ [k] end.
Proof.
  induction l as [|(a, y) l IH]; cbn [dset dget map fst]; auto. destruct (String.eqb k a) eqn:E; cbn [map fst]; auto.
  rewrite IH. destruct (dget k l); auto.
Qed.
Lemma dset_length k x l : length (dset k x l) = length l + match dget k l with Some _ => 0 | None => 1 end.
Proof. rewrite <- (map_length fst), dset_keys. destruct (dget k l); [|rewrite app_length]; rewrite map_length; cbn [length]; lia. Qed.
Lemma in_dset k x l k' y : In (k', y) (dset k x l) -> (k' = k /\ y = x) \/ In (k', y) l.
Proof.
  induction l as [|(a, z) l IH]; cbn [dset In].
  - intros [H|[]]. inversion H. auto.
  - destruct (String.eqb k a) eqn:E; cbn [In].
    + apply String.eqb_eq in E. subst a. intros [H|H]; auto. inversion H. auto.
    + intros [H|H]; auto. destruct (IH H); auto.
Qed.
Lemma ddel_keys k l : map fst (ddel k l) = match dget k l with
  | Some _ => (fix rm l := match l with [] => [] | a :: l => if String.eqb k a then l else a :: rm l end) (map fst l)
  | None => map fst l end.
Proof.
  induction l as [|(a, y) l IH]; cbn [ddel dget map fst]; auto. destruct (String.eqb k a) eqn:E; cbn [map fst]; auto.
  rewrite IH. destruct (dget k l); auto.
Qed.
Lemma in_ddel k l kx : In kx (ddel k l) -> In kx l.
Proof.
  induction l as [|(a, y) l IH]; cbn [ddel In]; auto. destruct (String.eqb k a); cbn [In]; auto. intros [H|H]; auto.
Qed.
Lemma ddel_nodup k l : NoDup (map fst l) -> NoDup (map fst (ddel k l)).
Proof.
  induction l as [|(a, y) l IH]; cbn [ddel map fst]; auto. intros N. inversion N; subst. destruct (String.eqb k a); auto.
  cbn [map fst]. constructor; auto. intros H. apply H1. apply in_map_iff in H. destruct H as ((q, z) & E & H). apply in_ddel in H.
  cbn in E. subst q. apply (in_map fst) in H. auto.
Qed.
Lemma dget_ddel k l k' : NoDup (map fst l) -> dget k' (ddel k l) = if String.eqb k' k then None else dget k' l.
Proof.
  induction l as [|(a, y) l IH]; cbn [ddel dget map fst].
  - destruct (String.eqb k' k); auto.
  - intros N. inversion N; subst. destruct (String.eqb k a) eqn:E; cbn [dget].
    + apply String.eqb_eq in E. subst a. destruct (String.eqb k' k) eqn:E'; auto. apply String.eqb_eq in E'. subst k'.
      apply dget_none. auto.
    + rewrite IH by auto. destruct (String.eqb k' a) eqn:E1; auto. destruct (String.eqb k' k) eqn:E2; auto.
      apply String.eqb_eq in E1, E2. subst. rewrite String.eqb_refl in E. discriminate.
Qed.
Lemma ddel_length k l x : dget k l = Some x -> S (length (ddel k l)) = length l.
Proof.
  induction l as [|(a, y) l IH]; cbn [ddel dget]; [discriminate|]. destruct (String.eqb k a); cbn [length]; auto.
Qed.

(** ** The store *)
Definition content_of (B : books) (j : nat) : option (list (string * entry)) := option_map b_content (nth_error B j).
Lemma put_length B b o : length (put B b o) = length B.
Proof. revert b. induction B as [|p B IH]; intros [|b]; cbn [put length]; auto. Qed.
Lemma nth_put B b o j : nth_error (put B b o) j = if Nat.eqb j b then (if Nat.ltb b (length B) then Some o else None) else nth_error B j.
Proof.
  revert b j. induction B as [|p B IH]; intros b j; cbn [put].
  - destruct b, j; cbn; auto. destruct (Nat.eqb j b); auto.
  - destruct b as [|b], j as [|j]; cbn [nth_error length]; auto. rewrite IH. cbn [Nat.eqb]. destruct (Nat.eqb j b); auto.
Qed.
Lemma mark_length B b : length (mark B b) = length B.
Proof. unfold mark. destruct (nth_error B b); auto. apply put_length. Qed.
Lemma content_mark B b j : content_of (mark B b) j = content_of B j.
Proof.
  unfold content_of, mark. destruct (nth_error B b) as [o|] eqn:E; auto. rewrite nth_put.
  destruct (Nat.eqb j b) eqn:Ej; auto. apply Nat.eqb_eq in Ej. subst j. rewrite E.
  assert (L : b < length B) by (apply nth_error_Some; congruence). apply Nat.ltb_lt in L. rewrite L. auto.
Qed.
Lemma content_put B b o j : b < length B -> content_of (put B b o) j = if Nat.eqb j b then Some (b_content o) else content_of B j.
Proof.
  intros L. unfold content_of. rewrite nth_put. apply Nat.ltb_lt in L. rewrite L. destruct (Nat.eqb j b); auto.
Qed.
Lemma content_app B o j : content_of (B ++ [o]) j = if Nat.eqb j (length B) then Some (b_content o) else content_of B j.
Proof.
  unfold content_of. destruct (Nat.eqb j (length B)) eqn:E.
  - apply Nat.eqb_eq in E. subst j. rewrite nth_error_app2, Nat.sub_diag by lia. auto.
  - apply Nat.eqb_neq in E. destruct (Nat.lt_ge_cases j (length B)).
    + rewrite nth_error_app1 by auto. auto.
    + rewrite (proj2 (nth_error_None B j)) by lia. rewrite (proj2 (nth_error_None (B ++ [o]) j)); auto. rewrite app_length. cbn [length]. lia.
Qed.
Lemma content_some B j : j < length B <-> exists l, content_of B j = Some l.
Proof.
  unfold content_of. split.
  - intros L. destruct (nth_error B j) eqn:E; [eexists; reflexivity|]. apply nth_error_None in E. lia.
  - intros (l & E). destruct (nth_error B j) eqn:E'; [|discriminate]. apply nth_error_Some. congruence.
Qed.
Definition same_contents (B C : books) : Prop := length B = length C /\ forall j, content_of C j = content_of B j.

(** ** Following paths *)
Definition look (B : books) (b : nat) (k : string) : option entry :=
  match content_of B b with Some l => dget k l | None => None end.
Lemma follow_cons B x k p : follow B x (k :: p) =
  match x with EHist _ => None | EBook b => match look B b k with Some y => follow B y p | None => None end end.
Proof. cbn [follow]. destruct x as [h|b]; auto. unfold look, content_of. destruct (nth_error B b) as [o|]; auto. Qed.
Lemma follow_app B x p q : follow B x (p ++ q) = match follow B x p with Some y => follow B y q | None => None end.
Proof.
  revert x. induction p as [|k p IH]; intros x; [reflexivity|]. cbn [app]. rewrite !follow_cons.
  destruct x as [h|b]; auto. destruct (look B b k); auto.
Qed.
Lemma at_path_app B b p q : at_path B b (p ++ q) = match at_path B b p with Some y => follow B y q | None => None end.
Proof. apply follow_app. Qed.
Lemma at_path_cons B b k p : at_path B b (k :: p) = match look B b k with Some y => follow B y p | None => None end.
Proof. unfold at_path. rewrite follow_cons. auto. Qed.
Lemma follow_ext B C x p : (forall j, content_of C j = content_of B j) -> follow C x p = follow B x p.
Proof.
  intros H. revert x. induction p as [|k p IH]; intros x; auto. rewrite !follow_cons. destruct x as [h|b]; auto.
  unfold look. rewrite H. destruct (content_of B b) as [l|]; auto. destruct (dget k l); auto.
Qed.

(** ** Names *)
Lemma cut_none s : cut_slash s = None -> components s = [s].
Proof.
  induction s as [|c s IH]; cbn [cut_slash components]; auto. destruct (Ascii.eqb c "/"); [discriminate|].
  destruct (cut_slash s) as [[a r]|]; [discriminate|]. intros _. rewrite IH by auto. auto.
Qed.
Lemma cut_some s a r : cut_slash s = Some (a, r) ->
  components s = a :: components r /\ cut_slash a = None /\ String.length r < String.length s /\ s = (a ++ "/" ++ r)%string.
Proof.
  revert a r. induction s as [|c s IH]; intros a r; cbn [cut_slash components]; [discriminate|]. destruct (Ascii.eqb c "/") eqn:E.
  - apply Ascii.eqb_eq in E. subst c. intros H. inversion H; subst. repeat split; auto; cbn; lia.
  - destruct (cut_slash s) as [[a' r']|]; [|discriminate]. intros H. inversion H; subst.
    destruct (IH a' r eq_refl) as (Ec & Ea & L & Es). rewrite Ec. split; auto. split; [cbn [cut_slash]; rewrite E, Ea; auto|].
    split; [cbn [String.length]; lia|]. rewrite Es. auto.
Qed.
Lemma components_cons s : exists k t, components s = k :: t.
Proof. destruct s as [|c s]; cbn [components]; eauto. destruct (Ascii.eqb c "/"); eauto. destruct (components s); eauto. Qed.
Lemma components_nonempty s : components s <> [].
Proof. destruct (components_cons s) as (k & t & ->). discriminate. Qed.
Lemma components_slashless s k : In k (components s) -> cut_slash k = None.
Proof.
  remember (String.length s) as n eqn:En. assert (L : String.length s <= n) by lia. clear En. revert s k L.
  induction n as [|n IH]; intros s k L; destruct (cut_slash s) as [[a r]|] eqn:E.
  - destruct (cut_some _ _ _ E) as (_ & _ & L' & _). lia.
  - rewrite (cut_none _ E). intros [<-|[]]. auto.
  - destruct (cut_some _ _ _ E) as (-> & Ea & L' & _). intros [<-|H]; auto. apply (IH r); auto. lia.
  - rewrite (cut_none _ E). intros [<-|[]]. auto.
Qed.
Lemma path_name_components s : path_name (components s) = s.
Proof.
  remember (String.length s) as n eqn:En. assert (L : String.length s <= n) by lia. clear En. revert s L.
  induction n as [|n IH]; intros s L; destruct (cut_slash s) as [[a r]|] eqn:E; try (rewrite (cut_none _ E); reflexivity);
    destruct (cut_some _ _ _ E) as (Ec & Ea & L' & Es); [lia|].
  rewrite Ec. destruct (components_cons r) as (k & t & Er). rewrite Er. change (path_name (a :: k :: t)) with (a ++ "/" ++ path_name (k :: t))%string. rewrite <- Er, IH by lia.
  subst s. auto.
Qed.
Lemma cut_app a r : cut_slash a = None -> cut_slash (a ++ String "/" r) = Some (a, r).
Proof.
  induction a as [|c a IH]; cbn [append cut_slash].
  - cbn. auto.
  - destruct (Ascii.eqb c "/"); [discriminate|]. destruct (cut_slash a) as [[x y]|]; [discriminate|]. intros _. rewrite IH; auto.
Qed.
Lemma components_path_name p : p <> [] -> (forall k, In k p -> cut_slash k = None) -> components (path_name p) = p.
Proof.
  induction p as [|k p IH]; [congruence|]. intros _ H. destruct p as [|k' p].
  - cbn [path_name]. apply cut_none. apply H. left. auto.
  - change (path_name (k :: k' :: p)) with (k ++ String "/" (path_name (k' :: p)))%string.
    destruct (cut_some _ _ _ (cut_app k (path_name (k' :: p)) (H k (or_introl eq_refl)))) as (-> & _).
    f_equal. apply IH; [discriminate|]. intros q Hq. apply H. right. auto.
Qed.

(** ** Well-formed stores *)
Definition valid (B : books) : Prop := forall j l k c, content_of B j = Some l -> In (k, EBook c) l -> c < length B.
Definition keys_ok (B : books) : Prop := forall j l, content_of B j = Some l ->
  NoDup (map fst l) /\ forall k, In k (map fst l) -> cut_slash k = None.

(** ** Lookup *)
Lemma get_n_path n B b name : keys_ok B -> String.length name <= n -> get_n n B b name = at_path B b (components name).
Proof.
  intros K. revert b name. induction n as [|n IH]; intros b name L; cbn [get_n].
  - assert (cut_slash name = None) as E by (destruct name; [auto|cbn in L; lia]).
    rewrite (cut_none _ E), at_path_cons. unfold look, content_of. destruct (nth_error B b) as [o|]; auto. cbn [option_map].
    rewrite E. destruct (dget name (b_content o)); auto.
  - destruct (nth_error B b) as [o|] eqn:Eo.
    2:{ destruct (components_cons name) as (k & t & ->). rewrite at_path_cons. unfold look, content_of. rewrite Eo. auto. }
    assert (Ec : content_of B b = Some (b_content o)) by (unfold content_of; rewrite Eo; auto).
    destruct (cut_slash name) as [[k rest]|] eqn:E.
    + destruct (cut_some _ _ _ E) as (-> & _ & L' & _). rewrite at_path_cons. unfold look. rewrite Ec.
      destruct (dget name (b_content o)) as [x|] eqn:D.
      * exfalso. apply dget_in in D. apply (in_map fst) in D. destruct (K _ _ Ec) as (_ & K2). specialize (K2 _ D). cbn in K2. congruence.
      * destruct (dget k (b_content o)) as [[h|c]|]; auto.
        -- destruct (components_cons rest) as (k' & t & ->). auto.
        -- apply IH. lia.
    + rewrite (cut_none _ E), at_path_cons. unfold look. rewrite Ec. destruct (dget name (b_content o)); auto.
Qed.
Lemma get_path B b name : keys_ok B -> get_ B b name = at_path B b (components name).
Proof. intros K. apply get_n_path; auto. Qed.

(** ** Assignment *)
(** [B'] is [B] with name [k] of book [i] set to [v], or to a new book that leads to [v] by [rest]. *)
Record placed (B B' : books) (i : nat) (k : string) (rest : list string) (v : entry) : Prop := {
  pl_length : length B' = length B + length rest;
  pl_other : forall j, j <> i -> j < length B -> content_of B' j = content_of B j;
  pl_here : exists l, content_of B i = Some l /\ (rest <> [] -> dget k l = None) /\
              content_of B' i = Some (dset k (match rest with [] => v | _ => EBook (length B) end) l);
  pl_chain : forall m r, nth_error rest m = Some r ->
     content_of B' (length B + m) = Some [(r, if Nat.eqb (S m) (length rest) then v else EBook (length B + S m))] }.

Lemma placed_mark B B' i k rest v b : placed B B' i k rest v -> placed B (mark B' b) i k rest v.
Proof.
  intros [L O H C]. split.
  - rewrite mark_length. auto.
  - intros j N Lj. rewrite content_mark. auto.
  - destruct H as (l & H1 & H2 & H3). exists l. rewrite content_mark. auto.
  - intros m r E. rewrite content_mark. auto.
Qed.

Lemma set_n_placed n : forall B b name v B' e, valid B -> b < length B -> String.length name <= n ->
  set_n n B b name v = (B', e) ->
  (e = None /\ exists d k rest i, components name = d ++ k :: rest /\ at_path B b d = Some (EBook i) /\ placed B B' i k rest v) \/
  (e = Some KeyError /\ B' = B /\ exists d t h, components name = d ++ t /\ t <> [] /\ at_path B b d = Some (EHist h)).
Proof.
  induction n as [|n IH]; intros B b name v B' e Hv Hb Hn; cbn [set_n];
    (destruct (nth_error B b) as [o|] eqn:Eo; [|apply nth_error_None in Eo; lia]);
    assert (Ec : content_of B b = Some (b_content o)) by (unfold content_of; rewrite Eo; auto);
    (destruct (cut_slash name) as [[k rest]|] eqn:E;
       [|intros H; inversion H; subst; left; split; auto; exists [], name, [], b; rewrite (cut_none _ E); split; [reflexivity|]; split; [reflexivity|];
         apply placed_mark; split;
          [rewrite put_length; cbn; lia
          |intros j N Lj; rewrite content_put by auto; apply Nat.eqb_neq in N; rewrite N; auto
          |exists (b_content o); split; auto; split; [congruence|]; rewrite content_put, Nat.eqb_refl by auto; auto
          |intros m r Em; destruct m; discriminate]]).
  - destruct (cut_some _ _ _ E) as (_ & _ & L & _). lia.
  - destruct (cut_some _ _ _ E) as (Ecs & _ & L & _). destruct (dget k (b_content o)) as [[h|c]|] eqn:D.
    + intros H. inversion H; subst. right. split; auto. split; auto.
      exists [k], (components rest), h. split; auto. split; [apply components_nonempty|]. rewrite at_path_cons. unfold look. rewrite Ec, D. auto.
    + destruct (set_n n B c rest v) as [B2 e2] eqn:R. intros H.
      assert (Hc : c < length B) by (apply (Hv _ _ k _ Ec); apply dget_in; auto).
      assert (at_path B b [k] = Some (EBook c)) as P1 by (rewrite at_path_cons; unfold look; rewrite Ec, D; auto).
      destruct (IH B c rest v B2 e2 Hv Hc) as [(-> & d & k' & rest' & i & E1 & E2 & P)|(-> & -> & d & t & h & E1 & E2 & E3)]; auto; [lia| |].
      * inversion H; subst. left. split; auto. exists (k :: d), k', rest', i. rewrite Ecs, E1. split; auto.
        split; [|apply placed_mark; auto]. change (k :: d) with ([k] ++ d). rewrite at_path_app, P1. auto.
      * inversion H; subst. right. split; auto. split; auto. exists (k :: d), t, h. rewrite Ecs, E1. split; auto. split; auto.
        change (k :: d) with ([k] ++ d). rewrite at_path_app, P1. auto.
    + cbn [new_book]. set (c := length B). set (B1 := put (B ++ [empty_book]) b (with_items o (dset k (EBook c) (b_content o)))).
      destruct (set_n n B1 c rest v) as [B2 e2] eqn:R. intros H.
      assert (L1 : length B1 = S (length B)) by (unfold B1; rewrite put_length, app_length; cbn; lia).
      assert (C1 : forall j, content_of B1 j = if Nat.eqb j b then Some (dset k (EBook c) (b_content o)) else if Nat.eqb j c then Some [] else content_of B j).
      { intros j. unfold B1. rewrite content_put by (rewrite app_length; lia). destruct (Nat.eqb j b); auto. rewrite content_app. auto. }
      assert (Cc : content_of B1 c = Some []).
      { rewrite C1. replace (Nat.eqb c b) with false by (symmetry; apply Nat.eqb_neq; unfold c; lia). rewrite Nat.eqb_refl. auto. }
      assert (V1 : valid B1).
      { intros j l k0 c0. rewrite C1, L1. destruct (Nat.eqb j b).
        - intros Q. inversion Q; subst l. intros I. apply in_dset in I. destruct I as [(_ & I)|I]; [inversion I; unfold c; lia|].
          assert (c0 < length B) by (eapply Hv; eauto). lia.
        - destruct (Nat.eqb j c); [intros Q; inversion Q; subst; intros []|]. intros Q I. assert (c0 < length B) by (eapply Hv; eauto). lia. }
      destruct (IH B1 c rest v B2 e2 V1) as [(-> & d & k' & rest' & i & E1 & E2 & P)|(-> & -> & d & t & h & E1 & E2 & E3)]; auto.
      * rewrite L1. unfold c. lia.
      * lia.
      * inversion H; subst. left. split; auto.
        assert (d = [] /\ i = c) as (-> & ->).
        { destruct d as [|k0 d]; [cbn in E2; inversion E2; auto|]. rewrite at_path_cons in E2. unfold look in E2. rewrite Cc in E2. discriminate. }
        cbn [app] in E1. exists [], k, (components rest), b. rewrite Ecs. split; auto. split; auto. apply placed_mark. rewrite E1.
        destruct P as [PL PO (l & PH1 & PH2 & PH3) PC]. rewrite Cc in PH1. inversion PH1; subst l. clear PH1. split.
        -- rewrite PL, L1. cbn [length]. lia.
        -- intros j N Lj. rewrite PO by (rewrite ?L1; unfold c; lia). rewrite C1. apply Nat.eqb_neq in N. rewrite N.
           replace (Nat.eqb j c) with false; auto. symmetry. apply Nat.eqb_neq. unfold c. lia.
        -- exists (b_content o). split; auto. split; [auto|]. rewrite PO by (rewrite ?L1; unfold c; lia). rewrite C1, Nat.eqb_refl. auto.
        -- intros m r Em. destruct m as [|m]; cbn [nth_error] in Em.
           ++ inversion Em; subst r. rewrite Nat.add_0_r. fold c. rewrite PH3. cbn [dset]. destruct rest' as [|r' rest']; cbn [length Nat.eqb]; auto.
              rewrite L1. unfold c. rewrite Nat.add_1_r. auto.
           ++ specialize (PC m r Em). rewrite L1 in PC. replace (length B + S m) with (S (length B) + m) by lia. rewrite PC.
              cbn [length]. change (Nat.eqb (S (S m)) (S (length rest'))) with (Nat.eqb (S m) (length rest')).
              destruct (Nat.eqb (S m) (length rest')); auto. do 4 f_equal. lia.
      * exfalso. destruct d as [|k0 d]; [cbn in E3; discriminate|]. rewrite at_path_cons in E3. unfold look in E3. rewrite Cc in E3. discriminate.
Qed.
