(** What assignment and deletion do to the paths of a book in which nothing is shared. *)
From Coq Require Import String Ascii.
From Verif Require Import Base Book BookSpec BookProofs.
Local Open Scope string_scope.
Local Open Scope list_scope.

Lemma prefix_refl {A} (p : list A) : prefix p p.
Proof. exists []. rewrite app_nil_r. auto. Qed.
Lemma prefix_app {A} (p q : list A) : prefix p (p ++ q).
Proof. exists q. auto. Qed.
Lemma app_same {A} (p a b : list A) : p ++ a = p ++ b -> a = b.
Proof. apply app_inv_head. Qed.

(** ** One book changes at one name *)
Section Change.
  Variables (B B' : books) (b i : nat) (d : list string) (k : string).
  Hypothesis Hu : unshared B b.
  Hypothesis Hi : at_path B b d = Some (EBook i).
  Hypothesis Ho : forall j, j <> i -> j < length B -> content_of B' j = content_of B j.
  Hypothesis Hh : forall k', k' <> k -> look B' i k' = look B i k'.
  Hypothesis Hv : valid B.

  Lemma follow_valid x p c : exists_in B x -> follow B x p = Some (EBook c) -> c < length B.
  Proof.
    revert x. induction p as [|k0 p IH]; intros x Hx.
    - cbn. intros E. inversion E; subst. auto.
    - rewrite follow_cons. destruct x as [h|a]; [discriminate|]. destruct (look B a k0) as [y|] eqn:E; [|discriminate].
      apply IH. unfold look in E. destruct (content_of B a) as [l|] eqn:El; [|discriminate]. apply dget_in in E.
      destruct y as [h|y]; cbn; auto. eapply Hv; eauto.
  Qed.
  Hypothesis Hb : b < length B.

  Lemma same_below p q j : at_path B b p = Some (EBook j) -> ~ prefix (d ++ [k]) (p ++ q) -> follow B' (EBook j) q = follow B (EBook j) q.
  Proof.
    revert p j. induction q as [|k0 q IH]; intros p j Hj Hn; auto. rewrite !follow_cons.
    assert (L : look B' j k0 = look B j k0).
    { destruct (Nat.eq_dec j i) as [->|N].
      - assert (p = d) as -> by (eapply Hu; eauto). apply Hh. intros ->. apply Hn.
        exists q. rewrite <- app_assoc. auto.
      - unfold look. rewrite Ho; auto. apply (follow_valid (EBook b) p); auto. }
    rewrite L. destruct (look B j k0) as [[h|c]|] eqn:E; auto.
    - destruct q; auto.
    - apply (IH (p ++ [k0])).
      + rewrite at_path_app, Hj, follow_cons, E. auto.
      + rewrite <- app_assoc. auto.
  Qed.
  Lemma same_elsewhere q : ~ prefix (d ++ [k]) q -> at_path B' b q = at_path B b q.
  Proof. intros H. apply (same_below []); auto. Qed.
  Lemma same_to_here q : prefix q d -> at_path B' b q = at_path B b q.
  Proof.
    intros (t & Ed). apply same_elsewhere. intros (u & E).
    assert (F : length q = length ((d ++ [k]) ++ u)) by (rewrite <- E; auto).
    assert (G : length d = length (q ++ t)) by (rewrite <- Ed; auto). rewrite app_length in G. repeat rewrite app_length in F.
    cbn [length] in F. lia.
  Qed.
  Lemma below_here q : at_path B' b ((d ++ [k]) ++ q) = match look B' i k with Some x => follow B' x q | None => None end.
  Proof.
    rewrite <- app_assoc, at_path_app. rewrite same_to_here by apply prefix_refl. rewrite Hi. cbn [app]. rewrite follow_cons. auto.
  Qed.
End Change.

(** ** Assignment *)
Lemma chain B B' i k rest v : placed B B' i k rest v -> rest <> [] ->
  forall m, m <= length rest -> forall q, follow B' (EBook (length B)) (firstn m rest ++ q) =
    (if Nat.eqb m (length rest) then follow B' v q else follow B' (EBook (length B + m)) q).
Proof.
  intros P Hr m. induction m as [|m IH]; intros Lm q.
  - destruct rest as [|r rest]; [congruence|]. cbn [firstn app length Nat.eqb]. rewrite Nat.add_0_r. auto.
  - destruct (nth_error rest m) as [r|] eqn:E; [|apply nth_error_None in E; lia].
    assert (F : firstn (S m) rest = firstn m rest ++ [r]).
    { clear - E. revert rest E. induction m as [|m IH]; intros [|a rest]; cbn [nth_error]; try discriminate.
      - intros E. inversion E. auto.
      - intros E. cbn [firstn app]. cbn [firstn] in IH. rewrite <- IH by auto. auto. }
    rewrite F, <- app_assoc, IH by lia. replace (Nat.eqb m (length rest)) with false by (symmetry; apply Nat.eqb_neq; lia).
    cbn [app]. rewrite follow_cons. unfold look. rewrite (pl_chain _ _ _ _ _ _ P m r E). cbn [dget]. rewrite String.eqb_refl.
    destruct (Nat.eqb (S m) (length rest)); auto.
Qed.

Section Placed.
  Variables (B B' : books) (b i : nat) (d : list string) (k : string) (rest : list string) (v : entry).
  Hypothesis Hu : unshared B b.
  Hypothesis Hi : at_path B b d = Some (EBook i).
  Hypothesis P : placed B B' i k rest v.
  Hypothesis Hv : valid B.
  Hypothesis Hb : b < length B.

  Lemma placed_other k' : k' <> k -> look B' i k' = look B i k'.
  Proof.
    intros N. destruct (pl_here _ _ _ _ _ _ P) as (l & E1 & _ & E2). unfold look. rewrite E1, E2, dget_dset.
    apply String.eqb_neq in N. rewrite N. auto.
  Qed.
  Lemma placed_at_all q : at_path B' b ((d ++ k :: rest) ++ q) = follow B' v q.
  Proof.
    replace ((d ++ k :: rest) ++ q) with ((d ++ [k]) ++ rest ++ q) by (rewrite <- !app_assoc; auto).
    rewrite (below_here B B' b i d k); auto using placed_other. 2:{ apply (pl_other _ _ _ _ _ _ P). }
    destruct (pl_here _ _ _ _ _ _ P) as (l & E1 & _ & E2). unfold look. rewrite E2, dget_dset, String.eqb_refl.
    destruct rest as [|r rest'] eqn:Er; auto. rewrite <- Er in *.
    assert (C := chain B B' i k rest v P). rewrite Er in C. specialize (C ltac:(discriminate) (length (r :: rest')) (le_n _) q).
    rewrite firstn_all, Nat.eqb_refl in C. rewrite Er. auto.
  Qed.
  Lemma placed_unrelated q : unrelated (d ++ k :: rest) q -> at_path B' b q = at_path B b q.
  Proof.
    intros (N1 & N2). assert (Oth := pl_other _ _ _ _ _ _ P).
    destruct (pl_here _ _ _ _ _ _ P) as (l & E1 & Ed & E2).
    assert (D : prefix (d ++ [k]) q \/ ~ prefix (d ++ [k]) q).
    { destruct (list_eq_dec string_dec (firstn (length (d ++ [k])) q) (d ++ [k])) as [E|E].
      - left. exists (skipn (length (d ++ [k])) q). rewrite <- E at 1. rewrite firstn_skipn. auto.
      - right. intros (t & ->). apply E. rewrite firstn_app, Nat.sub_diag, firstn_all. cbn [firstn]. apply app_nil_r. }
    destruct D as [(t & ->)|D]; [|apply (same_elsewhere B B' b i d k); auto using placed_other].
    assert (R : rest <> []).
    { intros ->. apply N1. exists t. auto. }
    rewrite (below_here B B' b i d k); auto using placed_other.
    assert (O : at_path B b ((d ++ [k]) ++ t) = None).
    { rewrite <- app_assoc, at_path_app, Hi. cbn [app]. rewrite follow_cons. unfold look. rewrite E1, Ed; auto. }
    rewrite O. unfold look. rewrite E2, dget_dset, String.eqb_refl. destruct rest as [|r rest'] eqn:Er; [congruence|]. rewrite <- Er in *.
    (* t leaves the chain of new books *)
    assert (N1' : ~ prefix rest t).
    { intros (u & ->). apply N1. exists u. rewrite <- !app_assoc. auto. }
    assert (N2' : ~ prefix t rest).
    { intros (u & Q). apply N2. exists u. rewrite Q, <- !app_assoc. auto. }
    clear N1 N2 O. revert N1' N2'.
    assert (G : forall m u, m < length rest -> ~ prefix (skipn m rest) u -> ~ prefix u (skipn m rest) -> follow B' (EBook (length B + m)) u = None).
    { intros m. remember (length rest - m) as g eqn:Eg. revert m Eg. induction g as [|g IHg]; intros m Eg u Lm M1 M2; [lia|].
      destruct (nth_error rest m) as [r0|] eqn:E; [|apply nth_error_None in E; lia].
      assert (Sk : skipn m rest = r0 :: skipn (S m) rest).
      { clear - E. revert rest E. induction m as [|m IH]; intros [|a rest]; cbn [nth_error]; try discriminate.
        - intros E. inversion E. auto.
        - intros E. cbn [skipn]. rewrite IH; auto. }
      rewrite Sk in M1, M2. destruct u as [|a u]; [exfalso; apply M2; exists (r0 :: skipn (S m) rest); auto|].
      rewrite follow_cons. unfold look. rewrite (pl_chain _ _ _ _ _ _ P m r0 E). cbn [dget].
      destruct (String.eqb a r0) eqn:Ea; auto. apply String.eqb_eq in Ea. subst a.
      destruct (Nat.eqb (S m) (length rest)) eqn:Em.
      - apply Nat.eqb_eq in Em. exfalso. apply M1. rewrite Em, skipn_all. exists u. auto.
      - apply Nat.eqb_neq in Em. apply IHg; try lia.
        + intros (w & W). apply M1. exists w. cbn [app]. f_equal. auto.
        + intros (w & W). apply M2. exists w. cbn [app]. f_equal. auto. }
    intros N1' N2'. specialize (G 0 t). rewrite Nat.add_0_r in G. apply G; auto. rewrite Er. cbn [length]. lia.
  Qed.
  Lemma placed_above q t : t <> [] -> d ++ k :: rest = q ++ t ->
    match at_path B b q with
    | Some x => at_path B' b q = Some x /\ exists c, x = EBook c
    | None => exists c, at_path B' b q = Some (EBook c) /\ length B <= c
    end.
  Proof.
    intros Ht E. assert (Oth := pl_other _ _ _ _ _ _ P). destruct (pl_here _ _ _ _ _ _ P) as (l & E1 & Ed & E2).
    destruct (Nat.le_gt_cases (length q) (length d)) as [L|L].
    - assert (Q : prefix q d).
      { exists (skipn (length q) d). assert (F : firstn (length q) (d ++ k :: rest) = q) by (rewrite E, firstn_app, Nat.sub_diag, firstn_all; cbn; apply app_nil_r).
        rewrite firstn_app in F. replace (length q - length d) with 0 in F by lia. cbn [firstn] in F. rewrite app_nil_r in F.
        rewrite <- F at 1. rewrite F. rewrite <- F at 1. rewrite firstn_skipn. auto. }
      assert (S : at_path B' b q = at_path B b q) by (apply (same_to_here B B' b i d k); auto using placed_other). rewrite S.
      destruct Q as (u & Q). assert (Hi' := Hi). rewrite Q, at_path_app in Hi'. destruct (at_path B b q) as [[h|c]|] eqn:Eq; try discriminate.
      + destruct u; cbn in Hi'; discriminate.
      + eauto.
    - (* inside the chain *)
      assert (exists m, q = d ++ k :: firstn m rest /\ m < length rest) as (m & -> & Lm).
      { exists (length q - S (length d)). assert (F : firstn (length q) (d ++ k :: rest) = q) by (rewrite E, firstn_app, Nat.sub_diag, firstn_all; cbn; apply app_nil_r).
        rewrite firstn_app, firstn_all2 in F by lia. replace (length q - length d) with (S (length q - S (length d))) in F by lia. cbn [firstn] in F.
        split; [auto|]. apply (f_equal (@length _)) in E. rewrite !app_length in E. cbn [length] in E. destruct t; [congruence|]. cbn [length] in E. lia. }
      clear L.
      assert (R : rest <> []) by (destruct rest; [cbn in Lm; lia|discriminate]).
      assert (N : at_path B b (d ++ k :: firstn m rest) = None).
      { rewrite at_path_app, Hi, follow_cons. unfold look. rewrite E1, Ed; auto. }
      rewrite N. exists (length B + m). split; [|lia].
      replace (d ++ k :: firstn m rest) with ((d ++ [k]) ++ firstn m rest ++ []) by (rewrite <- app_assoc, app_nil_r; auto).
      rewrite (below_here B B' b i d k); auto using placed_other. unfold look. rewrite E2, dget_dset, String.eqb_refl.
      destruct rest as [|r rest'] eqn:Er; [congruence|]. rewrite <- Er in *.
      rewrite (chain B B' i k rest v P) by (auto; lia). replace (Nat.eqb m (length rest)) with false by (symmetry; apply Nat.eqb_neq; lia). auto.
  Qed.
End Placed.

(** ** Deletion *)
Record removed (B B' : books) (i : nat) (k : string) : Prop := {
  rm_length : length B' = length B;
  rm_other : forall j, j <> i -> content_of B' j = content_of B j;
  rm_here : exists l x, content_of B i = Some l /\ dget k l = Some x /\ content_of B' i = Some (ddel k l) }.
Lemma removed_mark B B' i k b : removed B B' i k -> removed B (mark B' b) i k.
Proof.
  intros [L O (l & x & H)]. split; [rewrite mark_length; auto|intros; rewrite content_mark; auto|]. exists l, x. rewrite content_mark. auto.
Qed.
Lemma del_n_removed n : forall B b name B' e, valid B -> keys_ok B -> b < length B -> String.length name <= n ->
  del_n n B b name = (B', e) ->
  (e = None /\ exists d k i, components name = d ++ [k] /\ at_path B b d = Some (EBook i) /\ removed B B' i k) \/
  (e = Some KeyError /\ B' = B /\ at_path B b (components name) = None).
Proof.
  induction n as [|n IH]; intros B b name B' e Hv K Hb Hn; cbn [del_n];
    (destruct (nth_error B b) as [o|] eqn:Eo; [|apply nth_error_None in Eo; lia]);
    assert (Ec : content_of B b = Some (b_content o)) by (unfold content_of; rewrite Eo; auto);
    (destruct (dget name (b_content o)) as [x|] eqn:D;
     [intros H; inversion H; subst; left; split; auto; exists [], name, b;
      assert (cut_slash name = None) as E by (destruct (K _ _ Ec) as (_ & K2); apply K2; apply (in_map fst) in D || (apply dget_in in D; apply (in_map fst) in D); auto);
      rewrite (cut_none _ E); split; [reflexivity|]; split; [reflexivity|]; apply removed_mark; split;
        [rewrite put_length; auto
        |intros j N; rewrite content_put by auto; apply Nat.eqb_neq in N; rewrite N; auto
        |exists (b_content o), x; split; auto; split; auto; rewrite content_put, Nat.eqb_refl by auto; auto]|]);
    (destruct (cut_slash name) as [[k rest]|] eqn:E;
      [|intros H; inversion H; subst; right; split; auto; split; auto; rewrite (cut_none _ E), at_path_cons; unfold look; rewrite Ec, D; auto]).
  - destruct (cut_some _ _ _ E) as (_ & _ & L & _). lia.
  - destruct (cut_some _ _ _ E) as (Ecs & _ & L & _). destruct (dget k (b_content o)) as [[h|c]|] eqn:D'.
    + intros H. inversion H; subst. right. split; auto. split; auto. rewrite Ecs, at_path_cons. unfold look. rewrite Ec, D'.
      destruct (components_cons rest) as (k' & t & ->). auto.
    + assert (at_path B b [k] = Some (EBook c)) as P1 by (rewrite at_path_cons; unfold look; rewrite Ec, D'; auto).
      assert (Hc : c < length B) by (apply (Hv _ _ k _ Ec); apply dget_in; auto).
      destruct (del_n n B c rest) as [B1 e1] eqn:R. intros H.
      destruct (IH B c rest B1 e1 Hv K Hc) as [(-> & d & k' & i & E1 & E2 & P)|(-> & -> & E1)]; auto; [lia| |]; inversion H; subst.
      * left. split; auto. exists (k :: d), k', i. rewrite Ecs, E1. split; auto. split; [|apply removed_mark; auto].
        change (k :: d) with ([k] ++ d). rewrite at_path_app, P1. auto.
      * right. split; auto. split; auto. rewrite Ecs. change (k :: components rest) with ([k] ++ components rest). rewrite at_path_app, P1. auto.
    + intros H. inversion H; subst. right. split; auto. split; auto. rewrite Ecs, at_path_cons. unfold look. rewrite Ec, D'. auto.
Qed.
Section Removed.
  Variables (B B' : books) (b i : nat) (d : list string) (k : string).
  Hypothesis Hu : unshared B b.
  Hypothesis Hi : at_path B b d = Some (EBook i).
  Hypothesis R : removed B B' i k.
  Hypothesis Hv : valid B.
  Hypothesis K : keys_ok B.
  Hypothesis Hb : b < length B.
  Lemma removed_look k' : look B' i k' = if String.eqb k' k then None else look B i k'.
  Proof.
    destruct (rm_here _ _ _ _ R) as (l & x & E1 & E2 & E3). unfold look. rewrite E3, E1, dget_ddel; auto. apply (K _ _ E1).
  Qed.
  Lemma removed_here q : at_path B' b ((d ++ [k]) ++ q) = None.
  Proof.
    rewrite (below_here B B' b i d k); auto.
    - rewrite removed_look, String.eqb_refl. auto.
    - intros j N _. apply (rm_other _ _ _ _ R); auto.
    - intros k' N. rewrite removed_look. apply String.eqb_neq in N. rewrite N. auto.
  Qed.
  Lemma removed_elsewhere q : ~ prefix (d ++ [k]) q -> at_path B' b q = at_path B b q.
  Proof.
    apply (same_elsewhere B B' b i d k); auto.
    - intros j N _. apply (rm_other _ _ _ _ R); auto.
    - intros k' N. rewrite removed_look. apply String.eqb_neq in N. rewrite N. auto.
  Qed.
End Removed.
