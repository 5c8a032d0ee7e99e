(** The matcher of Glob.v accepts exactly the names that the pattern describes. *)
From Coq Require Import String Ascii.
From Verif Require Import Base Book Glob BookSpec.
Local Open Scope char_scope.
Local Open Scope list_scope.

Lemma eqb_char a b : Ascii.eqb a b = true <-> a = b.
Proof. apply Ascii.eqb_eq. Qed.
Lemma neqb_char a b : Ascii.eqb a b = false <-> a <> b.
Proof. apply Ascii.eqb_neq. Qed.

(** ** Sets *)
Lemma in_range_between c r : in_range c r = true <-> between c r.
Proof. unfold in_range, between. rewrite andb_true_iff, !Nat.leb_le. tauto. Qed.
Lemma ranges_member c n : forall b, length b <= n -> (existsb (in_range c) (set_ranges n b) = true <-> member c b).
Proof.
  induction n as [|n IH]; intros b Hn.
  - destruct b; [|cbn in Hn; lia]. cbn. split; [discriminate|]. inversion 1.
  - destruct b as [|x [|d [|y t]]]; cbn [set_ranges].
    + cbn. split; [discriminate|inversion 1].
    + cbn [existsb]. destruct n; cbn [set_ranges existsb]; rewrite orb_false_r, in_range_between; unfold between; cbn [fst snd].
      all: split; [intros H|inversion 1; subst; [lia|match goal with H : member _ [] |- _ => inversion H end]].
      all: assert (x = c) as -> by (rewrite <- (ascii_nat_embedding x), <- (ascii_nat_embedding c); f_equal; lia).
      all: apply member_here; intros y u; discriminate.
    + cbn [length] in Hn. cbn [existsb]. rewrite orb_true_iff, in_range_between. unfold between; cbn [fst snd].
      rewrite (IH [d]) by (cbn; lia). split.
      * intros [H|H].
        -- assert (x = c) as -> by (rewrite <- (ascii_nat_embedding x), <- (ascii_nat_embedding c); f_equal; lia).
           apply member_here. intros y u; discriminate.
        -- apply member_later; auto. intros y u; discriminate.
      * inversion 1; subst; auto; left; lia.
    + destruct (Ascii.eqb d "-") eqn:E.
      * apply eqb_char in E. subst d. cbn [existsb]. rewrite orb_true_iff, in_range_between. cbn [length] in Hn.
        rewrite (IH t) by lia. split.
        -- intros [H|H]; [apply member_range|apply member_after_range]; auto.
        -- inversion 1; subst; auto.
           ++ exfalso. match goal with H : forall y u, _ <> _ |- _ => eapply H; reflexivity end.
           ++ exfalso. match goal with H : forall y u, _ <> _ |- _ => eapply H; reflexivity end.
      * apply neqb_char in E. cbn [existsb]. rewrite orb_true_iff, in_range_between. unfold between; cbn [fst snd].
        rewrite (IH (d :: y :: t)) by (cbn [length] in *; lia). split.
        -- intros [H|H].
           ++ assert (x = c) as -> by (rewrite <- (ascii_nat_embedding x), <- (ascii_nat_embedding c); f_equal; lia).
              apply member_here. intros y' u E'. inversion E'. auto.
           ++ apply member_later; auto. intros y' u E'. inversion E'. auto.
        -- inversion 1; subst; auto; try congruence; left; lia.
Qed.

Lemma upto_close_at b r : ~ In "]" b -> upto_close (b ++ "]" :: r) = Some (b, r).
Proof.
  intros N. induction b as [|y b IH]; cbn [app upto_close]; auto.
  destruct (Ascii.eqb y "]") eqn:E; [apply eqb_char in E; subst; exfalso; apply N; left; auto|].
  rewrite IH; auto. intros H; apply N; right; auto.
Qed.
Lemma upto_close_some p b r : upto_close p = Some (b, r) <-> p = b ++ "]" :: r /\ ~ In "]" b.
Proof.
  split; [|intros (-> & N); apply upto_close_at; auto].
  revert b r. induction p as [|c p IH]; intros b r; cbn [upto_close]; [discriminate|].
  destruct (Ascii.eqb c "]") eqn:E.
  - apply eqb_char in E. subst c. intros H. inversion H; subst. auto.
  - apply neqb_char in E. destruct (upto_close p) as [[b' r']|] eqn:U; [|discriminate].
    intros H. inversion H; subst. destruct (IH b' r eq_refl) as (-> & N). split; auto. cbn [In]. intros [H'|H']; auto.
Qed.
Lemma set_body_some p b r : set_body p = Some (b, r) <-> closed_set p b r.
Proof.
  unfold set_body, closed_set. destruct p as [|c p].
  - split; [discriminate|]. intros (E & _). destruct b; discriminate.
  - destruct (upto_close p) as [[b' r']|] eqn:U.
    + assert (U' := proj1 (upto_close_some p b' r') U). destruct U' as (-> & N). split.
      * intros H. inversion H; subst. split; auto. eauto.
      * intros (H & c' & t & -> & N'). cbn [app] in H. inversion H; subst. rewrite H2 in U.
        assert (Q : upto_close (t ++ "]" :: r) = Some (t, r)) by (apply upto_close_some; auto).
        rewrite Q in U. inversion U; subst. auto.
    + split; [discriminate|]. intros (H & c' & t & -> & N'). cbn [app] in H. inversion H; subst.
      assert (Q : upto_close (t ++ "]" :: r) = Some (t, r)) by (apply upto_close_some; auto). congruence.
Qed.
Lemma set_body_none p : set_body p = None <-> forall b r, ~ closed_set p b r.
Proof.
  destruct (set_body p) as [[b r]|] eqn:E.
  - split; [discriminate|]. intros H. apply set_body_some in E. exfalso. eapply H; eauto.
  - split; auto. intros _ b r H. apply set_body_some in H. congruence.
Qed.
Lemma set_body_shorter p b r : set_body p = Some (b, r) -> length r < length p.
Proof. intros H. apply set_body_some in H. destruct H as (-> & _). rewrite app_length. cbn [length]. lia. Qed.

Lemma bracket_none p : bracket p = None <-> unclosed p.
Proof.
  unfold bracket, unclosed. destruct p as [|c q].
  - split; auto. intros _ body rest. split; [discriminate|]. intros _ (E & _). destruct body; discriminate.
  - unfold is_bang. destruct (Ascii.eqb c "!") eqn:E.
    + apply eqb_char in E. subst c. destruct (set_body q) as [[b r]|] eqn:S.
      * split; [discriminate|]. intros H. apply set_body_some in S. exfalso. destruct (H b r) as (H1 & _). eapply H1; eauto.
      * split; auto. intros _ body rest. split.
        -- intros q' Eq. inversion Eq; subst. apply (proj1 (set_body_none q')); auto.
        -- intros H. exfalso. eapply H; eauto.
    + apply neqb_char in E. destruct (set_body (c :: q)) as [[b r]|] eqn:S.
      * split; [discriminate|]. intros H. apply set_body_some in S. exfalso. destruct (H b r) as (_ & H1). apply H1; auto.
        intros q' Eq. inversion Eq. auto.
      * split; auto. intros _ body rest. split.
        -- intros q' Eq. inversion Eq. congruence.
        -- intros _. apply (proj1 (set_body_none _)); auto.
Qed.

(** ** The matcher *)
Lemma matches_star ts s : matches (TStar :: ts) s = true <-> exists a t, s = a ++ t /\ matches ts t = true.
Proof.
  induction s as [|c s IH].
  - change (matches (TStar :: ts) []) with (matches ts [] || false). rewrite orb_false_r. split.
    + intros H. exists [], []. auto.
    + intros (a & t & E & H). destruct a; [cbn in E; subst; auto|discriminate].
  - change (matches (TStar :: ts) (c :: s)) with (matches ts (c :: s) || matches (TStar :: ts) s). rewrite orb_true_iff, IH. split.
    + intros [H|(a & t & -> & H)]; [exists [], (c :: s)|exists (c :: a), t]; auto.
    + intros (a & t & E & H). destruct a as [|x a]; cbn [app] in E; [subst; auto|inversion E; subst; eauto].
Qed.
Lemma star_refl : matches [TStar] [] = true. Proof. reflexivity. Qed.

Lemma translate_glob n : forall p s, length p <= n -> (matches (translate n p) s = true <-> glob p s).
Proof.
  induction n as [|n IH]; intros p s Hn.
  - destruct p; [|cbn in Hn; lia]. cbn. split; [destruct s; [constructor|discriminate]|inversion 1; auto].
  - destruct p as [|c p]; cbn [translate].
    + cbn. split; [destruct s; [constructor|discriminate]|inversion 1; auto].
    + cbn [length] in Hn. destruct (Ascii.eqb c "*") eqn:E1.
      { apply eqb_char in E1. subst c. rewrite matches_star. split.
        - intros (a & t & -> & H). constructor. apply IH; auto. lia.
        - inversion 1; subst; try congruence. exists s0, t. split; auto. apply IH; auto. lia. }
      destruct (Ascii.eqb c "?") eqn:E2.
      { apply eqb_char in E2. subst c. destruct s as [|d s]; cbn [matches one andb].
        - split; [discriminate|inversion 1].
        - rewrite IH by lia. split; [intros H; constructor; auto|inversion 1; subst; auto; congruence]. }
      apply neqb_char in E1, E2. destruct (Ascii.eqb c "[") eqn:E3.
      2:{ apply neqb_char in E3. destruct s as [|d s]; cbn [matches one].
          - split; [discriminate|inversion 1; congruence].
          - rewrite andb_true_iff, eqb_char, IH by lia. split.
            + intros (-> & H). constructor; auto.
            + inversion 1; subst; auto; congruence. }
      apply eqb_char in E3. subst c. clear E1 E2. destruct (bracket p) as [[tk r]|] eqn:Br.
      2:{ assert (U := proj1 (bracket_none p) Br). destruct s as [|d s]; cbn [matches one].
          - split; [discriminate|inversion 1; congruence].
          - rewrite andb_true_iff, eqb_char, IH by lia. split.
            + intros (-> & H). apply glob_bracket; auto.
            + inversion 1; subst; auto; try congruence.
              * exfalso. destruct (U body rest) as (_ & U2). apply U2; auto.
              * exfalso. destruct (U body rest) as (U1 & _). eapply U1; eauto. }
      assert (Bs := Br). unfold bracket in Bs. destruct p as [|c q]; [discriminate|]. unfold is_bang in Bs.
      destruct (Ascii.eqb c "!") eqn:E.
      * apply eqb_char in E. subst c. destruct (set_body q) as [[b r']|] eqn:S; [|discriminate]. inversion Bs; subst tk r'. clear Bs.
        assert (Sh := set_body_shorter _ _ _ S). assert (C := proj1 (set_body_some _ _ _) S). cbn [length] in Hn.
        destruct s as [|d s]; cbn [matches one].
        -- split; [discriminate|inversion 1].
        -- rewrite andb_true_iff, IH by lia.
           assert (M : xorb true (existsb (in_range d) (set_ranges (length b) b)) = true <-> ~ member d b).
           { rewrite <- (ranges_member d (length b) b) by lia. destruct (existsb _ _); cbn; split; congruence. }
           rewrite M. split.
           ++ intros (H1 & H2). eapply glob_not; eauto.
           ++ clear C. inversion 1; subst; try congruence;
                try (exfalso; match goal with U : unclosed _ |- _ => apply (proj2 (bracket_none _)) in U; congruence end);
                try (exfalso; match goal with U : forall q, _ <> _ |- _ => eapply U; reflexivity end).
              match goal with U : closed_set _ _ _ |- _ => apply set_body_some in U; rewrite S in U; inversion U; subst end. auto.
      * apply neqb_char in E. destruct (set_body (c :: q)) as [[b r']|] eqn:S; [|discriminate]. inversion Bs; subst tk r'. clear Bs.
        assert (Sh := set_body_shorter _ _ _ S). assert (C := proj1 (set_body_some _ _ _) S). cbn [length] in Hn, Sh.
        destruct s as [|d s]; cbn [matches one].
        -- split; [discriminate|inversion 1].
        -- rewrite andb_true_iff, IH by lia. rewrite xorb_false_l, ranges_member by lia. split.
           ++ intros (H1 & H2). eapply glob_set; eauto. intros q' Eq. inversion Eq. auto.
           ++ clear C. inversion 1; subst; try congruence;
                try (exfalso; match goal with U : unclosed _ |- _ => apply (proj2 (bracket_none _)) in U; congruence end);
                try (exfalso; match goal with U : forall q, _ <> _ |- _ => eapply U; reflexivity end).
              match goal with U : closed_set _ _ _ |- _ => apply set_body_some in U; rewrite S in U; inversion U; subst end. auto.
Qed.
Lemma fnmatchcase_spec name pat : fnmatchcase name pat = true <-> matches_pattern pat name.
Proof. unfold fnmatchcase, matches_pattern. apply translate_glob. auto. Qed.

(** A pattern without special characters matches only itself. *)
Lemma glob_plain p s : existsb is_wild p = false -> glob p s -> p = s.
Proof.
  intros W G. induction G; auto; cbn [existsb] in W; apply orb_false_iff in W; destruct W as (Wa & Wb);
    try (cbn in Wa; discriminate).
  f_equal. auto.
Qed.
