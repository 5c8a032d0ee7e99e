(** Properties of Book.fill: C48. *)
From Coq Require Import String Permutation.
From Verif Require Import Num NumFacts Base Tree Instr InstrSpec InstrProofs Axis Calc AxisMain Content Fill FillSpec Elem HistFill HistSpec HistFillProofs HistFillMain HistFillMain2 HistFillMain3 HistFillMain4 Glob Book BookSpec BookProofs BookPaths BookIter BookFill BookFillSpec BookFillProofs Props_Hist Props_Book.
Local Open Scope string_scope.
Local Open Scope list_scope.

Lemma all_as_changes ids each cs cs' : all_as ids each cs cs' -> changes_as ids each cs cs'.
Proof.
  intros (L & G). split; auto. intros i c E. rewrite (G i c E). destruct (existsb (Nat.eqb i) ids) eqn:X.
  - apply existsb_in in X. tauto.
  - split; auto. intros I. apply existsb_in in I. congruence.
Qed.
Lemma put_same B b o c : nth_error B b = Some o -> same_entries B (put B b {| b_content := b_content o; b_cache := c |}).
Proof.
  intros E j. rewrite nth_put. destruct (Nat.eqb_spec j b) as [->|]; auto. assert (L : b < length B) by (apply nth_error_Some; congruence).
  apply Nat.ltb_lt in L. rewrite L, E. auto.
Qed.
(** Listing the entries of a book does not depend on stored instructions. *)
Lemma same_entries_iter B B' r oh : same_entries B B' -> forall m b path, iteritems_ m r oh B' b path = iteritems_ m r oh B b path.
Proof.
  intros H. induction m as [|m IH]; intros b path; auto. rewrite !iteritems_S. unfold content_of. rewrite H. destruct (option_map b_content (nth_error B b)) as [l|]; auto.
  induction l as [|(n, x) l IHl]; auto. cbn [iter_items]. fold (iter_items m r oh B path). fold (iter_items m r oh B' path). rewrite IHl. destruct x; auto. rewrite IH. auto.
Qed.
Lemma same_entries_hists limit B B' b : same_entries B B' -> book_hists limit B' b = book_hists limit B b.
Proof. intros H. unfold book_hists, values, items. rewrite (same_entries_iter B B' true true H). auto. Qed.

Section Props.
  Variable cast : Num -> Z.
  Variable rnd : Qc -> Num.
  Variable user : string -> list arg -> res val.
  Variable order : tree -> list tree -> list tree.
  Variable limit : nat.

  Section Fill.
    Variable hs : list hist.
    Variable A : arrays.
    Variable len : nat.
    Variable own_order : nat -> tree -> list tree -> list tree.
    Variable own_srcs : nat -> list tree.
    (** What histogram [i], having content [c], becomes by its own fill of the same arrays. *)
    Definition own_fill (i : nat) (c : content) : content * option err :=
      match nth_error hs i with
      | Some h => hist_fill cast rnd user (own_order i) (own_srcs i) h A c
      | None => (c, None)
      end.
    Definition own_choices : Prop := forall i h, nth_error hs i = Some h ->
      is_order (own_order i) /\ Permutation (own_srcs i) (sources (hist_goals h)).

    Lemma fields_ok ids srcs : fillable hs ids A len -> Permutation srcs (sources (goals_of hs ids)) -> exists f, fields srcs = Ok f.
    Proof.
      intros (_ & _ & F) P. unfold fields. rewrite consts_nil; eauto. intros c Hc. assert (Hc' : In (TBcast c) (sources (goals_of hs ids))) by (eapply Permutation_in; eauto).
      apply sources_table in Hc'. apply table_subtree in Hc'. destruct Hc' as (g & G & S). unfold goals_of in G. apply in_flat_map in G. destruct G as (i & I & G).
      destruct (F i I) as (h & Eh & _ & Nb & _). rewrite Eh in G. apply (no_bcast_goals h c Nb).
      assert (T : In (TBcast c) (table (hist_goals h))).
      { unfold table. apply nodup_In, in_flat_map. exists g. split; auto. apply subtree_grown; auto. }
      apply table_fields_sources in T; auto.
    Qed.

    Lemma book_fields_ok ids srcs B b : up_to_date hs limit B b -> book_hists limit B b = Ok ids -> fillable hs ids A len ->
      is_order order -> Permutation srcs (sources (goals_of hs ids)) ->
      exists B' is, book_fields order limit srcs hs B b = (B', Ok (is, ids)) /\ same_entries B B' /\ up_to_date hs limit B' b /\
        exists o s, is_order o /\ Permutation s (sources (goals_of hs ids)) /\ instructions o s (goals_of hs ids) = Ok is.
    Proof.
      intros (o & Eo & U) Hi F Ho P. unfold book_fields. rewrite Eo. destruct (b_cache o) as [(is, stored)|] eqn:Ec.
      - destruct U as (ids' & ord & s & E1 & -> & O1 & P1 & I1). rewrite Hi in E1. inversion E1; subst ids'. exists B, is. split; auto.
        split; [intros j; auto|]. split; [|eauto 6]. exists o. split; auto. rewrite Ec. exists ids, ord, s. auto.
      - rewrite Hi. cbn [bind]. assert (Eg : book_goals hs ids = Ok (goals_of hs ids)) by (destruct F as (_ & N & _); destruct ids; [congruence|auto]).
        rewrite Eg. cbn [bind]. destruct (c18 V VCst (lib cast rnd user) (param A len) order (goals_of hs ids) srcs Ho P) as (is & Ei & _). rewrite Ei. cbn [bind].
        destruct (fields_ok ids srcs F P) as (f & ->). cbn [bind]. eexists. exists is. split; [reflexivity|].
        assert (Sm := put_same B b o (Some (is, ids)) Eo). split; auto. split; [|eauto 6].
        eexists. split; [rewrite nth_put, Nat.eqb_refl; assert (L : b < length B) by (apply nth_error_Some; congruence); apply Nat.ltb_lt in L; rewrite L; reflexivity|].
        cbn [b_cache]. exists ids, order, srcs. rewrite (same_entries_hists limit B); auto.
    Qed.

    Lemma own_rows i h c : own_choices -> nth_error hs i = Some h -> hist_wf h -> no_bcast h -> args_ok h A len ->
      match rows_of cast rnd user h A len with
      | Ok rows => own_fill i c = fill_rows (hist_layout h) (length (h_group h)) (hist_mode h) rows c
      | Err _ => exists e, own_fill i c = (prefill (hist_layout h) (length (h_group h)) c, Some e)
      end.
    Proof.
      intros Oc Eh W Nb (A1 & A2). unfold own_fill. rewrite Eh. destruct (Oc i h Eh) as (O1 & P1). apply hist_fill_rows; auto.
      destruct (fields_spec h (own_srcs i) P1 Nb) as (ns & E & _). eauto.
    Qed.

    (** book.fill(arrays) changes each of its histograms, and nothing else, exactly as its own
        fill(arrays) would have. *)
    Theorem C48_book_fill_is_each_fill srcs ids B b cs :
      book_hists limit B b = Ok ids -> fillable hs ids A len -> up_to_date hs limit B b ->
      is_order order -> Permutation srcs (sources (goals_of hs ids)) -> own_choices -> length cs = length hs ->
      (forall i c, In i ids -> nth_error cs i = Some c -> snd (own_fill i c) = None) ->
      exists B' cs', book_fill cast rnd user order limit srcs hs A B b cs = (B', cs', None) /\
        changes_as ids (fun i c => fst (own_fill i c)) cs cs' /\
        same_entries B B' /\ up_to_date hs limit B' b.
    Proof.
      intros Hi F U Ho P Oc Lc Hok. destruct (book_fields_ok ids srcs B b U Hi F Ho P) as (B' & is & Ef & Sm & U' & o1 & s1 & O1 & P1 & I1).
      unfold book_fill. rewrite Hi, Ef. cbn [bind fst snd]. destruct F as (Nd & Ne & F).
      assert (Hwf : forall i h, In i ids -> nth_error hs i = Some h -> hist_wf h) by (intros i h I E; destruct (F i I) as (h' & E' & W & _); rewrite E in E'; inversion E'; subst; auto).
      assert (Hargs : forall i h, In i ids -> nth_error hs i = Some h -> args_ok h A len) by (intros i h I E; destruct (F i I) as (h' & E' & _ & _ & W); rewrite E in E'; inversion E'; subst; auto).
      assert (Hnb : forall i h, In i ids -> nth_error hs i = Some h -> no_bcast h) by (intros i h I E; destruct (F i I) as (h' & E' & _ & W & _); rewrite E in E'; inversion E'; subst; auto).
      assert (Hex : exists i h, In i ids /\ nth_error hs i = Some h).
      { destruct ids as [|i ids]; [congruence|]. destruct (F i (or_introl eq_refl)) as (h & E & _). exists i, h. split; auto. left. auto. }
      assert (Hv : forall i, In i ids -> i < length hs) by (intros i I; destruct (F i I) as (h & E & _); apply nth_error_Some; congruence).
      assert (Hrow : forall i h, In i ids -> nth_error hs i = Some h -> exists rows, rows_of cast rnd user h A len = Ok rows).
      { intros i h I E. assert (exists c, nth_error cs i = Some c) as (c & Ec).
        { destruct (nth_error cs i) eqn:X; eauto. apply nth_error_None in X. specialize (Hv i I). lia. }
        assert (R := own_rows i h c Oc E (Hwf _ _ I E) (Hnb _ _ I E) (Hargs _ _ I E)). destruct (rows_of cast rnd user h A len); eauto.
        destruct R as (e' & R). assert (X := Hok i c I Ec). rewrite R in X. discriminate. }
      destruct (shared_run cast rnd user hs ids A len Hwf Hargs Hex o1 s1 is O1 P1 I1) as [(ex & Ea & D)|(e & Ea & i & h & e' & I & E & R)].
      2:{ destruct (Hrow i h I E) as (rows & R'). congruence. }
      rewrite Ea. cbn [bind].
      assert (Each : forall i h, In i ids -> nth_error hs i = Some h -> forall c, exists d, read_dest h ex = Ok d /\
         postfill (hist_layout h) len d (pre hs i c) = own_fill i c).
      { intros i h I E c. specialize (D i h I E). destruct (Hrow i h I E) as (rows & R). rewrite R in D. destruct D as (D & Lr). eexists. split; [exact D|].
        assert (Own := own_rows i h c Oc E (Hwf _ _ I E) (Hnb _ _ I E) (Hargs _ _ I E)). rewrite R in Own. rewrite Own. unfold fill_rows, pre. rewrite E, Lr. auto. }
      destruct (postfill_all_ok hs len ex ids ids (prefill_all hs ids cs)) as (cs' & Ep & L' & G); auto.
      + intros x; auto.
      + rewrite prefill_all_length. auto.
      + intros i h I E. destruct (Each i h I E CNone) as (d & Ed & _). eauto.
      + intros i c I Ec. destruct (nth_error hs i) as [h|] eqn:E; auto.
        assert (exists c0, nth_error cs i = Some c0) as (c0 & Ec0).
        { destruct (nth_error cs i) eqn:X; eauto. apply nth_error_None in X. specialize (Hv i I). lia. }
        rewrite (prefill_all_nth hs ids cs i c0 Ec0) in Ec. rewrite (proj2 (existsb_in i ids) I) in Ec. inversion Ec; subst c.
        destruct (Each i h I E c0) as (d & Ed & Epf). rewrite Ed, Epf. eapply Hok; eauto.
      + rewrite Ep. exists B', cs'. split; auto. split; [|split; auto]. apply all_as_changes. split; [rewrite L', prefill_all_length; auto|].
        intros i c Ec. rewrite (G i _ (prefill_all_nth hs ids cs i c Ec)). destruct (existsb (Nat.eqb i) ids) eqn:X; auto. apply existsb_in in X.
        destruct (F i X) as (h & E & _). rewrite E. destruct (Each i h X E c) as (d & Ed & Epf). rewrite Ed, Epf. auto.
    Qed.

    (** It fails exactly if one of them would have failed; then the first few have been filled, one
        is as its own fill would have left it, and the others are as they were (with their arrays
        allocated). *)
    Theorem C48_book_fill_fails_if_one_fails srcs ids B b cs :
      book_hists limit B b = Ok ids -> fillable hs ids A len -> up_to_date hs limit B b ->
      is_order order -> Permutation srcs (sources (goals_of hs ids)) -> own_choices -> length cs = length hs ->
      (exists i c, In i ids /\ nth_error cs i = Some c /\ snd (own_fill i c) <> None) ->
      exists B' cs' e done stop rest, book_fill cast rnd user order limit srcs hs A B b cs = (B', cs', Some e) /\
        ids = done ++ stop ++ rest /\ length stop <= 1 /\ same_entries B B' /\ up_to_date hs limit B' b /\
        changes_as ids (fun i c => if existsb (Nat.eqb i) (done ++ stop) then fst (own_fill i c) else pre hs i c) cs cs' /\
        (forall i c, In i done -> nth_error cs i = Some c -> snd (own_fill i c) = None) /\
        (forall i c, In i stop -> nth_error cs i = Some c -> snd (own_fill i c) <> None).
    Proof.
      intros Hi F U Ho P Oc Lc (x & cx & Ix & Ex & Bx). destruct (book_fields_ok ids srcs B b U Hi F Ho P) as (B' & is & Ef & Sm & U' & o1 & s1 & O1 & P1 & I1).
      unfold book_fill. rewrite Hi, Ef. cbn [bind fst snd]. destruct F as (Nd & Ne & F).
      assert (Hwf : forall i h, In i ids -> nth_error hs i = Some h -> hist_wf h) by (intros i h I E; destruct (F i I) as (h' & E' & W & _); rewrite E in E'; inversion E'; subst; auto).
      assert (Hargs : forall i h, In i ids -> nth_error hs i = Some h -> args_ok h A len) by (intros i h I E; destruct (F i I) as (h' & E' & _ & _ & W); rewrite E in E'; inversion E'; subst; auto).
      assert (Hnb : forall i h, In i ids -> nth_error hs i = Some h -> no_bcast h) by (intros i h I E; destruct (F i I) as (h' & E' & _ & W & _); rewrite E in E'; inversion E'; subst; auto).
      assert (Hex : exists i h, In i ids /\ nth_error hs i = Some h) by (destruct (F x Ix) as (h & E & _); eauto).
      assert (Hv : forall i, In i ids -> i < length hs) by (intros i I; destruct (F i I) as (h & E & _); apply nth_error_Some; congruence).
      assert (Pre : all_as ids (fun i c => pre hs i c) cs (prefill_all hs ids cs)).
      { split; [apply prefill_all_length|]. intros i c E. apply prefill_all_nth. auto. }
      destruct (shared_run cast rnd user hs ids A len Hwf Hargs Hex o1 s1 is O1 P1 I1) as [(ex & Ea & D)|(e & Ea & i & h & e' & I & E & R)].
      2:{ rewrite Ea. cbn [bind]. exists B', (prefill_all hs ids cs), e, [], [], ids. split; auto. split; auto. split; [cbn; auto|]. split; auto. split; auto. split; [apply all_as_changes; auto|].
          split; intros j c []. }
      rewrite Ea. cbn [bind].
      assert (Each : forall i h, In i ids -> nth_error hs i = Some h -> forall c,
         let r := match read_dest h ex with Ok d => postfill (hist_layout h) len d (pre hs i c) | Err e => (pre hs i c, Some e) end in
         fst r = fst (own_fill i c) /\ (snd r = None <-> snd (own_fill i c) = None)).
      { intros i h I E c. specialize (D i h I E). assert (Own := own_rows i h c Oc E (Hwf _ _ I E) (Hnb _ _ I E) (Hargs _ _ I E)).
        destruct (rows_of cast rnd user h A len) as [rows|e0].
        - destruct D as (D & Lr). rewrite D, Own. unfold fill_rows, pre. rewrite E, Lr. tauto.
        - destruct D as (e1 & D). destruct Own as (e2 & Own). rewrite D, Own. unfold pre. rewrite E. cbn. split; auto. split; discriminate. }
      assert (Cpre : forall i c, nth_error (prefill_all hs ids cs) i = Some c -> In i ids -> exists c0, nth_error cs i = Some c0 /\ c = pre hs i c0).
      { intros i c Ec I. assert (exists c0, nth_error cs i = Some c0) as (c0 & Ec0).
        { destruct (nth_error cs i) eqn:X; eauto. apply nth_error_None in X. specialize (Hv i I). lia. }
        rewrite (prefill_all_nth hs ids cs i c0 Ec0), (proj2 (existsb_in i ids) I) in Ec. inversion Ec. eauto. }
      destruct (postfill_all_err hs len ex ids ids (prefill_all hs ids cs)) as (cs' & e & done & k & rest & Ep & -> & Dn & Bk & L' & G); auto.
      + intros y; auto.
      + rewrite prefill_all_length. auto.
      + exists x, (pre hs x cx). split; auto. split; [rewrite (prefill_all_nth hs ids cs x cx Ex), (proj2 (existsb_in x ids) Ix); auto|].
        destruct (F x Ix) as (h & E & _). rewrite E. intros C. apply Bx. apply (Each x h Ix E cx). auto.
      + rewrite Ep. exists B', cs', e, done, [k], rest. split; auto. split; auto. split; auto. split; auto. split; auto. split.
        * apply all_as_changes. split; [rewrite L', prefill_all_length; auto|]. intros i c Ec. rewrite (G i _ (prefill_all_nth hs _ cs i c Ec)).
          destruct (existsb (Nat.eqb i) (done ++ [k])) eqn:X; auto. assert (I : In i (done ++ k :: rest)).
          { apply existsb_in in X. apply in_app_iff in X. apply in_or_app. destruct X as [X|[X|[]]]; auto. right. left. auto. }
          rewrite (proj2 (existsb_in i _) I). destruct (F i I) as (h & E & _). rewrite E. f_equal. apply (Each i h I E c).
        * split; [|intros i c [<-|[]] Ec C; assert (I' : In k (done ++ k :: rest)) by (apply in_or_app; right; left; auto); destruct (F k I') as (h & E & _);
            apply (Bk (pre hs k c)); [rewrite (prefill_all_nth hs _ cs k c Ec), (proj2 (existsb_in k _) I'); auto|rewrite E; apply (Each k h I' E c); auto]].
          intros i c I Ec. assert (I' : In i (done ++ k :: rest)) by (apply in_or_app; auto). destruct (F i I') as (h & E & _).
          apply (Each i h I' E c). assert (X := Dn i (pre hs i c) I). rewrite E in X. apply X.
          rewrite (prefill_all_nth hs _ cs i c Ec), (proj2 (existsb_in i _) I'). auto.
    Qed.
  End Fill.

  (** The instructions stay up to date over any history of assignments to, deletions from and fills of
      the book itself. *)
  Lemma cache_after_set n B b name v B' e : set_n n B b name v = (B', e) ->
    (e = None -> exists o, nth_error B' b = Some o /\ b_cache o = None).
  Proof.
    assert (M : forall C, b < length C -> exists o, nth_error (mark C b) b = Some o /\ b_cache o = None).
    { intros C L. unfold mark. destruct (nth_error C b) as [o|] eqn:E; [|apply nth_error_None in E; lia]. eexists. rewrite nth_put, Nat.eqb_refl.
      apply Nat.ltb_lt in L. rewrite L. split; reflexivity. }
    assert (Ln : forall n B c name v B' e, set_n n B c name v = (B', e) -> length B <= length B').
    { clear. induction n as [|n IH]; intros B c name v B' e; cbn [set_n]; destruct (nth_error B c) as [o|]; try (intros H; inversion H; auto; fail);
        destruct (cut_slash name) as [(k, rest)|]; try (intros H; inversion H; subst; rewrite ?mark_length, ?put_length; auto; fail).
      destruct (dget k (b_content o)) as [[h|c']|].
      - intros H. inversion H. auto.
      - destruct (set_n n B c' rest v) as [B2 [e2|]] eqn:S; intros H; inversion H; subst; rewrite ?mark_length; eapply IH; eauto.
      - cbn [new_book]. destruct (set_n n _ (length B) rest v) as [B2 [e2|]] eqn:S; intros H; inversion H; subst; apply IH in S; rewrite put_length, app_length in S; rewrite ?mark_length; lia. }
    intros S Ee. subst e. destruct n as [|n]; cbn [set_n] in S; destruct (nth_error B b) as [o|] eqn:Eo; try discriminate S;
      assert (Lb : b < length B) by (apply nth_error_Some; congruence); destruct (cut_slash name) as [(k, rest)|]; try discriminate S;
      try (inversion S; apply M; rewrite put_length; auto; fail).
    destruct (dget k (b_content o)) as [[h|c']|].
    - discriminate.
    - destruct (set_n n B c' rest v) as [B2 [e2|]] eqn:S2; inversion S. apply M. apply Ln in S2. lia.
    - cbn [new_book] in S. destruct (set_n n _ (length B) rest v) as [B2 [e2|]] eqn:S2; inversion S. apply M. apply Ln in S2. rewrite put_length, app_length in S2. lia.
  Qed.
  Lemma cache_after_del n B b name B' e : del_n n B b name = (B', e) ->
    (e = None -> exists o, nth_error B' b = Some o /\ b_cache o = None) /\ (e <> None -> nth_error B' b = nth_error B b /\ same_entries B B').
  Proof.
    assert (M : forall C, b < length C -> exists o, nth_error (mark C b) b = Some o /\ b_cache o = None).
    { intros C L. unfold mark. destruct (nth_error C b) as [o|] eqn:E; [|apply nth_error_None in E; lia]. eexists. rewrite nth_put, Nat.eqb_refl.
      apply Nat.ltb_lt in L. rewrite L. split; reflexivity. }
    assert (Ln : forall n B c name B' e, del_n n B c name = (B', e) -> length B' = length B /\ (e <> None -> B' = B)).
    { clear. induction n as [|n IH]; intros B c name B' e; cbn [del_n]; destruct (nth_error B c) as [o|]; try (intros H; inversion H; split; auto; congruence);
        destruct (dget name (b_content o)); try (intros H; inversion H; subst; rewrite ?mark_length, ?put_length; split; auto; congruence);
        destruct (cut_slash name) as [(k, rest)|]; try (intros H; inversion H; split; auto; congruence);
        destruct (dget k (b_content o)) as [[h|c']|]; try (intros H; inversion H; split; auto; congruence).
      destruct (del_n n B c' rest) as [B2 [e2|]] eqn:S; intros H; inversion H; subst; rewrite ?mark_length; destruct (IH _ _ _ _ _ S) as (L1 & L2); split; auto; try congruence. }
    intros S. split.
    - intros Ee. subst e. destruct n as [|n]; cbn [del_n] in S; destruct (nth_error B b) as [o|] eqn:Eo; try discriminate S;
        assert (Lb : b < length B) by (apply nth_error_Some; congruence); destruct (dget name (b_content o)); try (inversion S; apply M; rewrite put_length; auto; fail);
        destruct (cut_slash name) as [(k, rest)|]; try discriminate S; destruct (dget k (b_content o)) as [[h|c']|]; try discriminate S.
      destruct (del_n n B c' rest) as [B2 [e2|]] eqn:S2; inversion S. apply M. apply Ln in S2. lia.
    - intros Ne. destruct (Ln _ _ _ _ _ _ S) as (_ & L2). rewrite (L2 Ne). split; auto. intros j. auto.
  Qed.
  Theorem C48_changes_keep_up_to_date hs B b :
    built B -> up_to_date hs limit B b ->
    (forall name v, exists_in B v -> up_to_date hs limit (fst (setitem B b name v)) b) /\
    (forall lim name, up_to_date hs limit (fst (delitem lim B b name)) b).
  Proof.
    intros HB U. destruct (built_ok B HB) as (Hv & K).
    assert (N : forall B', (exists o, nth_error B' b = Some o /\ b_cache o = None) -> up_to_date hs limit B' b).
    { intros B' (o & E & C). exists o. split; auto. rewrite C. auto. }
    assert (Lb : b < length B) by (destruct U as (o & E & _); apply nth_error_Some; congruence).
    assert (S1 : forall B B', nth_error B' b = nth_error B b -> same_entries B B' -> up_to_date hs limit B b -> up_to_date hs limit B' b).
    { intros B1 B2 E Sm (o & Eo & C). exists o. rewrite E. split; auto. destruct (b_cache o) as [(is, stored)|]; auto. destruct C as (ids & o1 & s1 & Hi & R).
      exists ids, o1, s1. rewrite (same_entries_hists limit B1); auto. }
    split.
    - intros name v Ev. destruct (setitem B b name v) as [B' e] eqn:S. cbn [fst]. unfold setitem in S.
      destruct (set_n_placed _ B b name v B' e Hv Lb (le_n _) S) as [(-> & _)|(_ & -> & _)]; auto. apply N. eapply cache_after_set; eauto.
    - intros lim name. assert (D : forall n C, up_to_date hs limit C b -> up_to_date hs limit (fst (del_ C b n)) b).
      { intros n C UC. destruct (del_ C b n) as [B' e] eqn:S. cbn [fst]. unfold del_ in S. destruct (cache_after_del _ _ _ _ _ _ S) as (H1 & H2). destruct e as [e|].
        - destruct H2; [discriminate|]. eapply S1; eauto.
        - apply N; auto. }
      unfold delitem. destruct (wild name); [|apply D; auto]. destruct (keys lim true false B b) as [names|]; auto. clear - D U. revert B U.
      induction names as [|n names IH]; intros B U; cbn [del_all]; auto. specialize (D n B U). destruct (del_ B b n) as [B1 [e|]]; cbn [fst] in D; auto.
  Qed.
  (** So does every fill, of any arrays, whether it succeeds or fails at any point: a fill that failed
      leaves nothing behind that a later fill would use. *)
  Theorem C48_every_fill_keeps_up_to_date srcs hs A B b cs :
    up_to_date hs limit B b -> is_order order -> (forall ids, book_hists limit B b = Ok ids -> Permutation srcs (sources (goals_of hs ids))) ->
    let B' := fst (fst (book_fill cast rnd user order limit srcs hs A B b cs)) in same_entries B B' /\ up_to_date hs limit B' b.
  Proof.
    intros U Ho P. assert (G : forall B1 r, book_fields order limit srcs hs B b = (B1, r) -> same_entries B B1 /\ up_to_date hs limit B1 b).
    { intros B1 r E. assert (Sm0 : same_entries B B) by (intros j; reflexivity). destruct U as (o & Eo & U). unfold book_fields in E. rewrite Eo in E. destruct (b_cache o) as [c|] eqn:Ec.
      - inversion E; subst. split; auto. exists o. rewrite Ec. auto.
      - assert (U0 : up_to_date hs limit B b) by (exists o; rewrite Ec; auto). destruct (book_hists limit B b) as [ids|] eqn:Hi; cbn [bind] in E; [|inversion E; subst; auto].
        destruct (book_goals hs ids) as [goals|] eqn:Eg; cbn [bind] in E; [|inversion E; subst; auto].
        assert (goals = goals_of hs ids) by (unfold book_goals in Eg; destruct ids; [discriminate|inversion Eg; reflexivity]). subst goals.
        destruct (instructions order srcs (goals_of hs ids)) as [is|] eqn:Ei; cbn [bind] in E; [|inversion E; subst; auto].
        destruct (fields srcs) as [f|]; cbn [bind] in E; [|inversion E; subst; auto]. inversion E; subst.
        assert (Sm := put_same B b o (Some (is, ids)) Eo). split; auto.
        eexists. split; [rewrite nth_put, Nat.eqb_refl; assert (L : b < length B) by (apply nth_error_Some; congruence); apply Nat.ltb_lt in L; rewrite L; reflexivity|].
        cbn [b_cache]. exists ids, order, srcs. rewrite (same_entries_hists limit B); auto. split; auto. }
    cbn zeta. unfold book_fill. destruct (book_hists limit B b) as [ids|]; [|cbn; split; auto; intros j; reflexivity].
    destruct (book_fields order limit srcs hs B b) as [B1 r] eqn:E. specialize (G B1 r eq_refl).
    destruct (do c <- r; do f <- fill_arrays cast rnd user A (fst c); Ok (snd c, f)) as [[stored [len out]]|]; [|exact G].
    destruct (postfill_all hs len out stored ids (prefill_all hs ids cs)) as [cs1 e]. exact G.
  Qed.
End Props.
Print Assumptions C48_every_fill_keeps_up_to_date.
Print Assumptions C48_book_fill_is_each_fill.
Print Assumptions C48_book_fill_fails_if_one_fails.
Print Assumptions C48_changes_keep_up_to_date.

(** ** A concrete case: the weighted histogram of Props_Hist.v and bin("x", 4, 0, 8), in a book and in
    a book within it, filled twice with a histogram added in between. *)
Definition exq : hist := {|
  h_group := []; h_fixed := [(ABin "x" 4 (nz 0) (nz 8) true true true true, TName "x")]; h_prof := []; h_weight := None |}.
Definition exz : hist := {|
  h_group := []; h_fixed := [(ABin "y" 4 (nz 0) (nz 8) true true true true, TName "y")]; h_prof := []; h_weight := None |}.
Definition exhs : list hist := [exh; exq; exz].
Definition ido : tree -> list tree -> list tree := fun _ l => l.
Definition bfill (B : books) (cs : list content) : books * list content * option err :=
  match book_hists 100 B 0 with
  | Ok ids => book_fill cast_x86 Fin nocall ido 100 (sources (goals_of exhs ids)) exhs exA B 0 cs
  | Err e => (B, cs, Some e)
  end.
Definition ownx := own_fill cast_x86 Fin nocall exhs exA (fun _ => ido) (fun i => match nth_error exhs i with Some h => sources (hist_goals h) | None => [] end).
Definition exb : books := fst (setitem (fst (setitem (fst (new_book [])) 0 "a" (EHist 0))) 0 "s/b" (EHist 1)).

Lemma ment_q s (P : string -> Prop) : P "x" -> hist_mentions exq s -> P s.
Proof. intros Hx (t & Ht & M). in_cases Ht; inversion M; subst; auto. Qed.
Example C48_example :
  book_hists 100 exb 0 = Ok [0; 1] /\ fillable exhs [0; 1] exA 3 /\ up_to_date exhs 100 exb 0 /\ is_order ido /\
  own_choices exhs (fun _ => ido) (fun i => match nth_error exhs i with Some h => sources (hist_goals h) | None => [] end) /\
  (forall i c, In i [0; 1] -> nth_error [CNone; CNone; CNone] i = Some c -> snd (ownx i c) = None) /\
  let '(_, cs, e) := bfill exb [CNone; CNone; CNone] in
  e = None /\ map (fun c => cell (hist_layout exq) c [] [1] 0) (firstn 1 (skipn 1 cs)) = [nz 2] /\ skipn 2 cs = [CNone].
Proof.
  split; [vm_compute; reflexivity|]. split; [|split; [|split; [|split; [|split]]]].
  - split; [repeat constructor; cbn; lia|]. split; [discriminate|]. intros i [<-|[<-|[]]].
    + exists exh. split; [reflexivity|]. split; [exact exh_wf|]. split; [exact exh_no_bcast|exact exA_ok].
    + exists exq. split; [reflexivity|]. split; [|split].
      * split; [intros p []|]. split; [intros p H; in_cases H; split; [reflexivity|discriminate]|]. intros t H. in_cases H; split; plain_tac.
      * intros t c H X. in_cases H; sub_tac.
      * split; [|left; exists "x"; split; [exists (TName "x"); split; [left; reflexivity|constructor]|eexists; reflexivity]].
        intros s. apply (ment_q s (fun s => available exA s /\ right_length exA 3 s)). split; [left; discriminate|intros l E; inversion E; reflexivity].
  - eexists. split; [reflexivity|]. vm_compute. exact I.
  - intros t l. apply Permutation_refl.
  - intros i h E. rewrite E. split; [intros t l|]; apply Permutation_refl.
  - intros i c [<-|[<-|[]]] E; inversion E; subst c; vm_compute; reflexivity.
  - vm_compute. repeat split.
Qed.

(** Outside the hypotheses.  Changing an inner book directly (book["s"]["c"] = h) leaves the outer
    book's instructions as they were: its next fill counts every row in every bin of the new
    histogram, without an error. *)
Theorem C48_inner_change_refuted :
  let '(B1, cs1, e1) := bfill exb [CNone; CNone; CNone] in
  let B2 := fst (setitem B1 1 "c" (EHist 2)) in
  let '(_, cs2, e2) := bfill B2 cs1 in
  e1 = None /\ e2 = None /\ ~ up_to_date exhs 100 B2 0 /\
  exists c own, nth_error cs2 2 = Some c /\ ownx 2 CNone = (own, None) /\
    map (fun i => cell (hist_layout exz) c [] [i] 0) [0; 1; 2] = [nz 3; nz 3; nz 3] /\
    map (fun i => cell (hist_layout exz) own [] [i] 0) [0; 1; 2] = [nz 0; nz 1; nz 0].
Proof.
  destruct (bfill exb [CNone; CNone; CNone]) as [[B1 cs1] e1] eqn:E1. vm_compute in E1. injection E1 as <- <- <-.
  cbn zeta. match goal with |- context [setitem ?B ?b ?n ?v] => set (B2 := fst (setitem B b n v)) end. vm_compute in B2.
  destruct (bfill B2 _) as [[B3 cs2] e2] eqn:E2. vm_compute in E2. injection E2 as <- <- <-. subst B2.
  split; [reflexivity|]. split; [reflexivity|]. split.
  - intros (o & E & H). cbn in E. injection E as <-. cbn [b_cache] in H. destruct H as (ids & _ & _ & Hi & Es & _). vm_compute in Hi. injection Hi as <-. discriminate Es.
  - eexists. eexists. split; [reflexivity|]. split; [vm_compute; reflexivity|]. split; vm_compute; repeat (f_equal; [apply f_equal, Qc_is_canon; reflexivity|]); reflexivity.
Qed.
Print Assumptions C48_inner_change_refuted.
(** The same histogram under two names: after the fill all rows are also in every bin. *)
Theorem C48_same_histogram_twice_refuted :
  let B := fst (setitem (fst (setitem (fst (new_book [])) 0 "a" (EHist 1))) 0 "b" (EHist 1)) in
  let '(_, cs, e) := bfill B [CNone; CNone; CNone] in
  book_hists 100 B 0 = Ok [1; 1] /\ up_to_date exhs 100 B 0 /\ e = None /\
  exists c own, nth_error cs 1 = Some c /\ ownx 1 CNone = (own, None) /\
    map (fun i => cell (hist_layout exq) c [] [i] 0) [0; 1; 2; 3] = [nz 3; nz 5; nz 4; nz 3] /\
    map (fun i => cell (hist_layout exq) own [] [i] 0) [0; 1; 2; 3] = [nz 0; nz 2; nz 1; nz 0].
Proof.
  cbn zeta. match goal with |- context [bfill ?B _] => set (B0 := B) end. vm_compute in B0.
  destruct (bfill B0 _) as [[B1 cs1] e1] eqn:E1. vm_compute in E1. injection E1 as <- <- <-. subst B0.
  split; [vm_compute; reflexivity|]. split; [eexists; split; [reflexivity|exact I]|]. split; [reflexivity|].
  eexists. eexists. split; [reflexivity|]. split; [vm_compute; reflexivity|]. split; vm_compute; repeat (f_equal; [apply f_equal, Qc_is_canon; reflexivity|]); reflexivity.
Qed.
Print Assumptions C48_same_histogram_twice_refuted.
(** A book without histograms cannot be filled. *)
Theorem C48_empty_book_refuted cast rnd user order limit srcs hs A cs : 0 < limit ->
  let B := fst (new_book []) in
  book_hists limit B 0 = Ok [] /\ snd (book_fill cast rnd user order limit srcs hs A B 0 cs) = Some TypeError.
Proof. intros L. destruct limit; [lia|]. split; reflexivity. Qed.
Print Assumptions C48_empty_book_refuted.
(** A histogram of numbers only counts once by its own fill, and once for each row of the other
    arrays in a book. *)
Theorem C48_number_only_refuted :
  let B := fst (setitem (fst (setitem (fst (new_book [])) 0 "a" (EHist 1))) 0 "b" (EHist 2)) in
  let '(_, cs, e) := bfill B [CNone; CNone; CNone] in
  e = None /\ exists c own, nth_error cs 2 = Some c /\ ownx 2 CNone = (own, None) /\
    cell (hist_layout exz) c [] [1] 0 = nz 3 /\ cell (hist_layout exz) own [] [1] 0 = nz 1.
Proof.
  cbn zeta. match goal with |- context [bfill ?B _] => set (B0 := B) end. vm_compute in B0.
  destruct (bfill B0 _) as [[B1 cs1] e1] eqn:E1. vm_compute in E1. injection E1 as <- <- <-. subst B0.
  split; [reflexivity|]. eexists. eexists. split; [reflexivity|]. split; [vm_compute; reflexivity|]. split; vm_compute; apply f_equal, Qc_is_canon; reflexivity.
Qed.
Print Assumptions C48_number_only_refuted.
