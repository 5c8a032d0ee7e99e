(** Filling a book: the shared computation serves every histogram like its own. *)
From Coq Require Import String Permutation.
From Verif Require Import Num NumFacts Base Tree Instr InstrSpec InstrProofs Axis Calc Content Fill FillSpec Elem HistFill HistSpec HistFillProofs HistFillMain HistFillMain2 HistFillMain3 HistFillMain4 Book BookSpec BookProofs BookPaths BookIter BookFill.
Local Open Scope list_scope.

Lemma setc_length cs : forall i c, length (setc cs i c) = length cs.
Proof. induction cs as [|d cs IH]; intros [|i] c; cbn [setc length]; auto. Qed.
Lemma nth_setc cs : forall i c j, nth_error (setc cs i c) j = if Nat.eqb i j then match nth_error cs i with Some _ => Some c | None => None end else nth_error cs j.
Proof.
  induction cs as [|d cs IH]; intros [|i] c [|j]; cbn [setc nth_error Nat.eqb]; auto. destruct (Nat.eqb i j); auto.
Qed.
Lemma existsb_in i l : existsb (Nat.eqb i) l = true <-> In i l.
Proof.
  rewrite existsb_exists. split.
  - intros (x & I & E). apply Nat.eqb_eq in E. subst. auto.
  - intros I. exists i. split; auto. apply Nat.eqb_refl.
Qed.

(** ** What the shared computation gives each histogram *)
Lemma dest_find_filter (P : tree -> bool) g ex : P g = true ->
  dest_find g (filter (fun p => P (fst p)) ex) = dest_find g ex.
Proof.
  intros Pg. induction ex as [|(u, v) ex IH]; auto. cbn [filter fst dest_find]. destruct (P u) eqn:Pu; cbn [dest_find].
  - rewrite IH. auto.
  - destruct (tree_eq_dec g u) as [->|]; [congruence|auto].
Qed.
Lemma read_dest_ext h ex ex' : (forall g, In g (hist_goals h) -> dest_find g ex = dest_find g ex') -> read_dest h ex = read_dest h ex'.
Proof.
  intros H. unfold read_dest.
  rewrite (mapM_ext _ (fun p => match dest_find (axis_goal p) ex' with Some (VGrp u inv) => Ok (u, inv) | _ => Err TypeError end) (h_group h)).
  2:{ intros p I. rewrite H; auto. unfold hist_goals. rewrite in_app_iff. left. apply in_map. auto. }
  rewrite (mapM_ext _ (fun p => match dest_find (axis_goal p) ex' with Some (VIdx c) => Ok (Some c) | None => Ok None | _ => Err TypeError end) (h_fixed h)).
  2:{ intros p I. rewrite H; auto. unfold hist_goals. rewrite !in_app_iff. right; left. apply in_map. auto. }
  rewrite (mapM_ext _ (fun t => do x <- as_nums (dest_find t ex'); do x2 <- as_nums (dest_find (square t) ex'); Ok (x, x2)) (h_prof h)).
  2:{ intros t I. destruct (prof_goal h t I). rewrite !H; auto. }
  destruct (h_weight h) as [[v|t]|] eqn:W; auto. destruct (weight_goal h t W). rewrite !H; auto.
Qed.

Section Shared.
  Variable cast : Num -> Z.
  Variable rnd : Qc -> Num.
  Variable user : string -> list arg -> res val.
  Variable hs : list hist.
  Variable ids : list nat.
  Variable A : arrays.
  Variable len : nat.
  Hypothesis Hwf : forall i h, In i ids -> nth_error hs i = Some h -> hist_wf h.
  Hypothesis Hargs : forall i h, In i ids -> nth_error hs i = Some h -> args_ok h A len.
  Hypothesis Hids : exists i h, In i ids /\ nth_error hs i = Some h.
  Notation ev := (teval V VCst (lib cast rnd user) (param A len)).

  Definition goals : list tree := flat_map (fun i => match nth_error hs i with Some h => hist_goals h | None => [] end) ids.
  Lemma in_goals g : In g goals <-> exists i h, In i ids /\ nth_error hs i = Some h /\ In g (hist_goals h).
  Proof.
    unfold goals. rewrite in_flat_map. split.
    - intros (i & I & G). destruct (nth_error hs i) as [h|] eqn:E; [|destruct G]. eauto.
    - intros (i & h & I & E & G). exists i. rewrite E. auto.
  Qed.

  Lemma one_hist ex i h : In i ids -> nth_error hs i = Some h -> NoDup (map fst ex) ->
    (forall g v, In (g, v) ex <-> In g goals /\ data_driven g /\ ev g = Ok v) ->
    (forall g y, In g goals -> subtree y g -> data_driven y -> exists v, ev y = Ok v) ->
    match rows_of cast rnd user h A len with
    | Ok rows => read_dest h ex = Ok (dest_of (hist_layout h) (length (h_group h)) (hist_mode h) rows) /\ length rows = len
    | Err _ => exists e, read_dest h ex = Err e
    end.
  Proof.
    intros Ii Eh Nd Hex Hall. set (mine := fun g => if in_dec tree_eq_dec g (hist_goals h) then true else false).
    set (ex' := filter (fun p : tree * V => mine (fst p)) ex).
    assert (Rd : read_dest h ex = read_dest h ex').
    { apply read_dest_ext. intros g G. symmetry. apply dest_find_filter. unfold mine. destruct (in_dec _ g _); auto. }
    rewrite Rd.
    assert (Nd' : NoDup (map fst ex')).
    { unfold ex'. clear - Nd. induction ex as [|p ex IH]; cbn; [constructor|]. inversion Nd; subst. destruct (mine (fst p)); cbn; auto.
      constructor; auto. intros I. apply H1. apply in_map_iff in I. destruct I as (q & <- & I). apply filter_In in I. apply in_map. tauto. }
    assert (Hex' : forall g v, In (g, v) ex' <-> In g (hist_goals h) /\ data_driven g /\ ev g = Ok v).
    { intros g v. unfold ex'. rewrite filter_In. cbn [fst]. rewrite Hex. unfold mine. destruct (in_dec tree_eq_dec g (hist_goals h)) as [G|G].
      - split; [tauto|]. intros (_ & D & E). split; auto. split; auto. apply in_goals. eauto.
      - split; [intros (_ & F); discriminate|tauto]. }
    assert (Hall' : forall g y, In g (hist_goals h) -> subtree y g -> data_driven y -> exists v, ev y = Ok v).
    { intros g y G. apply Hall. apply in_goals. eauto. }
    assert (Ha : forall s, hist_mentions h s -> available A s /\ right_length A len s) by (apply (Hargs i h Ii Eh)).
    assert (W := Hwf i h Ii Eh).
    destruct (numeric_or_bad cast rnd user h W A len Ha ex' Nd' Hex' Hall') as [Hn|((e & Ee) & Bad)].
    - assert (Hrows : rows_of cast rnd user h A len = Ok (map (the_row cast rnd user h A len) (seq 0 len))).
      { unfold rows_of. apply mapM_map. intros j Hj. apply in_seq in Hj.
        apply (rows_good cast rnd user h W A len Ha ex'); auto; [|lia]. intros t Ht. apply Hn; auto. }
      rewrite Hrows, (dest_good cast rnd user h W A len Ha ex' Nd' Hex' Hall' Hn). split; auto. rewrite map_length, seq_length. auto.
    - destruct (bad_rows cast rnd user h A len Bad) as (e' & ->). eauto.
  Qed.

  Lemma shared_run order srcs is : is_order order -> Permutation srcs (sources goals) -> instructions order srcs goals = Ok is ->
    (exists ex, fill_arrays cast rnd user A is = Ok (len, ex) /\
       forall i h, In i ids -> nth_error hs i = Some h ->
         match rows_of cast rnd user h A len with
         | Ok rows => read_dest h ex = Ok (dest_of (hist_layout h) (length (h_group h)) (hist_mode h) rows) /\ length rows = len
         | Err _ => exists e, read_dest h ex = Err e
         end) \/
    (exists e, fill_arrays cast rnd user A is = Err e /\
       exists i h e', In i ids /\ nth_error hs i = Some h /\ rows_of cast rnd user h A len = Err e').
  Proof.
    intros Ho Hp Ei. destruct (c18 V VCst (lib cast rnd user) (param A len) order goals srcs Ho Hp) as (is' & Ei' & R).
    rewrite Ei in Ei'. inversion Ei'; subst is'. clear Ei'. assert (Hparams := instructions_params order srcs _ is Ho Hp Ei).
    assert (Ment : forall s, (exists g, In g goals /\ mentions s g) <-> exists i h, In i ids /\ nth_error hs i = Some h /\ hist_mentions h s).
    { intros s. split.
      - intros (g & G & M). apply in_goals in G. destruct G as (i & h & I & E & G). exists i, h. split; auto. split; auto. apply goals_mention. eauto.
      - intros (i & h & I & E & M). apply goals_mention in M. destruct M as (g & G & M). exists g. split; auto. apply in_goals. eauto. }
    assert (Hs : scan_length A is = Ok len).
    { apply scan_ok.
      - intros n t s Hin Et. assert (S : exists g, In g goals /\ mentions s g).
        { apply sources_mentions. exists t. split; auto. apply Hparams. eauto. }
        apply Ment in S. destruct S as (i & h & I & E & M). apply (Hargs i h I E). auto.
      - destruct Hids as (i & h & I & E). destruct (proj2 (Hargs i h I E)) as [(s & M & Ha)|]; auto. left.
        assert (S : exists g, In g goals /\ mentions s g) by (apply Ment; eauto). apply sources_mentions in S. destruct S as (t & Ht & Et).
        apply Hparams in Ht. destruct Ht as (n & Hn). exists n, t, s. auto. }
    unfold fill_arrays. rewrite Hs. cbn [bind].
    destruct R as [(ex & R & Hnd & Hex & Hall)|(y & g & e & Hg & Hsub & Hd & Ey & R)]; rewrite R; cbn [bind snd].
    - left. exists ex. split; auto. intros i h I E. eapply one_hist; eauto.
    - right. exists e. split; auto. apply in_goals in Hg. destruct Hg as (i & h & I & E & G).
      assert (Ha : forall s, hist_mentions h s -> available A s /\ right_length A len s) by (apply (Hargs i h I E)).
      destruct (bad_rows cast rnd user h A len (goal_bad cast rnd user h (Hwf i h I E) A len Ha y g e G Hsub Hd Ey)) as (e' & Er).
      exists i, h, e'. auto.
  Qed.
End Shared.

(** ** The loops over the histograms *)
Lemma prefill_idem L n c : prefill L n (prefill L n c) = prefill L n c.
Proof. unfold prefill. destruct c; auto. destruct (Nat.eqb n 0); auto. Qed.
Definition pre (hs : list hist) (i : nat) (c : content) : content :=
  match nth_error hs i with Some h => prefill (hist_layout h) (length (h_group h)) c | None => c end.
Lemma pre_idem hs i c : pre hs i (pre hs i c) = pre hs i c.
Proof. unfold pre. destruct (nth_error hs i); auto. apply prefill_idem. Qed.
Lemma prefill_all_length hs ids : forall cs, length (prefill_all hs ids cs) = length cs.
Proof.
  induction ids as [|i ids IH]; intros cs; cbn [prefill_all]; auto. rewrite IH.
  destruct (nth_error hs i); auto. destruct (nth_error cs i); auto. apply setc_length.
Qed.
Lemma prefill_all_nth hs ids : forall cs j c, nth_error cs j = Some c ->
  nth_error (prefill_all hs ids cs) j = Some (if existsb (Nat.eqb j) ids then pre hs j c else c).
Proof.
  induction ids as [|i ids IH]; intros cs j c E; cbn [prefill_all existsb]; auto.
  assert (E' : nth_error (match nth_error hs i, nth_error cs i with
      | Some h, Some c => setc cs i (prefill (hist_layout h) (length (h_group h)) c) | _, _ => cs end) j = Some (if Nat.eqb j i then pre hs j c else c)).
  { destruct (Nat.eqb_spec j i) as [->|N].
    - rewrite E. unfold pre. destruct (nth_error hs i); auto. rewrite nth_setc, Nat.eqb_refl, E. auto.
    - destruct (nth_error hs i); auto. destruct (nth_error cs i); auto. rewrite nth_setc. destruct (Nat.eqb_spec i j); [congruence|auto]. }
  rewrite (IH _ _ _ E'). f_equal. destruct (Nat.eqb j i); cbn [orb]; [|auto]. destruct (existsb (Nat.eqb j) ids); auto. apply pre_idem.
Qed.

(** [each i c]: what histogram [i] with content [c] becomes. *)
Definition all_as (ids : list nat) (each : nat -> content -> content) (cs cs' : list content) : Prop :=
  length cs' = length cs /\
  forall i c, nth_error cs i = Some c -> nth_error cs' i = Some (if existsb (Nat.eqb i) ids then each i c else c).
Lemma postfill_all_ok hs len out : forall ids stored cs,
  NoDup ids -> incl ids stored -> length cs = length hs ->
  (forall i, In i ids -> i < length hs) ->
  (forall i h, In i ids -> nth_error hs i = Some h -> exists d, read_dest h out = Ok d) ->
  let each i c := match nth_error hs i with
                  | Some h => match read_dest h out with Ok d => postfill (hist_layout h) len d c | Err e => (c, Some e) end
                  | None => (c, None) end in
  (forall i c, In i ids -> nth_error cs i = Some c -> snd (each i c) = None) ->
  exists cs', postfill_all hs len out stored ids cs = (cs', None) /\ all_as ids (fun i c => fst (each i c)) cs cs'.
Proof.
  induction ids as [|i ids IH]; intros stored cs Nd Hi Lc Hv Hd each He; cbn [postfill_all].
  - exists cs. split; auto. split; auto.
  - inversion Nd; subst. assert (Li : i < length hs) by (apply Hv; left; auto).
    destruct (nth_error hs i) as [h|] eqn:Eh; [|apply nth_error_None in Eh; lia].
    destruct (nth_error cs i) as [c|] eqn:Ec; [|apply nth_error_None in Ec; lia].
    assert (existsb (Nat.eqb i) stored = true) as -> by (apply existsb_in, Hi; left; auto).
    destruct (Hd i h) as (d & Ed); [left; auto|auto|]. rewrite Ed.
    assert (S := He i c (or_introl eq_refl) Ec). unfold each in S. rewrite Eh, Ed in S.
    destruct (postfill (hist_layout h) len d c) as [c1 e] eqn:Ep. cbn [snd] in S. subst e.
    destruct (IH (filter (fun j => negb (Nat.eqb i j)) stored) (setc cs i c1)) as (cs' & E' & L' & G); auto.
    + intros j I. apply filter_In. split; [apply Hi; right; auto|]. destruct (Nat.eqb_spec i j); auto. subst. tauto.
    + rewrite setc_length. auto.
    + intros j I. apply Hv. right. auto.
    + intros j h' I. apply Hd. right. auto.
    + intros j c' I. rewrite nth_setc. destruct (Nat.eqb_spec i j); [subst; tauto|]. apply He. right. auto.
    + exists cs'. split; auto. split; [rewrite L'; apply setc_length|]. intros j c' Ej. cbn [existsb].
      destruct (Nat.eqb_spec j i) as [->|N]; cbn [orb].
      * rewrite (G i c1); [|rewrite nth_setc, Nat.eqb_refl, Ec; auto]. destruct (existsb (Nat.eqb i) ids) eqn:X; [apply existsb_in in X; tauto|].
        unfold each. rewrite Eh, Ed. rewrite Ec in Ej. inversion Ej; subst c'. rewrite Ep. auto.
      * rewrite (G j c'); auto. rewrite nth_setc. destruct (Nat.eqb_spec i j); [congruence|auto].
Qed.
(** If it fails: some histograms, then the failing one, then the others. *)
Lemma postfill_all_err hs len out : forall ids stored cs,
  NoDup ids -> incl ids stored -> length cs = length hs ->
  (forall i, In i ids -> i < length hs) ->
  let each i c := match nth_error hs i with
                  | Some h => match read_dest h out with Ok d => postfill (hist_layout h) len d c | Err e => (c, Some e) end
                  | None => (c, None) end in
  (exists i c, In i ids /\ nth_error cs i = Some c /\ snd (each i c) <> None) ->
  exists cs' e done i rest, postfill_all hs len out stored ids cs = (cs', Some e) /\ ids = done ++ i :: rest /\
    (forall j c, In j done -> nth_error cs j = Some c -> snd (each j c) = None) /\
    (forall c, nth_error cs i = Some c -> snd (each i c) <> None) /\
    all_as (done ++ [i]) (fun i c => fst (each i c)) cs cs'.
Proof.
  induction ids as [|i ids IH]; intros stored cs Nd Hi Lc Hv each (x & cx & Ix & Ex & Bx); [destruct Ix|]. cbn [postfill_all].
  inversion Nd; subst. assert (Li : i < length hs) by (apply Hv; left; auto).
  destruct (nth_error hs i) as [h|] eqn:Eh; [|apply nth_error_None in Eh; lia].
  destruct (nth_error cs i) as [c|] eqn:Ec; [|apply nth_error_None in Ec; lia].
  assert (existsb (Nat.eqb i) stored = true) as -> by (apply existsb_in, Hi; left; auto).
  assert (Ei : each i c = match read_dest h out with Ok d => postfill (hist_layout h) len d c | Err e => (c, Some e) end) by (unfold each; rewrite Eh; auto).
  destruct (read_dest h out) as [d|e].
  2:{ exists cs, e, [], i, ids. split; auto. split; auto. split; [intros j c0 []|]. split; [intros c0 E0; rewrite Ec in E0; inversion E0; subst c0; rewrite Ei; discriminate|].
      split; auto. intros j c0 E0. cbn [app existsb]. destruct (Nat.eqb_spec j i) as [->|]; auto. rewrite Ec in E0. inversion E0; subst c0. cbn [orb]. rewrite Ei. auto. }
  destruct (postfill (hist_layout h) len d c) as [c1 [e|]] eqn:Ep.
  { exists (setc cs i c1), e, [], i, ids. split; auto. split; auto. split; [intros j c0 []|].
    split; [intros c0 E0; rewrite Ec in E0; inversion E0; subst c0; rewrite Ei; discriminate|].
    split; [apply setc_length|]. intros j c0 E0. cbn [app existsb]. rewrite nth_setc. rewrite (Nat.eqb_sym i j). destruct (Nat.eqb_spec j i) as [->|]; auto.
    rewrite Ec in *. inversion E0; subst c0. cbn [orb]. rewrite Ei. auto. }
  destruct (IH (filter (fun j => negb (Nat.eqb i j)) stored) (setc cs i c1)) as (cs' & e & done & k & rest & E' & -> & Dn & Bk & L' & G); auto.
  - intros j I. apply filter_In. split; [apply Hi; right; auto|]. destruct (Nat.eqb_spec i j); auto. subst. tauto.
  - rewrite setc_length. auto.
  - intros j I. apply Hv. right. auto.
  - destruct Ix as [<-|Ix]; [exfalso; apply Bx; rewrite Ec in Ex; inversion Ex; subst cx; rewrite Ei; auto|].
    exists x, cx. split; auto. split; auto. rewrite nth_setc. destruct (Nat.eqb_spec i x); [subst; tauto|auto].
  - assert (Ni : forall j, In j (done ++ k :: rest) -> i <> j) by (intros j I ->; tauto).
    exists cs', e, (i :: done), k, rest. split; auto. split; auto. split; [|split].
    + intros j c0 [<-|I] E0; [rewrite Ec in E0; inversion E0; subst c0; rewrite Ei; auto|]. apply Dn; auto.
      rewrite nth_setc. destruct (Nat.eqb_spec i j) as [->|]; auto. exfalso. apply (Ni j); auto. apply in_or_app. auto.
    + intros c0 E0. apply Bk. rewrite nth_setc. destruct (Nat.eqb_spec i k) as [->|]; auto. exfalso. apply (Ni k); auto. apply in_or_app. right. left. auto.
    + split; [rewrite L'; apply setc_length|]. intros j c0 E0. cbn [app existsb]. destruct (Nat.eqb_spec j i) as [->|N]; cbn [orb].
      * rewrite (G i c1); [|rewrite nth_setc, Nat.eqb_refl, Ec; auto]. destruct (existsb (Nat.eqb i) (done ++ [k])) eqn:X.
        { apply existsb_in in X. exfalso. apply (Ni i); auto. apply in_app_iff in X. apply in_or_app. destruct X as [X|[X|[]]]; auto. right. left. auto. }
        rewrite Ec in E0. inversion E0; subst c0. rewrite Ei. auto.
      * rewrite (G j c0); auto. rewrite nth_setc. destruct (Nat.eqb_spec i j); [congruence|auto].
Qed.
