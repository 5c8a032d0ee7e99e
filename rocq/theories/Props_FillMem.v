(** C73: what filling does to the arrays it is given. *)
From Coq Require Import String Permutation.
From Verif Require Import Num NumFacts Base Tree Instr InstrSpec InstrProofs Axis Calc AxisMain Content Fill FillSpec Elem HistFill HistSpec Book BookSpec BookProofs BookFill BookFillSpec
  Lib FillMem FillMemSpec FillMemProofs FillMemMain FillMemFrame Props_Hist Props_BookFill.
Local Open Scope string_scope.
Local Open Scope list_scope.

Lemma goal_extra h f args a : (exists g, In g (hist_goals h) /\ subtree (TCall f (args ++ [a])) g) -> assoc f ufuncs = Some (List.length args) ->
  exists t, In t (hist_exprs h) /\ subtree (TCall f (args ++ [a])) t.
Proof.
  intros (g & G & S) E.
  assert (AX : forall p, subtree (TCall f (args ++ [a])) (axis_goal p) -> subtree (TCall f (args ++ [a])) (snd p)).
  { intros p X. unfold axis_goal in X. inversion X as [Y|g' l b I X']; subst.
    - exfalso. clear X S. destruct (fst p); try discriminate E;
        repeat match goal with b : bool |- _ => destruct b; try discriminate E end.
    - destruct I as [<-|I]; auto. apply in_map_iff in I. destruct I as (c & <- & _). inversion X'. }
  assert (SQ : forall t, subtree (TCall f (args ++ [a])) (square t) -> subtree (TCall f (args ++ [a])) t).
  { intros t X. unfold square in X. inversion X as [Y|g' l b I X'].
    - subst f. cbn in E. destruct args as [|x [|y [|z args]]]; cbn in *; try discriminate.
    - subst. destruct I as [<-|[<-|[]]]; auto. }
  unfold hist_goals in G. rewrite !in_app_iff in G. unfold hist_exprs. destruct G as [G|[G|[G|G]]].
  - apply in_map_iff in G. destruct G as (p & <- & P). exists (snd p). split; auto. rewrite !in_app_iff. left. apply in_map; auto.
  - apply in_map_iff in G. destruct G as (p & <- & P). exists (snd p). split; auto. rewrite !in_app_iff. right; left. apply in_map; auto.
  - apply in_flat_map in G. destruct G as (t & T & G). exists t. split; [rewrite !in_app_iff; auto|]. destruct G as [<-|[<-|[]]]; auto.
  - destruct (h_weight h) as [[v|t]|]; [| |destruct G].
    + destruct G as [<-|[<-|[]]]; [inversion S|]. apply SQ in S. inversion S.
    + exists t. split; [rewrite !in_app_iff; cbn; auto|]. destruct G as [<-|[<-|[]]]; auto.
Qed.

Definition computed (goals : list tree) (x : tree) : Prop := exists g, In g goals /\ subtree x g.
Lemma computed_sub goals f args a : computed goals (TCall f args) -> In a args -> computed goals a.
Proof.
  intros (g & G & S) I. exists g. split; auto. clear G. induction S as [|g' l b I' S IH]; [econstructor; eauto; constructor|econstructor; eauto].
Qed.
Lemma instructions_frame cast rnd user int32 A order srcs goals is len m : is_order order -> Permutation srcs (sources goals) ->
  instructions order srcs goals = Ok is -> kept A (List.length m) (computed goals) m (fst (run_m cast rnd user int32 A len is [] [] m)).
Proof.
  intros O P H. eapply run_frame with (names := []) (k := 0); [apply computed_sub| | | | |exact H]; auto.
  - intros x Hx. destruct (walkdown_spec order goals srcs O P) as (_ & _ & W). apply W in Hx. destruct Hx as (T & _). apply table_subtree in T. exact T.
  - intros t n [].
  - intros t n r [].
Qed.
Lemma fill_arrays_frame cast rnd user int32 A order srcs goals is m : is_order order -> Permutation srcs (sources goals) ->
  instructions order srcs goals = Ok is -> kept A (List.length m) (computed goals) m (fst (fill_arrays_m cast rnd user int32 A is m)).
Proof.
  intros O P H. unfold fill_arrays_m. destruct (scan_length _ is) as [len|e]; [|apply kept_refl].
  assert (K := instructions_frame cast rnd user int32 A order srcs goals is len m O P H).
  destruct (run_m cast rnd user int32 A len is [] [] m) as (m1, [o|e]); exact K.
Qed.
Lemma kept_below A m m1 m2 goals : kept A (List.length m) (computed goals) m m1 -> below m1 m2 -> forall l, l < List.length m -> ~ written A (computed goals) l ->
  nth_error m2 l = nth_error m l.
Proof. intros (L & K) B l H W. rewrite B by lia. auto. Qed.

(** The functions of the library that are written in Python, and the functions of the axes, never
    write into an argument, however many they are given. *)
Theorem C73_python_functions_never_write : forall f n,
  In f ["where"; "heaviside"; "erf"; "erfc"; "gamma"; "lgamma"; "factorial"; "numpy.isin"; "round"; "histbook.groupby"] -> takes_out f n = false.
Proof. intros f n H. cbn in H. unfold takes_out. repeat (destruct H as [<-|H]; [reflexivity|]). destruct H. Qed.

Section Props.
  Variable cast : Num -> Z.
  Variable rnd : Qc -> Num.
  Variable user : string -> list arg -> res val.
  Variable int32 : nat -> bool.
  Variable order : tree -> list tree -> list tree.
  Hypothesis Horder : is_order order.

  (** What a fill sees of its arguments: the scalars, and the elements of the arrays. *)
  Theorem C73_arguments_seen A m : passed A m -> stands_for A m (seen A m).
  Proof.
    intros P s. unfold seen. destruct (A s) as [[v|l]|] eqn:E; auto. destruct (P s l E) as (x & N). exists x. split; auto.
    unfold mcell. rewrite (nth_error_nth _ _ _ N). reflexivity.
  Qed.

  (** Filling leaves the given arrays, and everything else in memory, as it was, also when it fails;
      the contents (and the error) are those that follow from the elements of the arrays alone. *)
  Theorem C73_fill_only_reads_partial srcs h A c m :
    Permutation srcs (sources (hist_goals h)) -> passed A m -> hist_no_extra h ->
    let (m', r) := hist_fill_m cast rnd user int32 order srcs h A c m in
    untouched m m' /\ r = hist_fill cast rnd user order srcs h (seen A m) c.
  Proof.
    intros P Q N. assert (H := hist_fill_ok cast rnd user int32 order srcs h A c m Horder P N Q).
    destruct (hist_fill_m cast rnd user int32 order srcs h A c m) as (m', r). destruct H as (E & R). split; auto. apply ext_untouched; auto.
  Qed.

  (** Whatever the expressions, an array is only modified if an expression passes it to a function
      as an additional argument. *)
  Theorem C73_only_additional_arguments_are_written srcs h A c m l :
    Permutation srcs (sources (hist_goals h)) -> l < List.length m ->
    (forall s, A s = Some (MAr l) -> ~ extra_argument h s) ->
    nth_error (fst (hist_fill_m cast rnd user int32 order srcs h A c m)) l = nth_error m l.
  Proof.
    intros P L N. unfold hist_fill_m. destruct (instructions order srcs (hist_goals h)) as [is|e] eqn:I; auto. cbn [bind].
    destruct (fields srcs) as [fs|e]; auto. cbn [bind].
    assert (K := fill_arrays_frame cast rnd user int32 A order srcs (hist_goals h) is m Horder P I).
    assert (W : ~ written A (computed (hist_goals h)) l).
    { intros (f & args & a & s & C & E & H & X). apply (N s X). destruct (goal_extra h f args a C E) as (t & T & S). exists t, f, args, a. auto. }
    destruct (fill_arrays_m cast rnd user int32 A is m) as (m1, [(len, o)|e]); cbn [fst] in *.
    - eapply kept_below; [exact K| |auto|auto]. apply post_below.
    - eapply kept_below; [exact K| |auto|auto]. intros j _. auto.
  Qed.

  (** The same for a book; its histograms are filled one after the other from the same arrays. *)
  Variable limit : nat.
  Theorem C73_book_only_reads_partial srcs hs A B b cs m :
    up_to_date hs limit B b -> (forall ids, book_hists limit B b = Ok ids -> Permutation srcs (sources (goals_of hs ids))) ->
    passed A m -> (forall h, In h hs -> hist_no_extra h) ->
    let (m', r) := book_fill_m cast rnd user int32 order limit srcs hs A B b cs m in
    untouched m m' /\ r = book_fill cast rnd user order limit srcs hs (seen A m) B b cs.
  Proof.
    intros (o & Eo & U) P Q N.
    assert (G : forall ids g, In g (goals_of hs ids) -> no_extra g).
    { intros ids g Hg. unfold goals_of in Hg. apply in_flat_map in Hg. destruct Hg as (i & _ & Hg). destruct (nth_error hs i) as [h|] eqn:E; [|destruct Hg].
      eapply goals_arity; [|exact Hg]. apply N. eapply nth_error_In; eauto. }
    assert (H := book_fill_ok cast rnd user int32 order limit srcs hs A B b cs m).
    assert (F : forall is stored, snd (book_fields order limit srcs hs B b) = Ok (is, stored) -> Forall fits_i is).
    { intros is stored. unfold book_fields. rewrite Eo. destruct (b_cache o) as [(is', st')|].
      - destruct U as (ids & o' & s' & _ & _ & O1 & P1 & I1). cbn. intros E; injection E as <- <-. eapply instructions_fit; eauto.
      - destruct (book_hists limit B b) as [ids|e] eqn:Hi; [|discriminate]. cbn [bind]. unfold book_goals. destruct ids as [|i ids]; [discriminate|]. cbn [bind].
        change (flat_map _ (i :: ids)) with (goals_of hs (i :: ids)).
        destruct (instructions order srcs (goals_of hs (i :: ids))) as [is'|e] eqn:I; [|discriminate]. cbn [bind]. destruct (fields srcs); [|discriminate]. cbn.
        intros E; injection E as <- <-. apply (instructions_fit order srcs (goals_of hs (i :: ids)) is'); auto. apply G. }
    specialize (H F Q). destruct (book_fill_m cast rnd user int32 order limit srcs hs A B b cs m) as (m', r). destruct H as (E & R). split; auto. apply ext_untouched; auto.
  Qed.
  Theorem C73_book_only_additional_arguments_are_written srcs hs A B b cs m l :
    up_to_date hs limit B b -> (forall ids, book_hists limit B b = Ok ids -> Permutation srcs (sources (goals_of hs ids))) ->
    l < List.length m -> (forall s h, A s = Some (MAr l) -> In h hs -> ~ extra_argument h s) ->
    nth_error (fst (book_fill_m cast rnd user int32 order limit srcs hs A B b cs m)) l = nth_error m l.
  Proof.
    intros (o & Eo & U) P L N. unfold book_fill_m. destruct (book_hists limit B b) as [ids|e] eqn:Hi; auto.
    assert (F : forall is stored, snd (book_fields order limit srcs hs B b) = Ok (is, stored) ->
      exists ids o' s', is_order o' /\ Permutation s' (sources (goals_of hs ids)) /\ instructions o' s' (goals_of hs ids) = Ok is).
    { intros is stored. unfold book_fields. rewrite Eo. destruct (b_cache o) as [(is', st')|].
      - destruct U as (ids' & o' & s' & _ & _ & O1 & P1 & I1). cbn. intros E; injection E as <- <-. exists ids', o', s'. auto.
      - rewrite Hi. cbn [bind]. unfold book_goals. destruct ids as [|i ids]; [discriminate|]. cbn [bind].
        change (flat_map _ (i :: ids)) with (goals_of hs (i :: ids)).
        destruct (instructions order srcs (goals_of hs (i :: ids))) as [is'|e] eqn:I; [|discriminate]. cbn [bind]. destruct (fields srcs); [|discriminate]. cbn.
        intros E; injection E as <- <-. exists (i :: ids), order, srcs. split; [|split]; auto. }
    destruct (book_fields order limit srcs hs B b) as (B1, [(is, stored)|e]); auto.
    destruct (F is stored eq_refl) as (ids' & o' & s' & O' & P' & I').
    assert (K := fill_arrays_frame cast rnd user int32 A o' s' (goals_of hs ids') is m O' P' I').
    assert (W : ~ written A (computed (goals_of hs ids')) l).
    { intros (f & args & a & s & (g & G & S) & E & H & X). unfold goals_of in G. apply in_flat_map in G. destruct G as (i & _ & G).
      destruct (nth_error hs i) as [h|] eqn:Eh; [|destruct G]. apply (N s h X (nth_error_In _ _ Eh)).
      destruct (goal_extra h f args a) as (t & T & S'); eauto. exists t, f, args, a. auto. }
    destruct (fill_arrays_m cast rnd user int32 A is m) as (m1, [(len, out)|e]); cbn [fst] in *.
    - assert (PB := post_all_below cast rnd user hs len out ids stored (prefill_all hs ids cs) m1).
      destruct (postfill_all_m cast rnd user hs len out stored ids _ m1) as (m2, (cs1, e)). cbn [fst] in *. eapply kept_below; [exact K| |auto|auto]. apply PB.
    - eapply kept_below; [exact K| |auto|auto]. intros j _. auto.
  Qed.
End Props.
Print Assumptions C73_python_functions_never_write.
Print Assumptions C73_arguments_seen.
Print Assumptions C73_fill_only_reads_partial.
Print Assumptions C73_only_additional_arguments_are_written.
Print Assumptions C73_book_only_reads_partial.
Print Assumptions C73_book_only_additional_arguments_are_written.

(** ** A concrete case: cut("k"), bin("x", 2, 0, 4), bin("y", 2, 0, 4), profile("x"), weight="w", where
    x and y are the same array, k is an int32 array and one of the weights is NaN: the slots of k
    share its memory, they are combined with those of x and y, and the NaN is replaced, but nothing is
    changed in the arrays. *)
Definition mh : hist := {|
  h_group := [];
  h_fixed := [(ACut "k", TName "k"); (ABin "x" 2 (nz 0) (nz 4) true true true true, TName "x");
              (ABin "y" 2 (nz 0) (nz 4) true true true true, TName "y")];
  h_prof := [TName "x"];
  h_weight := Some (WxTree (TName "w")) |}.
Definition mA : margs := fun s =>
  if String.eqb s "k" then Some (MAr 0) else if String.eqb s "x" then Some (MAr 1) else if String.eqb s "y" then Some (MAr 1)
  else if String.eqb s "w" then Some (MAr 2) else None.
Definition mm : memory :=
  [VCol [VNum (nz 1); VNum (nz 0)]; VCol [VNum (nz 3); VNum (nz 1)]; VCol [VNum (nz 2); VNum NaN]].
Example C73_case :
  is_order (fun _ l => l) /\ passed mA mm /\ hist_no_extra mh /\
  let '(m', (c, e)) := hist_fill_m cast_x86 Fin nocall (fun l => Nat.eqb l 0) (fun _ l => l) (sources (hist_goals mh)) mh mA CNone mm in
  e = None /\ firstn 3 m' = mm /\ 3 < List.length m' /\
  cell (hist_layout mh) c [] [1; 2; 2] (column_of (hist_layout mh) SumW) = nz 2 /\
  cell (hist_layout mh) c [] [0; 1; 1] (column_of (hist_layout mh) SumW) = nz 0.
Proof.
  split; [intros t l; apply Permutation_refl|]. split; [|split].
  - intros s l. unfold mA. repeat (destruct (String.eqb s _); [intros E; inversion E; subst; eexists; reflexivity|]). discriminate.
  - intros t Ht f args k S. in_cases Ht; inversion S.
  - vm_compute. repeat split; f_equal; try (apply Qc_is_canon; reflexivity); lia.
Qed.

(** ** max("x", "y", "z") looks like a maximum of three.  It is the maximum of two, written into the
    caller's array z; a histogram of z filled afterwards with the same arguments is another one. *)
Definition outh : hist := {|
  h_group := []; h_prof := []; h_weight := None;
  h_fixed := [(ABin "max(x, y, z)" 4 (nz 0) (nz 8) true true true true, TCall "max" [TName "x"; TName "y"; TName "z"])] |}.
Definition zh : hist := {|
  h_group := []; h_prof := []; h_weight := None;
  h_fixed := [(ABin "z" 4 (nz 0) (nz 8) true true true true, TName "z")] |}.
Definition oA : margs := fun s =>
  if String.eqb s "x" then Some (MAr 0) else if String.eqb s "y" then Some (MAr 1) else if String.eqb s "z" then Some (MAr 2) else None.
Definition om : memory := [VCol [VNum (nz 1); VNum (nz 0)]; VCol [VNum (nz 0); VNum (nz 3)]; VCol [VNum (nz 7); VNum (nz 7)]].
Definition fillm (h : hist) := hist_fill_m cast_x86 Fin (numlib (fun _ _ => NaN)) (fun _ => false) (fun _ l => l) (sources (hist_goals h)) h oA CNone.
Theorem C73_fill_only_reads_refuted :
  recognise (Bare "max") = Ok "max" /\ passed oA om /\ extra_argument outh "z" /\
  let '(m', (c, e)) := fillm outh om in
  e = None /\ nth_error om 2 = Some (VCol [VNum (nz 7); VNum (nz 7)]) /\ nth_error m' 2 = Some (VCol [VNum (nz 1); VNum (nz 3)]) /\
  cell (hist_layout outh) c [] [1] (column_of (hist_layout outh) SumW) = nz 1 /\
  snd (fillm zh om) <> snd (fillm zh m') /\ snd (snd (fillm zh m')) = None.
Proof.
  split; [reflexivity|]. split; [|split].
  - intros s l. unfold oA. repeat (destruct (String.eqb s _); [intros E; inversion E; subst; eexists; reflexivity|]). discriminate.
  - eexists _, "max", [TName "x"; TName "y"], (TName "z"). split; [left; reflexivity|]. split; [constructor|]. split; [reflexivity|constructor].
  - destruct (fillm outh om) as (m', (c, e)) eqn:E. vm_compute in E. injection E as <- <- <-.
    split; [reflexivity|]. split; [reflexivity|]. split; [vm_compute; repeat (f_equal; try (apply Qc_is_canon; reflexivity))|].
    split; [vm_compute; f_equal; apply Qc_is_canon; reflexivity|]. split; [|vm_compute; reflexivity].
    vm_compute. intros X. discriminate X.
Qed.
Print Assumptions C73_fill_only_reads_refuted.
