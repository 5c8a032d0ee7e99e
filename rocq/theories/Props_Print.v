(** C79: the data given to the constructor of a histogram of one axis go to the field that the axis
    reads, or the constructor fails: they never stand for an expression. *)
From Coq Require Import String Permutation.
From Verif Require Import Num NumFacts Base Tree Instr InstrSpec Axis Calc Content Fill FillSpec Elem HistFill HistSpec
  Order Expr ExprFacts ExprDefs HistNew Props_Expr Props_Hist Print PrintSpec PrintProofs PrintMain.
Open Scope string_scope.
Local Open Scope list_scope.

Section Any.
  (** However Python prints constants, whatever the definitions, functions and order of evaluation. *)
  Variables str_const repr_const : cst -> string.
  Variable repr_number : Qc -> string.
  Variable defs : string -> option expr.
  Variable cast : Num -> Z.
  Variable rnd : Qc -> Num.
  Variable user : string -> list arg -> res val.
  Variable order : tree -> list tree -> list tree.
  Variable srcs_of : list tree -> list tree.
  Hypothesis Ho : is_order order.
  Hypothesis Hs : forall gs, Permutation (srcs_of gs) (sources gs).
  Notation printed := (str str_const repr_const repr_number).
  Notation Hist := (new_filled str_const repr_const repr_number py_sorted tree_sorted defs cast rnd user order srcs_of).
  Notation unfilled := (new_hist py_sorted tree_sorted defs).
  Notation parse := (parse_top py_sorted defs).

  (** An expression prints as one of its fields only if it is nothing but that field. *)
  Theorem C79_printed_as_a_field : forall e s, In s (enames e) -> (printed e = s <-> bare e s).
  Proof.
    intros e s I. split; intros H.
    - destruct (in_str str_const repr_const repr_number s e I) as [B|L]; auto. rewrite H in L. lia.
    - apply (bare_str str_const repr_const repr_number e s H).
  Qed.
  (** In all other cases what is printed is longer than every field in it. *)
  Theorem C79_printed_longer : forall e s, In s (enames e) -> ~ bare e s -> String.length s < String.length (printed e).
  Proof. intros e s I N. destruct (in_str str_const repr_const repr_number s e I); tauto. Qed.

  (** fill={..}: construct, then fill. *)
  Theorem C79_fill_dict : forall axes weight filt A h, unfilled axes weight filt = Ok h ->
    Hist axes weight filt (Some (FDict A)) =
    match hist_fill cast rnd user order (srcs_of (hist_goals h)) h A CNone with
    | (c, None) => Ok (h, c)
    | (_, Some e) => Err e
    end.
  Proof.
    intros axes weight filt A h H. unfold new_filled. rewrite H. cbn [bind fill_fields].
    unfold new_hist in H. apply bind_ok_iff in H as (es & Es & _).
    assert (M : exists l, mapM (fun p : axis * src => parse (snd p)) axes = Ok l).
    { clear - Es. revert es Es. induction axes as [|[a s] axes IH]; intros es Es; [eexists; reflexivity|]. cbn [mapM snd] in *.
      apply bind_ok_iff in Es as (x & X & Es). apply bind_ok_iff in Es as (xs & Xs & Es). apply bind_ok_iff in X as (e & E & X). rewrite E. destruct (IH xs Xs) as (l & ->). eexists. reflexivity. }
    destruct M as (l & ->). reflexivity.
  Qed.

  (** The axis reads the field [n]: fill=data is fill={n: data}. *)
  Theorem C79_fill_field : forall a s e n h weight filt d,
    unfilled [(a, s)] weight filt = Ok h -> parse s = Ok e -> bare e n ->
    Hist [(a, s)] weight filt (Some (FData d)) =
    Hist [(a, s)] weight filt (Some (FDict (fun m => if String.eqb m n then Some d else None))).
  Proof.
    intros a s e n h weight filt d H P B. rewrite (newf_one _ _ _ _ _ _ _ _ _ _ _ _ _ _ _ _ H P).
    destruct (bare_str str_const repr_const repr_number e n B) as (-> & _). reflexivity.
  Qed.

  (** The axis is an expression with a field in it that is not a named constant: for no data does
      the constructor return.  The data are never taken for one of the fields. *)
  Theorem C79_fill_expression_fails : forall a s e m h weight filt d,
    unfilled [(a, s)] weight filt = Ok h -> parse s = Ok e ->
    In m (enames e) -> ~ bare e m -> lib_find m maybeconstants = None ->
    exists x, Hist [(a, s)] weight filt (Some (FData d)) = Err x.
  Proof.
    intros a s e m h weight filt d H P I N C. rewrite (newf_one _ _ _ _ _ _ _ _ _ _ _ _ _ _ _ _ H P).
    assert (M : hist_mentions h m).
    { destruct (HistNewProofs.new_inv defs _ _ _ _ H) as (p & fl & HG & HF & HP & _).
      assert (T : exists t, axis_tree tree_sorted e = Ok t).
      { assert (G : forall (keep : axis -> bool) qs, keep a = true -> Forall2 (HistNewProofs.low defs) (filter (fun p => keep (fst p)) [(a, s)]) qs -> exists t, axis_tree tree_sorted e = Ok t).
        { intros keep qs K F. cbn [filter fst] in F. rewrite K in F. inversion F as [|x y l l' (_ & e' & P' & T') _]; subst. cbn [snd] in P'.
          replace e' with e in T' by congruence. eauto. }
        destruct a; solve [eapply (G is_group); eauto | eapply (G is_fixed); eauto | eapply (G is_profile); eauto]. }
      destruct T as (t & T). eapply one_mentions; eauto. eapply axis_names_kept; eauto. }
    eapply newf_missing; eauto. pose proof (C79_printed_longer e m I N) as L. intros [X|X]; [|tauto].
    destruct (String.eqb m (printed e)) eqn:E; [|tauto]. apply String.eqb_eq in E. rewrite <- E in L. lia.
  Qed.

  (** The data are the only field: a weight or a filter that needs another one makes it fail. *)
  Theorem C79_fill_other_field_fails : forall a s e n m h weight filt d,
    unfilled [(a, s)] weight filt = Ok h -> parse s = Ok e -> bare e n ->
    hist_mentions h m -> m <> n -> lib_find m maybeconstants = None ->
    exists x, Hist [(a, s)] weight filt (Some (FData d)) = Err x.
  Proof.
    intros a s e n m h weight filt d H P B M N C. rewrite (C79_fill_field a s e n h weight filt d H P B). eapply newf_missing; eauto.
    intros [X|X]; [|tauto]. apply String.eqb_neq in N. rewrite N in X. tauto.
  Qed.

  (** Without exactly one axis, data that are not a dict are a TypeError. *)
  Theorem C79_fill_needs_one_axis : forall axes weight filt d h,
    unfilled axes weight filt = Ok h -> List.length axes <> 1 -> Hist axes weight filt (Some (FData d)) = Err TypeError.
  Proof.
    intros axes weight filt d h H L. unfold new_filled. rewrite H. cbn [bind].
    unfold new_hist in H. apply bind_ok_iff in H as (es & Es & _).
    assert (M : exists l, mapM (fun p : axis * src => parse (snd p)) axes = Ok l /\ List.length l = List.length axes).
    { clear - Es. revert es Es. induction axes as [|[a s] axes IH]; intros es Es; [exists []; auto|]. cbn [mapM snd] in *.
      apply bind_ok_iff in Es as (x & X & Es). apply bind_ok_iff in Es as (xs & Xs & Es). apply bind_ok_iff in X as (e & E & X). rewrite E. destruct (IH xs Xs) as (l & -> & K). eexists. split; [reflexivity|]. cbn [List.length]. auto. }
    destruct M as (l & -> & K). cbn [bind]. destruct l as [|x [|y l]]; cbn [List.length] in K; try reflexivity. congruence.
  Qed.
End Any.

(** What is printed is not the expression: "1/(a + b)" and "1/a + b" are different and print alike. *)
Definition src_a : src := XBin ODiv (XLit (SNum (nz 1))) (XBin OAdd (XName "a") (XName "b")).
Definition src_b : src := XBin OAdd (XBin ODiv (XLit (SNum (nz 1))) (XName "a")) (XName "b").
Theorem C79_printing_injective_refuted : ~ (forall s s' e e', parsed s = Ok e -> parsed s' = Ok e' ->
  (forall str_const repr_const repr_number, str str_const repr_const repr_number e = str str_const repr_const repr_number e') -> e = e').
Proof.
  intros H.
  assert (X : exists e e', parsed src_a = Ok e /\ parsed src_b = Ok e' /\
    (forall sc rc rn, str sc rc rn e = str sc rc rn e') /\ e <> e').
  { do 2 eexists. split; [vm_compute; reflexivity|]. split; [vm_compute; reflexivity|]. split; [|discriminate].
    intros sc rc rn. vm_compute. match goal with |- context [rn ?q] => generalize (rn q) end. intros r. induction r as [|c r IH]; [reflexivity|]. cbn. rewrite <- IH. reflexivity. }
  destruct X as (e & e' & E & E' & P & N). apply N. eapply H; eauto.
Qed.

Print Assumptions C79_printed_as_a_field.
Print Assumptions C79_printed_longer.
Print Assumptions C79_fill_dict.
Print Assumptions C79_fill_field.
Print Assumptions C79_fill_expression_fails.
Print Assumptions C79_fill_other_field_fails.
Print Assumptions C79_fill_needs_one_axis.
Print Assumptions C79_printing_injective_refuted.

(** ** Examples: Hist(bin("x", 2, 0, 4), fill=[1, 3, 3]) and the same with "x + 1". *)
Definition digits (q : Qc) : string := if qeqb q qc1 then "1" else "?".
Definition new79 := new_filled (fun _ => "c") (fun _ => "c") digits py_sorted tree_sorted nodefs cast_x86 Fin powlib (fun _ l => l) sources.
Definition axis79 (n : string) : axis := ABin n 2 (nz 0) (nz 4) true true true true.
Definition data79 : inarr := IAr [VNum (nz 1); VNum (nz 3); VNum (nz 3)].
Definition plus1 : src := XBin OAdd (XName "x") (XLit (SNum (nz 1))).
Example field79 : exists e, parsed (XName "x") = Ok e /\ bare e "x".
Proof. eexists. split; [vm_compute; reflexivity|constructor]. Qed.
Example cells79 : exists h c, new79 [(axis79 "x", XName "x")] None None (Some (FData data79)) = Ok (h, c) /\
  cell (hist_layout h) c [] [1] 0 = nz 1 /\ cell (hist_layout h) c [] [2] 0 = nz 2.
Proof. do 2 eexists. split; [vm_compute; reflexivity|]. vm_compute. auto. Qed.
Example expression79 : exists h e, new_hist py_sorted tree_sorted nodefs [(axis79 "x + 1", plus1)] None None = Ok h /\ parsed plus1 = Ok e /\
  In "x" (enames e) /\ ~ bare e "x" /\ lib_find "x" maybeconstants = None /\ str (fun _ => "c") (fun _ => "c") digits e = "1 + x".
Proof.
  do 2 eexists. split; [vm_compute; reflexivity|]. split; [vm_compute; reflexivity|]. split; [left; reflexivity|]. split; [|split; vm_compute; reflexivity].
  intros H. inversion H.
Qed.
Example fails79 : exists x, new79 [(axis79 "x + 1", plus1)] None None (Some (FData data79)) = Err x.
Proof. eexists. vm_compute. reflexivity. Qed.
Example weight79 : exists x, new79 [(axis79 "x", XName "x")] (Some (WExpr (XName "w"))) None (Some (FData data79)) = Err x.
Proof. eexists. vm_compute. reflexivity. Qed.
Example two79 : new79 [(axis79 "x", XName "x"); (axis79 "y", XName "y")] None None (Some (FData data79)) = Err TypeError.
Proof. vm_compute. reflexivity. Qed.
