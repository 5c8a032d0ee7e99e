(** C71: the ways of building a histogram agree. *)
From Coq Require Import String Permutation.
From Verif Require Import Num NumFacts Base Tree Instr InstrSpec Axis Calc AxisMain Content Fill FillSpec Elem HistFill HistSpec HistFillProofs
  Order Expr ExprSpec ExprGood HistNew HistNewSpec HistFluent Props_Expr Props_Hist Props_HistNew.
Open Scope string_scope.
Local Open Scope list_scope.

(** ** Specification: what counts is the last weight and the last filter. *)
Fixpoint last_weight (w : option wsrc) (cs : list call) : option wsrc :=
  match cs with [] => w | CallWeight w' :: t => last_weight w' t | _ :: t => last_weight w t end.
Fixpoint last_filter (f : option src) (cs : list call) : option src :=
  match cs with [] => f | CallFilter f' :: t => last_filter f' t | _ :: t => last_filter f t end.
Definition fresh (axes : list (axis * src)) : list given := map (fun p => Fresh (fst p) (snd p)) axes.

Section Fluent.
  Variable srt : list expr -> list expr.
  Variable tsrt : list tree -> list tree.
  Variable defs : string -> option expr.
  Notation from := (new_from srt tsrt defs).

  Lemma filter_none {A} (p q : A -> bool) l : (forall x, q x = true -> p x = false) -> filter p (filter q l) = [].
  Proof.
    intros H. induction l as [|x l IH]; cbn [filter]; auto. destruct (q x) eqn:E; auto. cbn [filter]. rewrite (H x E). auto.
  Qed.
  Lemma filter_twice {A} (p : A -> bool) l : filter p (filter p l) = filter p l.
  Proof. induction l as [|x l IH]; cbn [filter]; auto. destruct (p x) eqn:E; auto. cbn [filter]. rewrite E, IH. auto. Qed.
  Lemma order_group es : filter (fun p => is_group (fst p)) (in_order es) = filter (fun p => is_group (fst p)) es.
  Proof.
    unfold in_order. rewrite !filter_app, filter_twice, (filter_none (fun p : axis * expr => is_group (fst p)) (fun p => is_fixed (fst p))), (filter_none (fun p : axis * expr => is_group (fst p)) (fun p => is_profile (fst p))).
    - rewrite !app_nil_r. auto.
    - intros [[] ?]; cbn; congruence.
    - intros [[] ?]; cbn; congruence.
  Qed.
  Lemma order_fixed es : filter (fun p => is_fixed (fst p)) (in_order es) = filter (fun p => is_fixed (fst p)) es.
  Proof.
    unfold in_order. rewrite !filter_app, filter_twice, (filter_none (fun p : axis * expr => is_fixed (fst p)) (fun p => is_group (fst p))), (filter_none (fun p : axis * expr => is_fixed (fst p)) (fun p => is_profile (fst p))).
    - rewrite app_nil_r. auto.
    - intros [[] ?]; cbn; congruence.
    - intros [[] ?]; cbn; congruence.
  Qed.
  Lemma order_profile es : filter (fun p => is_profile (fst p)) (in_order es) = filter (fun p => is_profile (fst p)) es.
  Proof.
    unfold in_order. rewrite !filter_app, filter_twice, (filter_none (fun p : axis * expr => is_profile (fst p)) (fun p => is_group (fst p))), (filter_none (fun p : axis * expr => is_profile (fst p)) (fun p => is_fixed (fst p))); auto.
    - intros [[] ?]; cbn; congruence.
    - intros [[] ?]; cbn; congruence.
  Qed.
  Lemma order_order es : in_order (in_order es) = in_order es.
  Proof. unfold in_order at 1. rewrite order_group, order_fixed, order_profile. reflexivity. Qed.
  Lemma parsed_exprs (es : list (axis * expr)) : mapM (axis_expr srt defs) (map (fun p => Parsed (fst p) (snd p)) es) = Ok es.
  Proof. apply mapM_ok. induction es as [|[a e] es IH]; cbn [map]; constructor; auto. Qed.
  Lemma fresh_exprs axes : mapM (axis_expr srt defs) (fresh axes) = mapM (fun p => do e <- parse_top srt defs (snd p); Ok (fst p, e)) axes.
  Proof. induction axes as [|[a s] axes IH]; cbn [fresh map mapM axis_expr fst snd]; auto. unfold fresh in IH. rewrite IH. reflexivity. Qed.

  (** Constructing again from the parsed axes is constructing from the texts. *)
  Lemma from_parsed l w f b w' f' : from l w f = Ok b -> from (as_parsed b) w' f' = from l w' f'.
  Proof.
    intros H. unfold new_from in H. apply bind_ok in H as (es & Es & H). apply bind_ok in H as (g & G & H). apply bind_ok in H as (fx & F & H). apply bind_ok in H as (p & P & H).
    apply bind_ok in H as (fl & _ & H). apply bind_ok in H as (wx & _ & H). injection H as <-. unfold new_from, as_parsed. cbn [b_axes]. rewrite parsed_exprs, Es. cbn [bind].
    unfold trees. rewrite order_group, order_fixed, order_profile, order_order. reflexivity.
  Qed.
  Lemma from_given l w f b : from l w f = Ok b -> b_weight b = w /\ b_filter b = f.
  Proof.
    intros H. unfold new_from in H. apply bind_ok in H as (es & _ & H). apply bind_ok in H as (g & _ & H). apply bind_ok in H as (fx & _ & H). apply bind_ok in H as (p & _ & H).
    apply bind_ok in H as (fl & _ & H). apply bind_ok in H as (wx & _ & H). injection H as <-. auto.
  Qed.
  Lemma call_direct l w f b c : from l w f = Ok b -> call_on srt tsrt defs b c = from l (last_weight w [c]) (last_filter f [c]).
  Proof. intros H. destruct (from_given l w f b H) as (<- & <-). destruct c; cbn [call_on last_weight last_filter]; apply (from_parsed l _ _ b _ _ H). Qed.
  Lemma last_cons w c cs : last_weight w (c :: cs) = last_weight (last_weight w [c]) cs. Proof. destruct c; reflexivity. Qed.
  Lemma lastf_cons f c cs : last_filter f (c :: cs) = last_filter (last_filter f [c]) cs. Proof. destruct c; reflexivity. Qed.

  (** A chain of calls that succeeds gives the histogram that the constructor gives with the last weight and the last filter; *)
  Theorem C71_chain_is_direct : forall cs l w f b b', from l w f = Ok b -> calls srt tsrt defs b cs = Ok b' ->
    from l (last_weight w cs) (last_filter f cs) = Ok b'.
  Proof.
    induction cs as [|c cs IH]; intros l w f b b' H C; cbn [HistFluent.calls] in C; [cbn; congruence|]. apply bind_ok in C as (b1 & B1 & C).
    rewrite (call_direct l w f b c H) in B1. rewrite last_cons, lastf_cons. eapply IH; eauto.
  Qed.
  (** and it succeeds exactly if every histogram on the way can be constructed. *)
  Theorem C71_chain_succeeds : forall cs l w f b, from l w f = Ok b ->
    ((exists b', calls srt tsrt defs b cs = Ok b') <->
     forall n, n <= length cs -> exists b', from l (last_weight w (firstn n cs)) (last_filter f (firstn n cs)) = Ok b').
  Proof.
    induction cs as [|c cs IH]; intros l w f b H; cbn [HistFluent.calls length].
    - split; [|eauto]. intros _ [|n] L; [cbn; eauto|lia].
    - rewrite (call_direct l w f b c H). split.
      + intros (b' & C). apply bind_ok in C as (b1 & B1 & C). intros [|n] L; [cbn; eauto|]. cbn [firstn]. rewrite last_cons, lastf_cons.
        apply (proj1 (IH l _ _ b1 B1)); eauto. lia.
      + intros A. destruct (A 1) as (b1 & B1); [lia|]. cbn [firstn] in B1. rewrite B1. cbn [bind]. apply (IH l _ _ b1 B1). intros n L. destruct (A (S n)) as (b' & B'); [lia|]. cbn [firstn] in B'.
        rewrite last_cons, lastf_cons in B'. eauto.
  Qed.
  (** The histogram of the constructor is that of C62, with its weight and filter: all that is proved of it holds. *)
  Theorem C71_direct_is_constructor : forall axes w f, rmap b_hist (from (fresh axes) w f) = new_hist srt tsrt defs axes w f.
  Proof.
    intros axes w f. unfold new_from, new_hist. rewrite fresh_exprs. destruct (mapM (fun p => do e <- parse_top srt defs (snd p); Ok (fst p, e)) axes) as [es|]; cbn [bind rmap]; auto.
    destruct (trees tsrt is_group es) as [g|]; cbn [bind rmap]; auto. destruct (trees tsrt is_fixed es) as [fx|]; cbn [bind rmap]; auto. destruct (trees tsrt is_profile es) as [p|]; cbn [bind rmap]; auto.
    destruct (match f with Some s => _ | None => _ end) as [fl|]; cbn [bind rmap]; auto. destruct (new_weight srt tsrt defs w fl) as [x|]; reflexivity.
  Qed.
  Theorem C71_fluent_is_constructor : forall axes w f b cs b', from (fresh axes) w f = Ok b -> calls srt tsrt defs b cs = Ok b' ->
    new_hist srt tsrt defs axes (last_weight w cs) (last_filter f cs) = Ok (b_hist b').
  Proof. intros axes w f b cs b' H C. rewrite <- C71_direct_is_constructor. rewrite (C71_chain_is_direct cs _ _ _ _ _ H C). reflexivity. Qed.
  (** weight and filter can be given in either order. *)
  Theorem C71_either_order : forall axes b w f b1 b2, from (fresh axes) None None = Ok b ->
    calls srt tsrt defs b [CallWeight (Some w); CallFilter (Some f)] = Ok b1 -> calls srt tsrt defs b [CallFilter (Some f); CallWeight (Some w)] = Ok b2 -> b1 = b2.
  Proof.
    intros axes b w f b1 b2 H C1 C2. apply (C71_chain_is_direct _ _ _ _ _ _ H) in C1. apply (C71_chain_is_direct _ _ _ _ _ _ H) in C2. cbn in C1, C2. congruence.
  Qed.
End Fluent.
Print Assumptions C71_chain_is_direct.
Print Assumptions C71_chain_succeeds.
Print Assumptions C71_fluent_is_constructor.
Print Assumptions C71_either_order.

(** ** The option fill= *)
Section FillOption.
  Variable cast : Num -> Z.
  Variable rnd : Qc -> Num.
  Variable user : string -> list arg -> res val.
  Variable order : tree -> list tree -> list tree.
  Variable srcs : hist -> list tree.
  Variable str_of : expr -> string.
  Notation filled := (new_filled str_of cast rnd user order srcs).
  (** Hist(.., fill=arrays) is Hist(..) and then fill(arrays): it raises if that would. *)
  Theorem C71_fill_option : forall b A, match hist_fill cast rnd user order (srcs (b_hist b)) (b_hist b) A CNone with
    | (c, None) => filled b (Some (FillDict A)) = Ok c
    | (_, Some e) => filled b (Some (FillDict A)) = Err e
    end.
  Proof. intros b A. unfold new_filled. destruct (hist_fill cast rnd user order (srcs (b_hist b)) (b_hist b) A CNone) as [c [e|]]; reflexivity. Qed.
  (** One array for a histogram of one axis whose expression is a name is the dict of that name and the array. *)
  Theorem C71_fill_array : forall b a n x, b_axes b = [(a, EName n)] -> str_of (EName n) = n ->
    filled b (Some (FillArray x)) = filled b (Some (FillDict (fun s => if String.eqb s n then Some x else None))).
  Proof. intros b a n x E S. unfold new_filled. rewrite E, S. reflexivity. Qed.
  (** Refuted beyond: with another expression, or a weight or filter of another field, it raises whatever the array. *)
  Theorem C71_fill_array_refuted : forall b s x, is_order order -> Permutation (srcs (b_hist b)) (sources (hist_goals (b_hist b))) ->
    (forall p, In p (b_axes b) -> str_of (snd p) <> s) -> hist_mentions (b_hist b) s -> lib_find s maybeconstants = None ->
    exists e, filled b (Some (FillArray x)) = Err e.
  Proof.
    intros b s x Ho P N M K. unfold new_filled. destruct (b_axes b) as [|[a e] [|q l]] eqn:E; eauto.
    assert (NA : ~ available (fun s0 => if String.eqb s0 (str_of e) then Some x else None) s).
    { unfold available. specialize (N (a, e) (or_introl eq_refl)). cbn [snd] in N. destruct (String.eqb_spec s (str_of e)); [congruence|]. intros [H|H]; congruence. }
    destruct (HistFillMain2.fill_missing cast rnd user order (b_hist b) (srcs (b_hist b)) Ho P _ s CNone M NA) as (e' & F). rewrite F. eauto.
  Qed.
End FillOption.

Print Assumptions C71_fill_option.
Print Assumptions C71_fill_array.
Print Assumptions C71_fill_array_refuted.

(** ** A case: Hist(profile(..), bin(..), groupby(..)).filter(f).weight(w) of the histogram of C62, and a step that fails *)
Definition start71 : res built := new_from py_sorted tree_sorted nodefs (fresh (rev (w_axes w62))) None None.
Example C71_case :
  match start71 with
  | Ok b =>
    let done := HistFluent.calls py_sorted tree_sorted nodefs b [CallFilter (w_filter w62); CallWeight (w_weight w62)] in
    rmap b_hist done = Ok h62 /\ done = HistFluent.calls py_sorted tree_sorted nodefs b [CallWeight (w_weight w62); CallSame; CallFilter (w_filter w62)] /\
    map fst (b_axes b) = map fst (w_axes w62) /\
    (exists e, HistFluent.calls py_sorted tree_sorted nodefs b [CallFilter (Some (XName "x")); CallFilter (w_filter w62)] = Err e)
  | Err _ => False
  end.
Proof. vm_compute. repeat split. eexists. reflexivity. Qed.
(** bin("x", ..) takes one array; bin("x + 1", ..) does not. *)
Definition name71 : res built := new_from py_sorted tree_sorted nodefs (fresh [(ABin "x" 4 (nz 0) (nz 8) true true true true, XName "x")]) None None.
Definition plus71 : res built := new_from py_sorted tree_sorted nodefs (fresh [(ABin "x + 1" 4 (nz 0) (nz 8) true true true true, XBin OAdd (XName "x") (s_num (nz 1)))]) None None.
Definition str71 (e : expr) : string := match e with EName n => n | _ => "1 + x" end.
Definition array71 : inarr := IAr [VNum (nz 1); VNum (nz 3); VNum (nz 1)].
Definition fill71 (b : built) : res content := new_filled str71 cast_x86 Fin nocall (fun _ l => l) (fun h => sources (hist_goals h)) b (Some (FillArray array71)).
Example C71_array_case :
  match name71, plus71 with
  | Ok b, Ok b' => b_axes b = [(ABin "x" 4 (nz 0) (nz 8) true true true true, EName "x")] /\ str71 (EName "x") = "x" /\
     (exists c, fill71 b = Ok c /\ cell (hist_layout (b_hist b)) c [] [1] 0 = nz 2) /\
     hist_mentions (b_hist b') "x" /\ (forall p, In p (b_axes b') -> str71 (snd p) <> "x") /\ fill71 b' = Err ValueError
  | _, _ => False
  end.
Proof.
  destruct name71 as [b|] eqn:B; [|discriminate B]. destruct plus71 as [b'|] eqn:B'; [|discriminate B']. vm_compute in B, B'. injection B as <-. injection B' as <-.
  split; [reflexivity|]. split; [reflexivity|]. split; [eexists; split; [vm_compute; reflexivity|]; vm_compute; apply f_equal, Qc_is_canon; reflexivity|].
  split; [|split; [intros p [<-|[]]; cbn; discriminate|vm_compute; reflexivity]].
  eexists. split; [left; reflexivity|]. eapply mentions_call; [|constructor]. vm_compute. auto.
Qed.
