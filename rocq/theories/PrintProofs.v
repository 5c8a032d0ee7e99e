(** Lemmas about printing. *)
From Coq Require Import String.
From Verif Require Import Base Num NumFacts Tree Axis Content Fill HistFill Order Expr ExprFacts HistNew Print PrintSpec.
Local Open Scope string_scope.
Local Open Scope list_scope.
Notation slen := String.length.

Lemma slen_app a b : slen (a ++ b)%string = slen a + slen b.
Proof. induction a as [|c a IH]; cbn; auto. Qed.
Lemma slen_join sep x l : In x l -> slen x <= slen (join sep l).
Proof.
  induction l as [|y l IH]; [intros []|]; intros [->|H].
  - destruct l; cbn [join]; rewrite ?slen_app; lia.
  - destruct l as [|z l]; [destruct H|]. cbn [join] in *. rewrite !slen_app. specialize (IH H). lia.
Qed.
(** with two elements the separator is there *)
Lemma slen_join2 sep x l : In x l -> 2 <= List.length l -> 1 <= slen sep -> slen x < slen (join sep l).
Proof.
  destruct l as [|y [|z l]]; cbn [List.length]; intros H L S; try lia. change (join sep (y :: z :: l)) with (y ++ sep ++ join sep (z :: l))%string. rewrite !slen_app. destruct H as [->|H]; [lia|].
  pose proof (slen_join sep x (z :: l) H). lia.
Qed.
Lemma slen_concat op x l : In x l -> slen op + slen x <= slen (String.concat "" (map (fun y => (op ++ y)%string) l)).
Proof.
  induction l as [|y l IH]; [intros []|]; intros [->|H]; cbn [map String.concat].
  - destruct (map _ l) as [|? ?]; rewrite ?slen_app; lia.
  - specialize (IH H). destruct (map (fun y => (op ++ y)%string) l) as [|? ?] eqn:E; [destruct l; [destruct H|discriminate]|]. rewrite !slen_app. cbn [slen]. lia.
Qed.
Lemma slen_tuple x l : In x l -> slen x <= slen (tuple_repr l).
Proof.
  intros H. destruct l as [|y [|z l]]; [destruct H|destruct H as [->|[]]; cbn [tuple_repr]; rewrite !slen_app; lia|].
  unfold tuple_repr. rewrite !slen_app. pose proof (slen_join ", " x (y :: z :: l) H). lia.
Qed.
Lemma slen_class c x l : In x l -> slen x < slen (class_repr c l).
Proof. intros H. unfold class_repr. rewrite !slen_app. pose proof (slen_join ", " x l H). cbn [slen]. lia. Qed.

Section Print.
Variables str_const repr_const : cst -> string.
Variable repr_number : Qc -> string.
Notation str := (str str_const repr_const repr_number).
Notation repr := (repr repr_const repr_number).
Notation ring_str := (ring_str repr_number).

Lemma ring_neg posop negop u c pos neg x : 1 <= slen negop -> In x neg -> slen x < slen (ring_str posop negop u c pos neg).
Proof. intros N H. unfold Print.ring_str. rewrite slen_app. pose proof (slen_concat negop x neg H). lia. Qed.
Lemma ring_pos posop negop u c pos neg x : 1 <= slen posop -> 1 <= slen negop -> In x pos ->
  (c = u /\ pos = [x] /\ neg = []) \/ slen x < slen (ring_str posop negop u c pos neg).
Proof.
  intros P N H. unfold Print.ring_str. rewrite slen_app. destruct pos as [|y pos]; [destruct H|]. cbn [is_nil]. rewrite Bool.orb_false_r. destruct (qeqb c u) eqn:E; cbn [negb app].
  - apply qeqb_iff in E. destruct neg as [|z neg].
    + destruct pos as [|w pos]; [destruct H as [->|[]]; auto|]. right. pose proof (slen_join2 posop x (y :: w :: pos) H). cbn [List.length] in *. lia.
    + right. pose proof (slen_join posop x (y :: pos) H). pose proof (slen_concat negop z (z :: neg) (or_introl eq_refl)). lia.
  - right. assert (I : In x (repr_number c :: y :: pos)) by (right; auto). pose proof (slen_join2 posop x _ I). cbn [List.length] in *. lia.
Qed.

Lemma in_repr s : forall e, In s (enames e) -> slen s < slen (repr e).
Proof.
  assert (TR : forall t, PT (fun e => In s (enames e) -> slen s < slen (repr e)) t -> In s (flat_map enames (tp t) ++ flat_map enames (tn t)) ->
    slen s < slen (class_repr "TimesDiv" [repr_number (tc t); tuple_repr (map repr (tp t)); tuple_repr (map repr (tn t))])).
  { intros t [H1 H2] I. rewrite Forall_forall in H1, H2. apply in_app_iff in I. destruct I as [I|I]; apply in_flat_map in I; destruct I as (x & Hx & I).
    - specialize (H1 x Hx I). pose proof (slen_tuple (repr x) _ (in_map repr _ _ Hx)).
      match goal with |- _ < slen (class_repr ?c ?l) => pose proof (slen_class c (tuple_repr (map repr (tp t))) l) as L end. cbn [In] in L. lapply L; [lia|auto].
    - specialize (H2 x Hx I). pose proof (slen_tuple (repr x) _ (in_map repr _ _ Hx)).
      match goal with |- _ < slen (class_repr ?c ?l) => pose proof (slen_class c (tuple_repr (map repr (tn t))) l) as L end. cbn [In] in L. lapply L; [lia|auto]. }
  induction e as [c|n|n b|b f l IH|c l r IHl IHr|c p n Hp Hn|u Hu|l IH|l IH] using expr_ind'; cbn [enames]; intros I.
  - destruct I.
  - destruct I as [->|[]]. cbn [Print.repr]. unfold class_repr, quoted. cbn [join]. rewrite !slen_app. cbn [slen]. lia.
  - destruct I as [->|[]]. cbn [Print.repr]. unfold class_repr, quoted. cbn [join]. rewrite !slen_app. cbn [slen]. lia.
  - apply in_flat_map in I. destruct I as (x & Hx & I). rewrite Forall_forall in IH. specialize (IH x Hx I). cbn [Print.repr].
    match goal with |- _ < slen (class_repr ?c ?l) => pose proof (slen_class c (repr x) l) as L end. lapply L; [lia|]. right. apply in_map. exact Hx.
  - cbn [Print.repr]. apply in_app_iff in I. destruct I as [I|I]; [specialize (IHl I)|specialize (IHr I)].
    + match goal with |- _ < slen (class_repr ?c ?l0) => pose proof (slen_class c (repr l) l0) as L end. cbn [In] in L. lapply L; [lia|auto].
    + match goal with |- _ < slen (class_repr ?c ?l0) => pose proof (slen_class c (repr r) l0) as L end. cbn [In] in L. lapply L; [lia|auto].
  - cbn [Print.repr]. apply in_app_iff in I. destruct I as [I|I]; apply in_flat_map in I; destruct I as (t & Ht & I).
    + rewrite Forall_forall in Hp. pose proof (TR t (Hp t Ht) I) as X.
      set (g := fun t => class_repr "TimesDiv" [repr_number (tc t); tuple_repr (map repr (tp t)); tuple_repr (map repr (tn t))]) in *. change (slen s < slen (g t)) in X.
      pose proof (slen_tuple (g t) _ (in_map g _ _ Ht)). match goal with |- _ < slen (class_repr ?c ?l0) => pose proof (slen_class c (tuple_repr (map g p)) l0) as L end. cbn [In] in L. lapply L; [lia|auto].
    + rewrite Forall_forall in Hn. pose proof (TR t (Hn t Ht) I) as X.
      set (g := fun t => class_repr "TimesDiv" [repr_number (tc t); tuple_repr (map repr (tp t)); tuple_repr (map repr (tn t))]) in *. change (slen s < slen (g t)) in X.
      pose proof (slen_tuple (g t) _ (in_map g _ _ Ht)). match goal with |- _ < slen (class_repr ?c ?l0) => pose proof (slen_class c (tuple_repr (map g n)) l0) as L end. cbn [In] in L. lapply L; [lia|auto].
  - cbn [Print.repr]. apply TR; auto.
  - apply in_flat_map in I. destruct I as (x & Hx & I). rewrite Forall_forall in IH. specialize (IH x Hx I). cbn [Print.repr].
    match goal with |- _ < slen (class_repr ?c ?l) => pose proof (slen_class c (repr x) l) as L end. lapply L; [lia|]. apply in_map. exact Hx.
  - apply in_flat_map in I. destruct I as (x & Hx & I). rewrite Forall_forall in IH. specialize (IH x Hx I). cbn [Print.repr].
    match goal with |- _ < slen (class_repr ?c ?l) => pose proof (slen_class c (repr x) l) as L end. lapply L; [lia|]. apply in_map. exact Hx.
Qed.

Lemma bare_str e s : bare e s -> str e = s /\ enames e = [s].
Proof.
  induction 1 as [s|s|x s _ (IH & N)|x s _ (IH & N)]; auto.
  - cbn [Print.str enames tc tp tn map flat_map app]. rewrite N, IH. split; auto. unfold Print.ring_str. change (qeqb qc1 qc1) with true. cbn [negb is_nil orb app join map String.concat]. clear. induction s; cbn; congruence.
  - cbn [Print.str enames tc tp tn map flat_map app]. rewrite N, IH. split; auto. unfold Print.ring_str. change (qeqb qc1 qc1) with true. change (qeqb qc0 qc0) with true. cbn [negb is_nil orb app join map String.concat].
    clear. induction s; cbn; congruence.
Qed.

Lemma in_str s : forall e, In s (enames e) -> bare e s \/ slen s < slen (str e).
Proof.
  assert (LE : forall e, (bare e s \/ slen s < slen (str e)) -> slen s <= slen (str e)).
  { intros e [B|L]; [|lia]. destruct (bare_str e s B) as (-> & _). auto. }
  assert (TR : forall t, PT (fun e => In s (enames e) -> bare e s \/ slen s < slen (str e)) t -> In s (flat_map enames (tp t) ++ flat_map enames (tn t)) ->
    (exists x, t = T qc1 [x] [] /\ bare x s) \/ slen s < slen (ring_str "*" "/" qc1 (tc t) (map str (tp t)) (map str (tn t)))).
  { intros [c p n] [H1 H2] I. cbn [tc tp tn] in *. rewrite Forall_forall in H1, H2. apply in_app_iff in I. destruct I as [I|I]; apply in_flat_map in I; destruct I as (x & Hx & I).
    - specialize (H1 x Hx I). destruct (ring_pos "*" "/" qc1 c (map str p) (map str n) (str x)) as [(-> & E1 & E2)|L]; [cbn; lia|cbn; lia|apply in_map; auto| |right; pose proof (LE x H1); lia].
      destruct p as [|y [|? ?]]; try discriminate. destruct n; [|discriminate]. destruct Hx as [->|[]].
      destruct H1 as [B|L]; [left; exists x; auto|]. right. unfold Print.ring_str. change (qeqb qc1 qc1) with true. cbn [negb is_nil orb app join map String.concat]. rewrite slen_app. lia.
    - right. specialize (H2 x Hx I). pose proof (LE x H2). pose proof (ring_neg "*" "/" qc1 c (map str p) (map str n) (str x)) as L. cbn [slen] in L. lapply L; [|lia]. intros L'. specialize (L' (in_map str _ _ Hx)). lia. }
  induction e as [c|n|n b|b f l IH|c l r IHl IHr|c p n Hp Hn|u Hu|l IH|l IH] using expr_ind'; cbn [enames]; intros I.
  - destruct I.
  - destruct I as [->|[]]. left. constructor.
  - destruct I as [->|[]]. destruct b; [left; constructor|]. right. cbn [Print.str]. rewrite slen_app. cbn [slen]. lia.
  - right. apply in_flat_map in I. destruct I as (x & Hx & I). rewrite Forall_forall in IH. specialize (LE x (IH x Hx I)).
    assert (G : slen s < slen (f ++ "(" ++ join ", " (map str l) ++ ")")%string).
    { rewrite !slen_app. pose proof (slen_join ", " (str x) (map str l) (in_map str _ _ Hx)). cbn [slen]. lia. }
    destruct b; [|exact G]. destruct l as [|y [|z [|? ?]]]; try exact G. cbn [Print.str]. rewrite !slen_app. cbn [slen].
    destruct Hx as [->|[->|[]]]; [destruct (is_binop x), (is_binop z)|destruct (is_binop x), (is_binop y)]; rewrite ?slen_app; cbn [slen]; lia.
  - right. cbn [Print.str]. rewrite !slen_app. cbn [slen]. apply in_app_iff in I. destruct I as [I|I]; [specialize (LE l (IHl I))|specialize (LE r (IHr I))]; lia.
  - set (g := fun t => ring_str "*" "/" qc1 (tc t) (map str (tp t)) (map str (tn t))) in *. cbn [Print.str]. fold g. apply in_app_iff in I. destruct I as [I|I]; apply in_flat_map in I; destruct I as (t & Ht & I).
    + rewrite Forall_forall in Hp. pose proof (TR t (Hp t Ht) I) as X. change ((exists x, t = T qc1 [x] [] /\ bare x s) \/ slen s < slen (g t)) in X.
      assert (LT : slen s <= slen (g t)). { destruct X as [(x & -> & B)|X]; [|lia]. destruct (bare_str x s B) as (Q & _). unfold g. cbn [tc tp tn map]. rewrite Q. unfold Print.ring_str. change (qeqb qc1 qc1) with true. cbn [negb is_nil orb app join map String.concat]. rewrite slen_app. lia. }
      destruct (ring_pos " + " " - " qc0 c (map g p) (map g n) (g t)) as [(-> & E1 & E2)|L]; [cbn; lia|cbn; lia|apply in_map; auto| |right; lia].
      destruct p as [|y [|? ?]]; try discriminate. destruct n; [|discriminate]. destruct Ht as [->|[]].
      destruct X as [(x & -> & B)|X]; [left; constructor; auto|]. right. unfold Print.ring_str. change (qeqb qc0 qc0) with true. cbn [negb is_nil orb app join map String.concat]. rewrite slen_app. lia.
    + right. rewrite Forall_forall in Hn. pose proof (TR t (Hn t Ht) I) as X. change ((exists x, t = T qc1 [x] [] /\ bare x s) \/ slen s < slen (g t)) in X.
      assert (LT : slen s <= slen (g t)). { destruct X as [(x & -> & B)|X]; [|lia]. destruct (bare_str x s B) as (Q & _). unfold g. cbn [tc tp tn map]. rewrite Q. unfold Print.ring_str. change (qeqb qc1 qc1) with true. cbn [negb is_nil orb app join map String.concat]. rewrite slen_app. lia. }
      pose proof (ring_neg " + " " - " qc0 c (map g p) (map g n) (g t)) as L. lapply L; [|cbn; lia]. intros L'. specialize (L' (in_map g _ _ Ht)). lia.
  - destruct (TR u Hu I) as [(x & -> & B)|L]; [left; constructor; auto|right; exact L].
  - right. cbn [Print.str]. apply (in_repr s (EAnd l)). exact I.
  - right. cbn [Print.str]. apply (in_repr s (EOr l)). exact I.
Qed.
End Print.
