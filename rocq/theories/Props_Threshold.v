(** C38: thresholds written as sums, differences, products and quotients of numbers. *)
From Coq Require Import String.
From Verif Require Import Base Num NumFacts Axis AxisSpec AxisProofs AxisProofs2 AxisMain Calc Content Fill FillSpec FillProofs FillProofs2 FillProofs3 FillMain
  Tree Order Expr ExprFacts HistAlg AlgSpec HistAlgProofs HistAlgMain Props_Alg Nd NdProofs Proj ProjSpec ProjProofs ProjMain ProjLaws Props_Proj
  Select SelSpec SelAxis SelAxis2 Remap SelContent SelMain SelFill SelHist SelOr SelKeys Props_Select TableStats.
Local Open Scope string_scope.
Local Open Scope list_scope.

Definition qsum (l : list Qc) : Qc := fold_right Qcplus 0%Qc l.
Definition qprod (l : list Qc) : Qc := fold_right Qcmult 1%Qc l.
Section Worth.
  Variable mb : string -> option Num.
  (** What an expression without variables is worth: a number, a named constant, [c + p1 + ... - n1 - ...],
      or [c * p1 * ... / (n1 * ...)], where nothing is divided by zero. *)
  Inductive worth : expr -> Qc -> Prop :=
  | W_num q : worth (EConst (KS (SNum (Fin q)))) q
  | W_name s q : mb s = Some (Fin q) -> worth (EName s) q
  | W_sum c pos neg ps ns : terms_worth pos ps -> terms_worth neg ns -> worth (EPM c pos neg) (c + qsum ps - qsum ns)%Qc
  | W_term t q : term_worth t q -> worth (ETD t) q
  with term_worth : term -> Qc -> Prop :=
  | W_prod c pos neg ps ns : all_worth pos ps -> all_worth neg ns -> Forall (fun n => n <> 0%Qc) ns -> term_worth (T c pos neg) (c * qprod ps / qprod ns)%Qc
  with terms_worth : list term -> list Qc -> Prop :=
  | W_no_terms : terms_worth [] []
  | W_terms t l q qs : term_worth t q -> terms_worth l qs -> terms_worth (t :: l) (q :: qs)
  with all_worth : list expr -> list Qc -> Prop :=
  | W_none : all_worth [] []
  | W_all e l q qs : worth e q -> all_worth l qs -> all_worth (e :: l) (q :: qs).
  Scheme worth_i := Induction for worth Sort Prop
  with term_worth_i := Induction for term_worth Sort Prop
  with terms_worth_i := Induction for terms_worth Sort Prop
  with all_worth_i := Induction for all_worth Sort Prop.

  Definition asterm (t : term) : option Num :=
    match t with T c p n => match fold_const nmul (asnum mb) (Fin c) p with Some v => fold_const ndiv (asnum mb) v n | None => None end end.
  Definition reads {A} (f : A -> option Num) (l : list A) (qs : list Qc) : Prop := Forall2 (fun x q => f x = Some (Fin q)) l qs.
  Lemma fold_reads {A} op (g : Qc -> Qc -> Qc) (f : A -> option Num) l qs : reads f l qs -> forall acc,
    (forall a q, In q qs -> op (Fin a) (Fin q) = Fin (g a q)) -> fold_const op f (Fin acc) l = Some (Fin (fold_left g qs acc)).
  Proof.
    intros H. induction H as [|x q l qs Hx H IH]; intros acc Hg; [reflexivity|]. cbn [fold_left]. change (fold_const op f (Fin acc) (x :: l)) with (match f x with Some v => fold_const op f (op (Fin acc) v) l | None => None end).
    rewrite Hx, Hg by (left; auto). apply IH. intros a r Hr. apply Hg. right. auto.
  Qed.
  Lemma fold_plus qs : forall a, fold_left Qcplus qs a = (a + qsum qs)%Qc.
  Proof. induction qs as [|q qs IH]; intros a; cbn [fold_left qsum fold_right]; [ring|]. rewrite IH. unfold qsum. ring. Qed.
  Lemma fold_minus qs : forall a, fold_left Qcminus qs a = (a - qsum qs)%Qc.
  Proof. induction qs as [|q qs IH]; intros a; cbn [fold_left qsum fold_right]; [ring|]. rewrite IH. unfold qsum. ring. Qed.
  Lemma fold_mult qs : forall a, fold_left Qcmult qs a = (a * qprod qs)%Qc.
  Proof. induction qs as [|q qs IH]; intros a; cbn [fold_left qprod fold_right]; [ring|]. rewrite IH. unfold qprod. ring. Qed.
  Lemma qprod_nz qs : Forall (fun n => n <> 0%Qc) qs -> qprod qs <> 0%Qc.
  Proof. intros H. induction H as [|q qs Hq H IH]; [discriminate|]. cbn. intros Z. apply Qcmult_integral in Z. tauto. Qed.
  Lemma fold_div qs : Forall (fun n => n <> 0%Qc) qs -> forall a, fold_left Qcdiv qs a = (a / qprod qs)%Qc.
  Proof.
    intros H. induction H as [|q qs Hq H IH]; intros a; cbn [fold_left qprod fold_right]; [field; discriminate|].
    rewrite IH. pose proof (qprod_nz _ H). unfold qprod in *. field. auto.
  Qed.
  Lemma asnum_worth e q : worth e q -> asnum mb e = Some (Fin q).
  Proof.
    intros H. revert e q H. apply (worth_i (fun e q _ => asnum mb e = Some (Fin q)) (fun t q _ => asterm t = Some (Fin q))
      (fun l qs _ => reads asterm l qs) (fun l qs _ => reads (asnum mb) l qs)); intros; try (constructor; auto; fail); auto.
    - change (asnum mb (EPM c pos neg)) with (match fold_const nadd asterm (Fin c) pos with Some v => fold_const nsub asterm v neg | None => None end).
      rewrite (fold_reads nadd Qcplus _ _ _ H) by reflexivity. rewrite (fold_reads nsub Qcminus _ _ _ H0) by reflexivity. rewrite fold_minus, fold_plus. reflexivity.
    - cbn [asterm]. rewrite (fold_reads nmul Qcmult _ _ _ H) by reflexivity. rewrite (fold_reads ndiv Qcdiv _ _ _ H0).
      + rewrite fold_div, fold_mult by auto. reflexivity.
      + intros x y Hy. rewrite Forall_forall in f. apply ndiv_fin. auto.
  Qed.
  (** The comparison of a quantity with such an expression is the comparison with what it is worth, so
      all of C38 applies to it. *)
  Theorem C38_threshold_expressions x e q : asconst mb x = None -> worth e q -> let v := KS (SNum (Fin q)) in
    compares (asconst mb) (ERel CLt x e) x SLt v /\ compares (asconst mb) (ERel CLe x e) x SLe v /\
    compares (asconst mb) (ERel CLt e x) x SGt v /\ compares (asconst mb) (ERel CLe e x) x SGe v /\
    compares (asconst mb) (ERel CEq x e) x SEq v /\ compares (asconst mb) (ERel CNe x e) x SNe v.
  Proof.
    intros Hx He v. assert (E : asconst mb e = Some (KS (SNum (Fin q)))).
    { pose proof (asnum_worth e q He) as E. inversion He; subst; cbn [asconst]; try rewrite E; reflexivity. }
    repeat split; constructor; auto.
  Qed.
End Worth.
Print Assumptions C38_threshold_expressions.
(** x < (3 - 2 * 1/2) / 2 is x < 1. *)
Definition th_half : expr := ETD (T 1%Qc [EConst (KS (SNum (nz 1)))] [EConst (KS (SNum (nz 2)))]).
Definition th_one : expr := ETD (T 1%Qc [EPM (qz 3) [] [T (qz 2) [th_half] []]] [EConst (KS (SNum (nz 2)))]).
Example C38_threshold_example : asconst se_mb (EName "x") = None /\ worth se_mb th_one (qz 1) /\
  exists g, hist_select se_mb EName se_tol (view pr_flat) (ERel CLt (EName "x") th_one) = Ok g /\ p_content g = PArr [1; 2; 1] [nz 1; nz 2].
Proof.
  split; [reflexivity|]. assert (Hn : forall z, worth se_mb (EConst (KS (SNum (nz z)))) (qz z)) by (intros z; apply W_num).
  assert (Hne : qz 2 <> 0%Qc) by discriminate.
  assert (Hh : worth se_mb th_half (1 * qprod [qz 1] / qprod [qz 2])%Qc) by (apply W_term, W_prod; repeat constructor; auto).
  split.
  - replace (qz 1) with (1 * qprod [qz 3 + qsum [] - qsum [qz 2 * qprod [1 * qprod [qz 1] / qprod [qz 2]] / qprod []]] / qprod [qz 2])%Qc by (apply Qc_is_canon; vm_compute; reflexivity).
    apply W_term, W_prod; [|repeat constructor; auto|repeat constructor; auto].
    apply W_all; [|constructor]. apply W_sum; [constructor|]. apply W_terms; [|constructor]. apply W_prod; [|constructor|constructor]. apply W_all; [exact Hh|constructor].
  - eexists. split; [vm_compute; reflexivity|num_tac].
Qed.
