(** Properties of the instruction schedule: C18, and the field names behind C19. *)
From Coq Require Import String Permutation.
From Verif Require Import Num NumFacts Base Tree Instr InstrSpec InstrProofs.

(** ** C18: whatever the iteration orders, the generated instructions either store exactly the
    values of the computable goals and leave no variable behind, or raise what evaluating one of
    the sub-expressions raises. *)
Theorem C18_schedule_computes_every_goal V constv lib param order goals srcs :
  is_order order -> Permutation srcs (sources goals) ->
  exists is, instructions order srcs goals = Ok is /\
    ((exists ex, run V constv lib param is [] [] = Ok ([], ex) /\ NoDup (map fst ex) /\
        (forall g v, In (g, v) ex <->
                     In g goals /\ data_driven g /\ teval V constv lib param g = Ok v) /\
        (forall g y, In g goals -> subtree y g -> data_driven y ->
                     exists v, teval V constv lib param y = Ok v)) \/
     (exists y g e, In g goals /\ subtree y g /\ data_driven y /\
        teval V constv lib param y = Err e /\ run V constv lib param is [] [] = Err e)).
Proof. exact (c18 V constv lib param order goals srcs). Qed.
Print Assumptions C18_schedule_computes_every_goal.

(** With fields and functions that never raise, no instruction raises: no variable is read before
    it is assigned or after it is deleted, none is deleted twice, and every computable goal is
    stored, once. *)
Theorem C18_no_bad_variable_access V constv lib param order goals srcs :
  is_order order -> Permutation srcs (sources goals) ->
  (forall f vs, exists v, lib f vs = Ok v) -> (forall t, is_field t = true -> exists v, param t = Ok v) ->
  exists is ex, instructions order srcs goals = Ok is /\
    run V constv lib param is [] [] = Ok ([], ex) /\ NoDup (map fst ex) /\
    (forall g, In g (map fst ex) <-> In g goals /\ data_driven g) /\
    (forall g v, In (g, v) ex -> teval V constv lib param g = Ok v).
Proof.
  intros Ho Hp Hl Hq.
  assert (T : forall t, exists v, teval V constv lib param t = Ok v).
  { induction t as [c|s|s b|c|f args IH] using tree_ind'; simpl; eauto.
    rewrite Forall_forall in IH.
    assert (A : exists vs, mapM (teval V constv lib param) args = Ok vs).
    { clear - IH. induction args as [|a args IHa]; [eexists; reflexivity|].
      destruct (IH a) as [v E]; [left; auto|]. destruct IHa as [vs Es]; [intros; apply IH; right; auto|].
      exists (v :: vs). simpl. rewrite E. simpl. rewrite Es. reflexivity. }
    destruct A as [vs A]. pose proof (teval_call V constv lib param f args) as E. simpl in E. rewrite E, A. simpl. apply Hl. }
  destruct (c18 V constv lib param order goals srcs Ho Hp) as (is & E & [(ex & R & N & S & _)|(y & g & e & _ & _ & _ & Ey & _)]).
  - exists is, ex. split; auto. split; auto. split; auto. split.
    + intros g. rewrite in_map_iff. split.
      * intros ((g' & v) & <- & H). apply S in H. simpl. tauto.
      * intros (Hg & Hd). destruct (T g) as [v Ev]. exists (g, v). split; auto. apply S; auto.
    + intros g v H. apply S in H. tauto.
  - destruct (T y) as [v Ev]. congruence.
Qed.
Print Assumptions C18_no_bad_variable_access.

(** The result does not depend on the iteration orders. *)
Theorem C18_order_independent V constv lib param o1 o2 goals s1 s2 is1 is2 e1 e2 t1 t2 :
  is_order o1 -> is_order o2 -> Permutation s1 (sources goals) -> Permutation s2 (sources goals) ->
  instructions o1 s1 goals = Ok is1 -> instructions o2 s2 goals = Ok is2 ->
  run V constv lib param is1 [] [] = Ok (t1, e1) -> run V constv lib param is2 [] [] = Ok (t2, e2) ->
  Permutation e1 e2.
Proof.
  intros O1 O2 P1 P2 I1 I2 R1 R2.
  destruct (c18 V constv lib param o1 goals s1 O1 P1) as (j1 & J1 & [(x1 & X1 & N1 & S1 & _)|(y & g & e & _ & _ & _ & _ & X1)]); [|congruence].
  destruct (c18 V constv lib param o2 goals s2 O2 P2) as (j2 & J2 & [(x2 & X2 & N2 & S2 & _)|(y & g & e & _ & _ & _ & _ & X2)]); [|congruence].
  assert (j1 = is1) by congruence. assert (j2 = is2) by congruence. subst.
  assert (x1 = e1) by congruence. assert (x2 = e2) by congruence. subst.
  apply NoDup_Permutation.
  - eapply NoDup_map_inv; eauto.
  - eapply NoDup_map_inv; eauto.
  - intros (g & v). rewrite S1, S2. tauto.
Qed.
Print Assumptions C18_order_independent.

(** A function call whose arguments are all constants is never computed, although it has a value:
    its destination stays empty (this is how a constant axis breaks a fill, see C10). *)
Theorem C18_constant_calls_are_skipped V constv lib param order goals srcs f cs :
  is_order order -> Permutation srcs (sources goals) ->
  exists is, instructions order srcs goals = Ok is /\
    forall tab ex, run V constv lib param is [] [] = Ok (tab, ex) ->
      forall v, ~ In (TCall f (map TConst cs), v) ex.
Proof.
  intros Ho Hp.
  destruct (c18 V constv lib param order goals srcs Ho Hp) as (is & E & [(ex & R & N & S & _)|(y & g & e & _ & _ & _ & _ & R)]);
    exists is; split; auto; intros tab ex' R'; [|congruence].
  assert (ex' = ex) by congruence. subst. intros v H. apply S in H. destruct H as (_ & D & _).
  inversion D as [| | |f' args (a & Ha & Hc) _]; subst. apply in_map_iff in Ha. destruct Ha as (c & <- & _). discriminate.
Qed.
Print Assumptions C18_constant_calls_are_skipped.

(** A concrete case: two goals sharing a sub-expression, two iteration orders. *)
Definition ex_x := TName "x". Definition ex_y := TName "y".
Definition ex_sum := TCall "numpy.add" [ex_x; ex_y].
Definition ex_goals := [TCall "sin" [ex_sum]; TCall "numpy.multiply" [ex_sum; TConst (KS (SNum (nz 2)))]].
Example ex_is_order : is_order (fun _ l => l) /\ is_order (fun _ l => rev l).
Proof. split; intros t l; [apply Permutation_refl|apply Permutation_sym, Permutation_rev]. Qed.
Example ex_instructions :
  instructions (fun _ l => l) (sources ex_goals) ex_goals =
  Ok [Param 0 ex_x; Param 1 ex_y; Assign 2 (RCall "numpy.add" [RVar 0; RVar 1]); Delete 0; Delete 1;
      Assign 3 (RCall "sin" [RVar 2]); Export 3 (TCall "sin" [ex_sum]); Delete 3;
      Assign 4 (RCall "numpy.multiply" [RVar 2; RConst (KS (SNum (nz 2)))]);
      Export 4 (TCall "numpy.multiply" [ex_sum; TConst (KS (SNum (nz 2)))]); Delete 2; Delete 4].
Proof. vm_compute. reflexivity. Qed.
Example ex_goals_driven : Forall data_driven ex_goals /\ Permutation (rev (sources ex_goals)) (sources ex_goals).
Proof.
  split; [|apply Permutation_sym, Permutation_rev].
  assert (D : data_driven ex_sum).
  { constructor; [exists ex_x; simpl; auto|]. intros a [<-|[<-|[]]] _; constructor. }
  repeat constructor.
  - exists ex_sum. simpl; auto.
  - intros a [<-|[]] _; auto.
  - exists ex_sum. simpl; auto.
  - intros a [<-|[<-|[]]] H; auto. discriminate.
Qed.
