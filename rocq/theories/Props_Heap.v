(** Properties about sharing: C27 (operand), C29, C30 (arithmetic), C31, C34 (no aliasing). *)
From Coq Require Import String.
From Verif Require Import Base Num NumFacts Axis Calc Content Fill FillSpec FillProofs FillMain HistFill HistFillProofs HistAlg AlgSpec HistAlgProofs HistAlgMain Props_Alg
  Nd Order Tree Expr Proj Select Rebin SelMain Heap HeapSpec HeapProofs HeapAdd HeapMain HeapMain2 HeapDerive HeapDeriveProofs.
Local Open Scope string_scope.
Local Open Scope list_scope.

(** ** Concrete histograms and fills *)
Definition heap_h : hobj := alg_3.                       (* groupby, one bin axis, weighted, unfilled *)
Definition heap_u : hobj := alg_u None CNone.            (* not grouped, no weight, unfilled *)
Example heap_fresh : Forall fresh_hist [heap_h; heap_h; heap_u].
Proof. repeat constructor; discriminate. Qed.
(** two rows in bin 0 and 1 without weights; one row in bin 0 of group [k] with weight 3 *)
Definition fill_u : filler := fun c =>
  let L := o_layout heap_u in
  postfill L 2 {| d_group := []; d_fixed := [Some [Some 0%Z; Some 1%Z]]; d_prof := []; d_weight := WNone |} (prefill L 0 c).
Definition fill_g (k : string) : filler := fun c =>
  let L := o_layout heap_h in
  postfill L 1 {| d_group := [([GStr k], [0%Z])]; d_fixed := [Some [Some 0%Z]]; d_prof := []; d_weight := WCol [nz 3] [nz 9] |} (prefill L 1 c).
Lemma fill_u_filler : is_filler 0 fill_u.
Proof.
  intros c D. unfold fill_u. destruct (prefill_ext (o_layout heap_u) 0 c D) as (E1 & D1).
  match goal with |- context [postfill ?L ?n ?d ?c] => destruct (postfill_ext L n d 0 c (le_n _) D1) as (E2 & D2) end.
  split; auto. eapply extends_trans; eauto.
Qed.
Lemma fill_g_filler k : is_filler 1 (fill_g k).
Proof.
  intros c D. unfold fill_g. destruct (prefill_ext (o_layout heap_h) 1 c D) as (E1 & D1).
  match goal with |- context [postfill ?L ?n ?d ?c] => destruct (postfill_ext L n d 1 c (le_n _) D1) as (E2 & D2) end.
  split; auto. eapply extends_trans; eauto.
Qed.
(** The fills of the model are fills in this sense. *)
Theorem C29_fills cast rnd user order srcs h A : is_filler (length (h_group h)) (hist_fill cast rnd user order srcs h A).
Proof. apply hist_fill_filler. Qed.

(** ** C29 *)
(** Programs that use copy(), cleared(), group, *, + of histograms with the same groups, and any
    fill, +=, *=, clear, behave as if every histogram were a value of its own: same values, same
    errors. *)
Theorem C29_values hs os : Forall fresh_hist hs -> separate_run hs os ->
  values (fst (run (fresh_state hs) os)) = fst (value_run hs os) /\ snd (run (fresh_state hs) os) = snd (value_run hs os).
Proof.
  intros F S. destruct (apart_run os _ _ (apart_fresh hs F) S) as (E & A). split; auto. apply apart_values. auto.
Qed.
(** With copyonfill() and + of different groups: the same as long as no operation changes an array
    that another histogram shares. *)
Theorem C29_allowed hs os : Forall fresh_hist hs -> allowed_run hs (fresh_ghost hs) os ->
  values (fst (run (fresh_state hs) os)) = fst (value_run hs os) /\ snd (run (fresh_state hs) os) = snd (value_run hs os).
Proof. intros F A. destruct (inv_run os _ _ _ (inv_fresh_state hs F) A). auto. Qed.

(** Whatever happens to the others: a histogram that no operation is called on stays as it is. *)
Theorem C29_isolated hs pre post k h : Forall fresh_hist hs -> separate_run hs (pre ++ post) ->
  value_of (fst (run (fresh_state hs) pre)) k = Some h -> leaves k post ->
  value_of (fst (run (fresh_state hs) (pre ++ post))) k = Some h.
Proof.
  intros F S E L. unfold value_of in *. destruct (C29_values hs (pre ++ post) F S) as (-> & _).
  apply separate_app in S. destruct S as (S1 & S2). destruct (C29_values hs pre F S1) as (Ev & _). rewrite Ev in E.
  rewrite value_run_app. destruct (value_run hs pre) as [v1 e1]. cbn [fst] in *. assert (K := value_run_keeps post v1 k h L E).
  destruct (value_run v1 post). auto.
Qed.
(** c = h.copy(): c has the value of h, and from then on operations on one do not change the other. *)
Theorem C29_copy hs pre i h post : Forall fresh_hist hs -> separate_run hs (pre ++ [OCopy i] ++ post) ->
  value_of (fst (run (fresh_state hs) pre)) i = Some h ->
  let c := length (values (fst (run (fresh_state hs) pre))) in
  let s := fst (run (fresh_state hs) (pre ++ [OCopy i])) in
  let t := fst (run (fresh_state hs) (pre ++ [OCopy i] ++ post)) in
  (value_of s i = Some h /\ value_of s c = Some h) /\
  (leaves i post -> value_of t i = Some h) /\ (leaves c post -> value_of t c = Some h).
Proof.
  intros F S E c s t.
  assert (B : value_of s i = Some h /\ value_of s c = Some h).
  { unfold s, c, value_of in *. rewrite app_assoc in S. apply separate_app in S. destruct S as (S & _). assert (S' := S). apply separate_app in S'. destruct S' as (S1 & _).
    destruct (C29_values hs _ F S) as (-> & _). destruct (C29_values hs _ F S1) as (E1 & _). rewrite E1 in *. rewrite value_run_app.
    destruct (value_run hs pre) as [v1 e1]. cbn [fst] in *. cbn [value_run value_step]. unfold get_var. rewrite E. cbn [rmap new fst].
    assert (HC : hist_copy h = h) by (unfold hist_copy; rewrite copycontent_id; destruct h; auto). rewrite HC.
    split; [apply nth_app_some; auto|]. rewrite nth_app, Nat.eqb_refl. auto. }
  split; auto. destruct B as (B1 & B2). unfold t. rewrite app_assoc in *.
  split; intros L; apply C29_isolated; auto.
Qed.
(** c = h.copyonfill(); c.fill(...): afterwards everything is as with separate values; in particular
    this first fill did not change h, nor do later operations on c. *)
Lemma set_nth_last {A} (l : list A) x y : set_nth (l ++ [y]) (length l) x = l ++ [x].
Proof. unfold set_nth. induction l as [|a l IH]; cbn [length app upd]; auto. rewrite IH. auto. Qed.
Lemma apart_copyonfill s vals i h f : apart s vals -> nth_error vals i = Some h -> is_filler (ngroups h) f ->
  let os := [OCopyOnFill i; OFill (length vals) f] in
  snd (run s os) = snd (value_run vals os) /\ apart (fst (run s os)) (fst (value_run vals os)).
Proof.
  intros (g & I & D) E Fi os. unfold os. clear os.
  destruct (inv_step s vals g (OCopyOnFill i) I Logic.I) as (E1 & I1).
  cbn [run value_run]. destruct (step s (OCopyOnFill i)) as [s1 e1]. cbn [fst snd] in *.
  cbn [value_step ghost_step] in *. unfold get_var in *. rewrite E in *. cbn [rmap new fst snd] in *. subst e1.
  set (v1 := vals ++ [hist_copy h]) in *. set (g1 := {| g_flags := g_flags g ++ [true]; g_classes := g_classes g ++ [nth i (g_classes g) None] |}) in *.
  assert (N1 : nth_error v1 (length vals) = Some (hist_copy h)) by (unfold v1; rewrite nth_app, Nat.eqb_refl; auto).
  assert (LF : length (g_flags g) = length vals).
  { rewrite <- (inv_flags _ _ _ I), <- (inv_vals _ _ _ I). unfold values. rewrite !map_length. auto. }
  destruct (inv_step s1 v1 g1 (OFill (length vals) f) I1) as (E2 & I2).
  { cbn [allowed]. rewrite N1. split; auto. left. unfold g1. cbn [g_flags]. rewrite <- LF. rewrite nth_app, Nat.eqb_refl. auto. }
  destruct (step s1 (OFill (length vals) f)) as [s2 e2]. destruct (value_step v1 (OFill (length vals) f)) as [v2 e2'] eqn:V2. cbn [fst snd] in *. subst e2'.
  assert (V2' := V2). cbn [value_step] in V2'. rewrite V2'. cbn [fst snd].
  split; auto. eexists. split; [exact I2|]. destruct D as (L & N & NN).
  assert (L2 : length v2 = length v1).
  { assert (Q : v2 = fst (value_step v1 (OFill (length vals) f))) by (rewrite V2; auto). rewrite Q. cbn [value_step]. apply on_length. }
  cbn [ghost_step]. unfold g1. cbn [g_classes g_flags].
  assert (SN : set_nth (g_classes g ++ [nth i (g_classes g) None]) (length vals) (Some (no_class (g_classes g ++ [nth i (g_classes g) None]))) =
               g_classes g ++ [Some (no_class (g_classes g ++ [nth i (g_classes g) None]))]).
  { rewrite <- L. apply set_nth_last. }
  rewrite SN. split; cbn [g_classes].
  - rewrite app_length, L2. unfold v1. rewrite app_length. cbn [length]. lia.
  - assert (NI : ~ In (Some (no_class (g_classes g ++ [nth i (g_classes g) None]))) (g_classes g)).
    { intros H. apply (fresh_not_in (g_classes g ++ [nth i (g_classes g) None])). apply in_or_app. left. auto. }
    split.
    + revert NI. generalize (Some (no_class (g_classes g ++ [nth i (g_classes g) None]))). clear - N. intros x NI.
      induction N as [|a l Ha N IH]; cbn [app]; constructor; auto; [constructor| |].
      * rewrite in_app_iff. cbn [In]. intros [H|[H|[]]]; auto. apply NI. left. auto.
      * apply IH. intros H. apply NI. right. auto.
    + rewrite in_app_iff. cbn [In]. intros [H|[H|[]]]; auto. discriminate.
Qed.
Theorem C29_copyonfill hs pre i h f post : Forall fresh_hist hs -> separate_run hs pre ->
  value_of (fst (run (fresh_state hs) pre)) i = Some h -> is_filler (ngroups h) f ->
  let c := length (values (fst (run (fresh_state hs) pre))) in
  let os := pre ++ [OCopyOnFill i; OFill c f] in
  separate_run (fst (value_run hs os)) post ->
  let s := fst (run (fresh_state hs) os) in
  let t := fst (run (fresh_state hs) (os ++ post)) in
  value_of s i = Some h /\ value_of s c = Some (with_content h (fst (f (o_content h)))) /\
  values t = fst (value_run hs (os ++ post)) /\
  (leaves i post -> value_of t i = value_of s i) /\ (leaves c post -> value_of t c = value_of s c).
Proof.
  intros F S E Fi c. destruct (apart_run pre _ _ (apart_fresh hs F) S) as (_ & A1).
  assert (V1 := apart_values _ _ A1). unfold value_of in E. rewrite V1 in E.
  assert (Ec : c = length (fst (value_run hs pre))) by (unfold c; rewrite V1; auto). clearbody c. subst c. intros os SP s t. unfold value_of. set (v1 := fst (value_run hs pre)) in *.
  destruct (apart_copyonfill _ v1 i h f A1 E Fi) as (_ & A2).
  assert (ES : s = fst (run (fst (run (fresh_state hs) pre)) [OCopyOnFill i; OFill (length v1) f])).
  { unfold s, os. rewrite run_app. destruct (run (fresh_state hs) pre). cbn [fst]. destruct (run s0 [OCopyOnFill i; OFill (length v1) f]). auto. }
  assert (EV : fst (value_run hs os) = fst (value_run v1 [OCopyOnFill i; OFill (length v1) f])).
  { unfold os, v1. rewrite value_run_app. destruct (value_run hs pre) as [q e]. cbn [fst]. destruct (value_run q [OCopyOnFill i; OFill (length q) f]). auto. }
  rewrite <- ES, <- EV in A2. destruct (apart_run post _ _ A2 SP) as (_ & A3).
  assert (ET : t = fst (run s post)).
  { unfold t, s. rewrite run_app. destruct (run (fresh_state hs) os). cbn [fst]. destruct (run s0 post). auto. }
  assert (EV3 : fst (value_run hs (os ++ post)) = fst (value_run (fst (value_run hs os)) post)).
  { rewrite value_run_app. destruct (value_run hs os). cbn [fst]. destruct (value_run l post). auto. }
  rewrite <- ET in A3. rewrite <- EV3 in A3. assert (V2 := apart_values _ _ A2). assert (V3 := apart_values _ _ A3).
  assert (Ni : i <> length v1).
  { intros ->. assert (nth_error v1 (length v1) = None) by (apply nth_error_None; auto). congruence. }
  assert (HC : hist_copy h = h) by (unfold hist_copy; rewrite copycontent_id; destruct h; auto).
  assert (FIN : fst (value_run hs os) = set_nth (v1 ++ [h]) (length v1) (with_content h (fst (f (o_content h))))).
  { rewrite EV. cbn [value_run value_step]. unfold get_var, on. rewrite E. cbn [rmap new fst]. rewrite HC. rewrite nth_app, Nat.eqb_refl.
    destruct (f (o_content h)). auto. }
  assert (I1 : nth_error (fst (value_run hs os)) i = Some h).
  { rewrite FIN, nth_set_other by auto. apply nth_app_some. auto. }
  assert (I2 : nth_error (fst (value_run hs os)) (length v1) = Some (with_content h (fst (f (o_content h))))).
  { rewrite FIN. eapply nth_set_same. rewrite nth_app, Nat.eqb_refl. reflexivity. }
  rewrite V2, V3, EV3. split; auto. split; auto. split; auto. rewrite I1, I2. split; intros L; apply value_run_keeps; auto.
Qed.
(** What copyonfill() does not protect from: c *= 2 before the first fill of c changes h, and a fill
    of h shows up in c. *)
Theorem C29_copyonfill_imul_refuted : exists hs os i h h',
  Forall fresh_hist hs /\ value_of (fst (run (fresh_state hs) os)) i = Some h /\
  value_of (fst (run (fresh_state hs) (os ++ [OCopyOnFill i; OIMul 1 (nz 2)]))) i = Some h' /\
  o_content h = arr [1; 1]%Z /\ o_content h' = arr [2; 2]%Z.
Proof.
  exists [heap_u], [OFill 0 fill_u], 0. eexists. eexists. split; [repeat constructor; discriminate|].
  split; [vm_compute; reflexivity|]. split; [vm_compute; reflexivity|].
  split; unfold arr; cbn [o_content]; repeat f_equal; apply Qc_is_canon; reflexivity.
Qed.
Theorem C29_copyonfill_original_refuted : exists hs os i f h h',
  Forall fresh_hist hs /\ is_filler 0 f /\
  value_of (fst (run (fresh_state hs) (os ++ [OCopyOnFill i]))) 1 = Some h /\
  value_of (fst (run (fresh_state hs) (os ++ [OCopyOnFill i; OFill i f]))) 1 = Some h' /\
  o_content h = arr [1; 1]%Z /\ o_content h' = arr [2; 2]%Z.
Proof.
  exists [heap_u], [OFill 0 fill_u], 0, fill_u. eexists. eexists. split; [repeat constructor; discriminate|]. split; [apply fill_u_filler|].
  split; [vm_compute; reflexivity|]. split; [vm_compute; reflexivity|].
  split; unfold arr; cbn [o_content]; repeat f_equal; apply Qc_is_canon; reflexivity.
Qed.
(** A program that meets the hypotheses of the theorems above. *)
Definition heap_prog : list op :=
  [OFill 0 (fill_g "a"); OCopy 0; OFill 0 (fill_g "b"); OIMul 3 (nz 5); OIAdd 1 0; OClear 0; OFill 2 fill_u; OMul 2 (nz 2)].
Example C29_example : separate_run [heap_h; heap_h; heap_u] heap_prog /\
  Forall (fun e => e = None) (snd (run (fresh_state [heap_h; heap_h; heap_u]) heap_prog)) /\
  map o_content (values (fst (run (fresh_state [heap_h; heap_h; heap_u]) heap_prog))) =
  [CNone; CDict [(GStr "a", arr [3; 9; 0; 0]%Z); (GStr "b", arr [3; 9; 0; 0]%Z)]; arr [1; 1]%Z;
   CDict [(GStr "a", arr [15; 45; 0; 0]%Z)]; arr [2; 2]%Z].
Proof.
  split; [|split].
  - repeat (split; [first [apply fill_g_filler|apply fill_u_filler|exact I]|]). exact I.
  - vm_compute. repeat constructor.
  - vm_compute. repeat f_equal; apply Qc_is_canon; reflexivity.
Qed.

(** ** C27: h += g and h *= v change no other histogram, in particular not g *)
Theorem C27_others hs pre i j v k h : Forall fresh_hist hs -> separate_run hs pre -> k <> i ->
  value_of (fst (run (fresh_state hs) pre)) k = Some h ->
  value_of (fst (run (fresh_state hs) (pre ++ [OIAdd i j]))) k = Some h /\
  value_of (fst (run (fresh_state hs) (pre ++ [OIMul i v]))) k = Some h.
Proof.
  intros F S N E. split; apply C29_isolated; auto; try (apply separate_app; repeat split; auto); repeat constructor; cbn [target]; congruence.
Qed.

(** ** C30: contents.  The derivations are +, *, copy, copyonfill, cleared, group, project, drop, rebin and
    select; for the axis objects see Props_Shared.v. *)
(** Deriving histograms, at any point and from any histograms, originals or derived ones, leaves the
    originals as if it had not been done: their values after fills, +=, *= and clear on them are those
    of the program without the derivations. *)
Theorem C30_contents hs pre os : Forall fresh_hist hs -> separate_run hs pre ->
  let vals := values (fst (run (fresh_state hs) pre)) in
  derivations vals os ->
  firstn (length vals) (values (fst (run (fresh_state hs) (pre ++ os)))) =
  fst (value_run vals (filter (fun o => negb (creates o)) os)).
Proof.
  intros F S vals D. destruct (apart_run pre _ _ (apart_fresh hs F) S) as (_ & A). unfold vals in *. rewrite (apart_values _ _ A) in *.
  assert (O : originals (fst (run (fresh_state hs) pre)) (fst (value_run hs pre))).
  { exists (s_vars (fst (run (fresh_state hs) pre))), []. rewrite app_nil_r. split; auto. rewrite state_eta. auto. }
  assert (R := originals_run os _ _ O D).
  assert (E : fst (run (fresh_state hs) (pre ++ os)) = fst (run (fst (run (fresh_state hs) pre)) os)).
  { rewrite run_app. destruct (run (fresh_state hs) pre). cbn [fst]. destruct (run s os). auto. }
  rewrite E.
  assert (LN : forall l vals, length (fst (value_run vals (filter (fun o => negb (creates o)) l))) = length vals).
  { clear. induction l as [|o l IH]; intros vals; cbn [filter value_run]; auto. destruct (creates o) eqn:C; cbn [negb]; auto. cbn [value_run].
    assert (Q : length (fst (value_step vals o)) = length vals).
    { destruct o; try discriminate C; cbn [value_step]; try apply on_length. destruct (get_var vals j); auto. apply on_length. }
    destruct (value_step vals o) as [v1 e]. cbn [fst] in Q. specialize (IH v1). destruct (value_run v1 _). cbn [fst] in *. lia. }
  rewrite <- (LN os (fst (value_run hs pre))). apply originals_values. auto.
Qed.
Example C30_example : derivations [heap_h; heap_h]
  [OFill 0 (fill_g "a"); OFill 1 (fill_g "b"); OAdd 0 1; OFill 0 (fill_g "c"); OMul 2 (nz 2); OCopyOnFill 2; OIAdd 1 0].
Proof.
  cbn [derivations].
  right. split; [exists heap_h; split; [reflexivity|apply fill_g_filler]|].
  right. split; [exists heap_h; split; [reflexivity|apply fill_g_filler]|].
  left. split; [reflexivity|].
  right. split; [eexists; split; [reflexivity|apply fill_g_filler]|].
  left. split; [reflexivity|]. left. split; [reflexivity|].
  right. split; [|exact I]. split; cbn; lia.
Qed.
(** But the sum is not a histogram of its own when a group is in only one of the operands: filling
    it changes that operand. *)
Theorem C30_sum_shares_refuted : exists hs pre post i h h',
  Forall fresh_hist hs /\ separate_run hs pre /\ leaves i post /\
  value_of (fst (run (fresh_state hs) (pre ++ [OAdd 0 1]))) i = Some h /\
  value_of (fst (run (fresh_state hs) (pre ++ [OAdd 0 1] ++ post))) i = Some h' /\
  o_content h = CDict [(GStr "b", arr [3; 9; 0; 0]%Z)] /\ o_content h' = CDict [(GStr "b", arr [6; 18; 0; 0]%Z)].
Proof.
  exists [heap_h; heap_h], [OFill 0 (fill_g "a"); OFill 1 (fill_g "b")], [OFill 2 (fill_g "b")], 1. eexists. eexists.
  split; [repeat constructor; discriminate|]. split; [split; [apply fill_g_filler|split; [apply fill_g_filler|exact I]]|]. split; [repeat constructor; cbn; congruence|].
  split; [vm_compute; reflexivity|]. split; [vm_compute; reflexivity|].
  split; unfold arr; cbn [o_content]; repeat f_equal; apply Qc_is_canon; reflexivity.
Qed.

(** project, drop, rebin and select on a fixed axis make a histogram of its own: it has the value that the
    method gives for the value of h, and from then on operations on one do not change the other.  If the
    method fails, nothing changes. *)
Inductive derives : (hobj -> res hobj) -> Prop :=
| by_project axes : derives (project_value axes)
| by_drop profile : derives (drop_value profile)
| by_rebin parse arg edges : derives (rebin_value parse arg edges)
| by_select q a s dropnull : derives (select_value q a s dropnull).
Lemma derives_deriver f : derives f -> is_deriver f.
Proof. intros [axes|profile|parse arg edges|q a s dn]; [apply project_deriver|apply drop_deriver|apply rebin_deriver|apply select_deriver]. Qed.
Theorem C30_derived hs pre i h f post : Forall fresh_hist hs -> separate_run hs pre -> derives f ->
  separate_run (fst (value_run hs (pre ++ [ODerive i f]))) post ->
  value_of (fst (run (fresh_state hs) pre)) i = Some h ->
  let c := length (values (fst (run (fresh_state hs) pre))) in
  let s := fst (run (fresh_state hs) (pre ++ [ODerive i f])) in
  let t := fst (run (fresh_state hs) (pre ++ [ODerive i f] ++ post)) in
  match f h with
  | Ok g => (value_of s i = Some h /\ value_of s c = Some g) /\
            (leaves i post -> value_of t i = Some h) /\ (leaves c post -> value_of t c = Some g)
  | Err e => values s = values (fst (run (fresh_state hs) pre)) /\
             snd (run (fresh_state hs) (pre ++ [ODerive i f])) = snd (run (fresh_state hs) pre) ++ [Some e]
  end.
Proof.
  intros F S1 Df S2 E c s t.
  assert (S12 : separate_run hs (pre ++ [ODerive i f])) by (apply separate_app; split; auto; cbn [separate_run separate]; split; auto; apply derives_deriver; auto).
  assert (S : separate_run hs (pre ++ [ODerive i f] ++ post)) by (rewrite app_assoc; apply separate_app; auto).
  destruct (C29_values hs _ F S1) as (V1 & R1). destruct (C29_values hs _ F S12) as (V2 & R2).
  assert (E' := E). unfold value_of in E'. rewrite V1 in E'. rewrite value_run_app in V2, R2. destruct (value_run hs pre) as [v1 e1] eqn:VR. cbn [fst snd] in *.
  cbn [value_run value_step] in V2, R2. unfold get_var in V2, R2. rewrite E' in V2, R2. cbn [bind] in V2, R2. destruct (f h) as [g|e] eqn:Ef; cbn [new fst snd] in V2, R2.
  - assert (B : value_of s i = Some h /\ value_of s c = Some g).
    { unfold s, c, value_of. rewrite V1, V2. split; [apply nth_app_some; auto|]. rewrite nth_app, Nat.eqb_refl. auto. }
    split; auto. destruct B as (B1 & B2). unfold t. rewrite app_assoc in *. split; intros L; apply C29_isolated; auto.
  - unfold s. rewrite V1, V2, R1, R2. auto.
Qed.
(** Select on a group axis: the new histogram has the chosen groups (so says the model of the method), *)
Theorem C30_select_groups p a b h g : hobj_ok h -> no_null h -> nth_error (o_group h) p = Some a ->
  select_axis (Proj.view h) p a (CutKeys b) true = Ok g -> g = Proj.view (with_content h (keep_groups p (says b) (o_content h))).
Proof. rewrite keep_groups_is. apply select_groups. Qed.
(** but shares their arrays with h: filling the selection changes h, and filling h changes the selection. *)
Theorem C30_select_group_shares_refuted : exists hs pre b,
  Forall fresh_hist hs /\ separate_run hs pre /\
  map o_content (values (fst (run (fresh_state hs) (pre ++ [OSelGroup 0 0 b])))) =
    [CDict [(GStr "a", arr [3; 9; 0; 0]%Z); (GStr "b", arr [3; 9; 0; 0]%Z)]; CDict [(GStr "b", arr [3; 9; 0; 0]%Z)]] /\
  map o_content (values (fst (run (fresh_state hs) (pre ++ [OSelGroup 0 0 b; OFill 1 (fill_g "b")])))) =
    [CDict [(GStr "a", arr [3; 9; 0; 0]%Z); (GStr "b", arr [6; 18; 0; 0]%Z)]; CDict [(GStr "b", arr [6; 18; 0; 0]%Z)]] /\
  map o_content (values (fst (run (fresh_state hs) (pre ++ [OSelGroup 0 0 b; OFill 0 (fill_g "b")])))) =
    [CDict [(GStr "a", arr [3; 9; 0; 0]%Z); (GStr "b", arr [6; 18; 0; 0]%Z)]; CDict [(GStr "b", arr [6; 18; 0; 0]%Z)]].
Proof.
  exists [heap_h], [OFill 0 (fill_g "a"); OFill 0 (fill_g "b")], (fun k => gkey_eqb k (GStr "b")).
  split; [repeat constructor; discriminate|]. split; [split; [apply fill_g_filler|split; [apply fill_g_filler|exact I]]|].
  split; [|split]; vm_compute; repeat f_equal; apply Qc_is_canon; reflexivity.
Qed.
(** table, fraction and the plots give an unfilled histogram its zeros (or its empty dict of groups) and leave
    any other content; no later fill can tell. *)
Theorem C30_prefill cast rnd user order srcs h A c :
  hist_fill cast rnd user order srcs h A (prefill (hist_layout h) (length (h_group h)) c) = hist_fill cast rnd user order srcs h A c.
Proof.
  unfold hist_fill. replace (prefill (hist_layout h) (length (h_group h)) (prefill (hist_layout h) (length (h_group h)) c)) with (prefill (hist_layout h) (length (h_group h)) c); auto.
  destruct c; cbn [prefill]; auto. destruct (Nat.eqb _ 0); auto.
Qed.
Example C30_derived_example :
  exists f, derives f /\ separate_run [heap_h] [OFill 0 (fill_g "a"); OFill 0 (fill_g "b"); ODerive 0 f; OFill 0 (fill_g "a"); OIMul 1 (nz 5)] /\
  map o_content (values (fst (run (fresh_state [heap_h]) [OFill 0 (fill_g "a"); OFill 0 (fill_g "b"); ODerive 0 f; OFill 0 (fill_g "a"); OIMul 1 (nz 5)]))) =
    [CDict [(GStr "a", arr [6; 18; 0; 0]%Z); (GStr "b", arr [3; 9; 0; 0]%Z)]; arr [30; 90; 0; 0]%Z].
Proof.
  exists (project_value (o_fixed heap_h)). split; [constructor|]. split.
  - repeat (split; [first [apply fill_g_filler|exact I|apply derives_deriver; constructor]|]). exact I.
  - vm_compute. repeat f_equal; apply Qc_is_canon; reflexivity.
Qed.

(** ** C31 *)
(** After any program that changed no shared array, h.clear() and then fills give the values, and the
    errors, of a newly constructed histogram with the same fills. *)
Definition fills (i : nat) (fs : list filler) : list op := map (OFill i) fs.
Lemma fills_value fs : forall vals i h, nth_error vals i = Some h ->
  snd (value_run vals (fills i fs)) = snd (value_run [h] (fills 0 fs)) /\
  nth_error (fst (value_run vals (fills i fs))) i = nth_error (fst (value_run [h] (fills 0 fs))) 0.
Proof.
  induction fs as [|f fs IH]; intros vals i h E; cbn [fills map value_run]; [auto|]. fold (fills i fs). fold (fills 0 fs).
  cbn [value_step]. unfold on. rewrite E. cbn [nth_error]. destruct (f (o_content h)) as [c e]. change (set_nth [h] 0 (with_content h c)) with [with_content h c].
  destruct (IH (set_nth vals i (with_content h c)) i (with_content h c)) as (E1 & E2); [eapply nth_set_same; eauto|].
  destruct (value_run (set_nth vals i (with_content h c)) (fills i fs)). destruct (value_run [with_content h c] (fills 0 fs)). cbn [fst snd] in *.
  split; [congruence|exact E2].
Qed.
Lemma fills_allowed fs : forall vals g i, (forall h, nth_error vals i = Some h -> Forall (is_filler (ngroups h)) fs) ->
  (i < length vals -> alone g i) -> length (g_classes g) = length vals -> allowed_run vals g (fills i fs).
Proof.
  induction fs as [|f fs IH]; intros vals g i Fi Al Lc; cbn [fills map allowed_run]; auto. fold (fills i fs). split.
  - cbn [allowed]. destruct (nth_error vals i) as [h|] eqn:E; auto. specialize (Fi h eq_refl). inversion Fi; subst. split; auto. right. right. apply Al.
    apply nth_error_Some. congruence.
  - apply IH.
    + intros h. cbn [value_step]. unfold on. destruct (nth_error vals i) as [h0|] eqn:E.
      * destruct (f (o_content h0)) as [c e]. cbn [fst]. intros E'. rewrite (nth_set_same _ _ _ _ E) in E'. injection E' as <-.
        specialize (Fi h0 eq_refl). inversion Fi; subst. auto.
      * cbn [fst]. congruence.
    + cbn [value_step]. rewrite on_length. intros L. cbn [ghost_step]. exists (no_class (g_classes g)). cbn [g_classes].
      assert (Q : exists c, nth_error (g_classes g) i = Some c) by (destruct (nth_error (g_classes g) i) eqn:Q; eauto; apply nth_error_None in Q; lia).
      destruct Q as (c & Q). split; [eapply nth_set_same; eauto|]. intros j Nj. rewrite nth_set_other by auto. apply no_class_fresh.
    + cbn [value_step ghost_step g_classes]. rewrite set_nth_length, on_length. auto.
Qed.
Lemma ghost_length os : forall s vals g, Inv s vals g -> allowed_run vals g os ->
  exists g', Inv (fst (run s os)) (fst (value_run vals os)) g' /\
    (forall os', allowed_run vals g (os ++ os') <-> allowed_run (fst (value_run vals os)) g' os').
Proof.
  induction os as [|o os IH]; intros s vals g I A; cbn [run value_run].
  - exists g. split; auto. intros. reflexivity.
  - destruct A as (A1 & A2). destruct (inv_step s vals g o I A1) as (_ & I').
    cbn [app allowed_run]. destruct (step s o) as [s1 e]. destruct (value_step vals o) as [v1 e']. cbn [fst snd] in *.
    destruct (IH s1 v1 _ I' A2) as (g' & Ig & Q). exists g'. destruct (run s1 os). destruct (value_run v1 os). cbn [fst] in *. split; auto.
    intros os'. rewrite <- Q. tauto.
Qed.
Theorem C31_clear hs pre i h fs : Forall fresh_hist hs -> allowed_run hs (fresh_ghost hs) pre ->
  value_of (fst (run (fresh_state hs) pre)) i = Some h -> Forall (is_filler (ngroups h)) fs ->
  value_of (fst (run (fresh_state hs) (pre ++ [OClear i] ++ fills i fs))) i =
  value_of (fst (run (fresh_state [with_content h CNone]) (fills 0 fs))) 0 /\
  snd (run (fresh_state hs) (pre ++ [OClear i] ++ fills i fs)) =
  snd (run (fresh_state hs) (pre ++ [OClear i])) ++ snd (run (fresh_state [with_content h CNone]) (fills 0 fs)).
Proof.
  intros F A E Fi. destruct (ghost_length pre _ _ _ (inv_fresh_state hs F) A) as (g & I & AR).
  unfold value_of in E. rewrite (inv_vals _ _ _ I) in E. set (v1 := fst (value_run hs pre)) in *.
  assert (Lt : i < length v1) by (apply nth_error_Some; congruence).
  assert (LC : length (g_classes g) = length v1).
  { rewrite (inv_len _ _ _ I), <- (inv_vals _ _ _ I). unfold values. rewrite map_length. auto. }
  assert (V2 : fst (value_step v1 (OClear i)) = set_nth v1 i (with_content h CNone)) by (cbn [value_step]; unfold on; rewrite E; auto).
  assert (E2 : nth_error (set_nth v1 i (with_content h CNone)) i = Some (with_content h CNone)) by (eapply nth_set_same; eauto).
  assert (AL : allowed_run v1 g ([OClear i] ++ fills i fs)).
  { cbn [app allowed_run]. split; [exact Logic.I|]. rewrite V2. apply fills_allowed.
    - rewrite E2. intros h' Q. injection Q as <-. auto.
    - intros _. exists (no_class (g_classes g)). cbn [ghost_step g_classes].
      destruct (nth_error (g_classes g) i) as [c|] eqn:Q; [|apply nth_error_None in Q; lia].
      split; [eapply nth_set_same; eauto|]. intros j Nj. rewrite nth_set_other by auto. apply no_class_fresh.
    - cbn [ghost_step g_classes]. rewrite !set_nth_length. auto. }
  apply AR in AL. destruct (C29_allowed hs _ F AL) as (VV & EE).
  assert (AL1 : allowed_run hs (fresh_ghost hs) (pre ++ [OClear i])) by (apply AR; cbn; auto).
  destruct (C29_allowed hs _ F AL1) as (_ & EE1).
  assert (KH : kinds h).
  { assert (E' := E). rewrite <- (inv_vals _ _ _ I) in E'. unfold values in E'. rewrite nth_error_map in E'.
    destruct (nth_error (s_vars (fst (run (fresh_state hs) pre))) i) as [v|] eqn:Ev; [|discriminate]. injection E' as <-. apply (inv_var _ _ _ I i v Ev). }
  assert (F0 : Forall fresh_hist [with_content h CNone]) by (constructor; [|constructor]; split; auto).
  assert (AL0 : allowed_run [with_content h CNone] (fresh_ghost [with_content h CNone]) (fills 0 fs)).
  { apply fills_allowed; auto.
    - intros h' Q. injection Q as <-. auto.
    - intros _. apply distinct_alone with (vals := [with_content h CNone]); [apply fresh_distinct|cbn; lia]. }
  destruct (C29_allowed _ _ F0 AL0) as (V0 & E0).
  unfold value_of. rewrite VV, V0, EE, EE1, E0. rewrite !value_run_app. fold v1.
  destruct (value_run hs pre) as [v e1] eqn:VR. cbn [fst] in v1. subst v1. cbn [app value_run].
  destruct (value_step v (OClear i)) as [v2 e2]. cbn [fst] in V2. subst v2.
  destruct (fills_value fs _ _ _ E2) as (Q1 & Q2). destruct (value_run (set_nth v i (with_content h CNone)) (fills i fs)) as [v3 e3]. cbn [fst snd] in *.
  split; auto. rewrite Q1. rewrite <- app_assoc. reflexivity.
Qed.
(** cleared() makes an unfilled histogram and changes no existing one, in any state. *)
Theorem C31_cleared s i h : value_of s i = Some h ->
  values (fst (step s (OCleared i))) = values s ++ [with_content h CNone].
Proof.
  unfold value_of, values. intros E. rewrite nth_error_map in E. cbn [step]. destruct (nth_error (s_vars s) i) as [v|]; [|discriminate]. injection E as <-.
  cbn [fst new_var s_heap s_vars]. rewrite map_app. cbn [map]. f_equal. unfold var_value, var_view. cbn [v_obj v_ref]. destruct (ngroups (v_obj v)); reflexivity.
Qed.
Example C31_example : allowed_run [heap_h; heap_u] (fresh_ghost [heap_h; heap_u]) [OFill 0 (fill_g "a"); OCopyOnFill 0; OFill 1 fill_u] /\
  map o_content (values (fst (run (fresh_state [heap_h; heap_u]) ([OFill 0 (fill_g "a"); OCopyOnFill 0; OFill 1 fill_u] ++ [OClear 0] ++ fills 0 [fill_g "b"])))) =
  [CDict [(GStr "b", arr [3; 9; 0; 0]%Z)]; arr [1; 1]%Z; CDict [(GStr "a", arr [3; 9; 0; 0]%Z)]].
Proof.
  split.
  - cbn [allowed_run]. split; [|split; [exact I|split; [|exact I]]].
    + cbn [allowed nth_error]. split; [apply fill_g_filler|]. right. left. reflexivity.
    + cbn -[is_filler fill_u]. split; [apply fill_u_filler|]. right. left. reflexivity.
  - vm_compute. repeat f_equal; apply Qc_is_canon; reflexivity.
Qed.

(** ** C34: the group and its sources share nothing *)
Theorem C34_no_alias hs pre by_ srcs post k h : Forall fresh_hist hs -> separate_run hs (pre ++ [OGroup by_ srcs] ++ post) ->
  value_of (fst (run (fresh_state hs) (pre ++ [OGroup by_ srcs]))) k = Some h -> leaves k post ->
  value_of (fst (run (fresh_state hs) (pre ++ [OGroup by_ srcs] ++ post))) k = Some h.
Proof. intros F S E L. rewrite app_assoc in *. apply C29_isolated; auto. Qed.
Example C34_alias_example :
  map o_content (values (fst (run (fresh_state [heap_u; heap_u]) [OFill 0 fill_u; OFill 1 fill_u; OGroup "s" [("p", 0); ("q", 1)]; OIMul 0 (nz 7)]))) =
  [arr [7; 7]%Z; arr [1; 1]%Z; CDict [(GStr "p", arr [1; 1]%Z); (GStr "q", arr [1; 1]%Z)]].
Proof. vm_compute. repeat f_equal; apply Qc_is_canon; reflexivity. Qed.

Print Assumptions C29_values.
Print Assumptions C29_allowed.
Print Assumptions C29_isolated.
Print Assumptions C29_copy.
Print Assumptions C29_copyonfill.
Print Assumptions C29_copyonfill_imul_refuted.
Print Assumptions C29_copyonfill_original_refuted.
Print Assumptions C29_fills.
Print Assumptions C27_others.
Print Assumptions C30_contents.
Print Assumptions C30_sum_shares_refuted.
Print Assumptions C30_derived.
Print Assumptions C30_select_groups.
Print Assumptions C30_select_group_shares_refuted.
Print Assumptions C30_prefill.
Print Assumptions C31_clear.
Print Assumptions C31_cleared.
Print Assumptions C34_no_alias.
