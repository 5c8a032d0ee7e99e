(** C48 where some histograms are sums or multiples of others: whose destinations are shared. *)
From Coq Require Import String Permutation.
From Verif Require Import Num NumFacts Base Tree Instr InstrSpec InstrProofs Axis Calc AxisMain Content Fill FillSpec Elem HistFill HistSpec HistAlg Book BookSpec BookProofs BookFill BookFillSpec BookFillProofs BookDest Meta MetaSpec Props_Hist Props_Book Props_BookFill Props_Meta.
Local Open Scope string_scope.
Local Open Scope list_scope.

(** No histogram of the book was made by + or * from another one of the book, or both from a third. *)
Definition unrelated (dst : nat -> nat) (ids : list nat) : Prop := forall i j, In i ids -> In j ids -> dst i = dst j -> i = j.

Lemma postfill_unrelated dst hs len out : forall ids stored cs,
  (forall i j, In i ids -> In j stored -> dst i = dst j -> i = j) ->
  postfill_shared dst hs len out stored ids cs = postfill_all hs len out stored ids cs.
Proof.
  induction ids as [|i ids IH]; intros stored cs U; cbn [postfill_shared postfill_all]; auto. destruct (nth_error hs i) as [h|]; auto. destruct (nth_error cs i) as [c|]; auto.
  assert (E : forall l, (forall j, In j l -> In j stored) -> existsb (fun j => Nat.eqb (dst i) (dst j)) l = existsb (Nat.eqb i) l /\
    filter (fun j => negb (Nat.eqb (dst i) (dst j))) l = filter (fun j => negb (Nat.eqb i j)) l).
  { induction l as [|j l IHl]; intros S; cbn [existsb filter]; auto. destruct IHl as (-> & ->); [intros k K; apply S; right; auto|].
    assert (Ej : Nat.eqb (dst i) (dst j) = Nat.eqb i j).
    { destruct (Nat.eqb_spec i j) as [->|N]; [apply Nat.eqb_refl|]. apply Nat.eqb_neq. intros D. apply N. apply U; auto; [left; auto|apply S; left; auto]. }
    rewrite Ej. auto. }
  destruct (E stored (fun j H => H)) as (-> & ->). destruct (read_dest h _) as [d|]; auto. destruct (postfill (hist_layout h) len d c) as [c1 [e|]]; auto.
  apply IH. intros k j K J. apply filter_In in J as (J & _). apply U; auto. right. auto.
Qed.
Lemma fields_stored order limit srcs hs B b ids B1 is stored : up_to_date hs limit B b -> book_hists limit B b = Ok ids ->
  book_fields order limit srcs hs B b = (B1, Ok (is, stored)) -> stored = ids.
Proof.
  intros (o & Eo & U) Hi. unfold book_fields. rewrite Eo. destruct (b_cache o) as [[is0 st0]|].
  - intros H. injection H as <- <- <-. destruct U as (ids' & _ & _ & Hi' & -> & _). congruence.
  - rewrite Hi. cbn [bind]. destruct (book_goals hs ids) as [goals|]; cbn [bind]; [|discriminate]. destruct (instructions order srcs goals) as [is'|]; cbn [bind]; [|discriminate].
    destruct (fields srcs); cbn [bind]; [|discriminate]. intros H. injection H as <- <- <-. reflexivity.
Qed.

Section Shared.
  Variable cast : Num -> Z.
  Variable rnd : Qc -> Num.
  Variable user : string -> list arg -> res val.
  Variable order : tree -> list tree -> list tree.
  Variable limit : nat.
  Variable dst : nat -> nat.

  (** With unrelated histograms the sharing cannot be seen: all of C48 holds. *)
  Theorem C48_unrelated srcs hs A B b cs ids : up_to_date hs limit B b -> book_hists limit B b = Ok ids -> unrelated dst ids ->
    book_fill_shared cast rnd user order limit dst srcs hs A B b cs = book_fill cast rnd user order limit srcs hs A B b cs.
  Proof.
    intros U Hi N. unfold book_fill_shared, book_fill. rewrite Hi. destruct (book_fields order limit srcs hs B b) as [B1 r] eqn:F. destruct r as [[is stored]|e]; cbn [bind fst snd]; auto.
    destruct (fill_arrays cast rnd user A is) as [[len out]|]; cbn [bind]; auto. rewrite postfill_unrelated; auto.
    rewrite (fields_stored order limit srcs hs B b ids B1 is stored U Hi F). exact N.
  Qed.
  Theorem C48_unrelated_fill_is_each_fill hs A len own_order own_srcs srcs ids B b cs :
    book_hists limit B b = Ok ids -> fillable hs ids A len -> up_to_date hs limit B b -> unrelated dst ids ->
    is_order order -> Permutation srcs (sources (goals_of hs ids)) -> own_choices hs own_order own_srcs -> length cs = length hs ->
    (forall i c, In i ids -> nth_error cs i = Some c -> snd (own_fill cast rnd user hs A own_order own_srcs i c) = None) ->
    exists B' cs', book_fill_shared cast rnd user order limit dst srcs hs A B b cs = (B', cs', None) /\
      changes_as ids (fun i c => fst (own_fill cast rnd user hs A own_order own_srcs i c)) cs cs' /\
      same_entries B B' /\ up_to_date hs limit B' b.
  Proof. intros Hi F U N Ho P Oc L Ok. rewrite (C48_unrelated srcs hs A B b cs ids U Hi N). eapply C48_book_fill_is_each_fill; eauto. Qed.
End Shared.
Print Assumptions C48_unrelated.
Print Assumptions C48_unrelated_fill_is_each_fill.

(** Histograms that were constructed, copied, or derived by weight, filter, project, ... are unrelated. *)
Theorem C48_unrelated_origins : forall s g ids, reached s g -> (forall i, In i ids -> nth_error (g_dests g) i = Some i) ->
  unrelated (fun i => match nth_error (holders s) i with Some h => m_dest h | None => i end) ids.
Proof.
  intros s g ids R O i j I J. pose proof (C70_destinations s g i j) as D. pose proof (MetaProofs.inv_reached s g R) as (_ & L & _).
  assert (B : forall k, In k ids -> exists h, nth_error (holders s) k = Some h).
  { intros k K. specialize (O k K). destruct (nth_error (holders s) k) eqn:E; eauto. apply nth_error_None in E. rewrite <- L in E. apply nth_error_None in E. congruence. }
  destruct (B i I) as (h & Eh). destruct (B j J) as (k & Ek). rewrite Eh, Ek. intros E. apply (D h k R Eh Ek) in E. rewrite (O i I), (O j J) in E. congruence.
Qed.
Print Assumptions C48_unrelated_origins.

(** ** A book with h and h * 2 *)
Definition hs48 : list hist := [exq; exq].
Definition filled48 : content := fst (hist_fill cast_x86 Fin nocall ido (sources (hist_goals exq)) exq exA CNone).
Definition twice48 : content := match content_mul (nz 2) filled48 with Ok c => c | Err _ => CNone end.
Definition B48 : books := fst (setitem (fst (setitem (fst (new_book [])) 0 "a" (EHist 0))) 0 "b" (EHist 1)).
Definition own48 := own_fill cast_x86 Fin nocall hs48 exA (fun _ => ido) (fun i => match nth_error hs48 i with Some h => sources (hist_goals h) | None => [] end).
(** h = (2 1 in bins 1 2), h * 2 = (4 2); filling the book with the same rows again should give (4 2) and
    (6 3), and does so for h and h.copy() * 2: but with h and h * 2 the second gets all three rows in every
    bin, without an error. *)
Theorem C48_multiple_in_same_book_refuted :
  let fill dst := book_fill_shared cast_x86 Fin nocall ido 100 dst (sources (goals_of hs48 [0; 1])) hs48 exA B48 0 [filled48; twice48] in
  book_hists 100 B48 0 = Ok [0; 1] /\ up_to_date hs48 100 B48 0 /\ fillable hs48 [0; 1] exA 3 /\
  snd (fill (fun _ => 0)) = None /\ snd (fill (fun i => i)) = None /\
  let bins cs := map (fun c => map (fun i => cell (hist_layout exq) c [] [i] 0) [0; 1; 2; 3]) cs in
  bins (snd (fst (fill (fun i => i)))) = [[nz 0; nz 4; nz 2; nz 0]; [nz 0; nz 6; nz 3; nz 0]] /\
  bins [fst (own48 0 filled48); fst (own48 1 twice48)] = [[nz 0; nz 4; nz 2; nz 0]; [nz 0; nz 6; nz 3; nz 0]] /\
  bins (snd (fst (fill (fun _ => 0)))) = [[nz 0; nz 4; nz 2; nz 0]; [nz 3; nz 7; nz 5; nz 3]].
Proof.
  cbn zeta. split; [vm_compute; reflexivity|]. split; [eexists; split; [reflexivity|exact I]|]. split.
  { split; [repeat constructor; cbn; lia|]. split; [discriminate|]. destruct C48_example as (_ & (_ & _ & F) & _). destruct (F 1 (or_intror (or_introl eq_refl))) as (h & E & R).
    injection E as <-. intros i [<-|[<-|[]]]; exists exq; split; auto. }
  split; [vm_compute; reflexivity|]. split; [vm_compute; reflexivity|].
  split; [|split]; vm_compute; repeat match goal with |- cons _ _ = cons _ _ => f_equal | |- Fin _ = Fin _ => apply f_equal, Qc_is_canon; reflexivity end.
Qed.
Print Assumptions C48_multiple_in_same_book_refuted.

(** A case of the hypothesis: the first two holders of the program of C70 were constructed and copied. *)
Example C48_unrelated_case : let (s, g) := after start g0 prog70 in
  reached s g /\ (forall i, In i [0; 1] -> nth_error (g_dests g) i = Some i) /\ ~ unrelated (fun i => match nth_error (holders s) i with Some h => m_dest h | None => i end) [0; 2].
Proof.
  cbn. split; [|split].
  - change (reached (fst (after start g0 prog70)) (snd (after start g0 prog70))). cbn [after prog70 fst snd]. repeat (apply r_step). apply r_start.
  - intros i [<-|[<-|[]]]; reflexivity.
  - intros U. specialize (U 0 2 (or_introl eq_refl) (or_intror (or_introl eq_refl)) eq_refl). discriminate.
Qed.
