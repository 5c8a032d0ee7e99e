(** C30 for the axes: histograms share axis objects, and an axis object knows one place only. *)
From Coq Require Import String.
From Verif Require Import Base Num NumFacts Axis Calc Content Fill Elem Tree Instr InstrProofs HistFill HistAlg Nd Proj Table Shared SharedProofs SharedSpec SharedMain.
Local Open Scope list_scope.
Local Open Scope string_scope.

Definition ax2 (e : string) (n : nat) : axis * tree := (ABin e n (nz 0) (nnat n) false false false true, TName e).
Definition nothing : cstate := ([], []).
Definition hist_at (s : cstate) (k : nat) : option hist := option_map (hist_of (fst s)) (nth_error (snd s) k).
Definition nofn : string -> list arg -> res val := fun _ _ => Err NameError.
(** one row with x = 1, y = 1, z = 1, p = 5, q = 7 *)
Definition one_row : arrays := fun s =>
  if String.eqb s "x" then Some (IAr [VNum (nz 1)]) else if String.eqb s "y" then Some (IAr [VNum (nz 1)])
  else if String.eqb s "p" then Some (IAr [VNum (nz 5)]) else if String.eqb s "q" then Some (IAr [VNum (nz 7)])
  else if String.eqb s "z" then Some (IAr [VNum (nz 1)]) else if String.eqb s "c" then Some (IAr [VBool true]) else None.
Definition fill_at (s : cstate) (k : nat) (c : content) : option (content * option err) :=
  option_map (fun a => object_fill cast_x86 Fin nofn (fun _ l => l) (sources (hist_goals (hist_of (fst s) a))) (fst s) a one_row c) (nth_error (snd s) k).
Definition fill_value (h : hist) (c : content) : content * option err :=
  hist_fill cast_x86 Fin nofn (fun _ l => l) (sources (hist_goals h)) h one_row c.
Definition same_float (c d : content) : bool :=
  match c, d with
  | CArr l, CArr m => Nat.eqb (length l) (length m) && forallb (fun p => neqb (fst p) (snd p)) (combine l m)
  | _, _ => false
  end.
Definition no_ahist : ahist := {| a_group := []; a_fixed := []; a_prof := []; a_weight := None |}.
Definition two : list cop := [CNew [ax2 "x" 2; ax2 "y" 3] None].

(** Histograms are made in any number and order, from new axes or from the axes of histograms made
    before; as long as only axes at the end are removed, every histogram keeps its axes, fills exactly as
    the histogram with axes of its own, and its tables are those of one with axes of its own. *)
Theorem C30_axes cast rnd user order srcs sqrt bw pre post k a :
  keeps_run nothing pre -> keeps_run (crun nothing pre) post -> nth_error (snd (crun nothing pre)) k = Some a ->
  let X := fst (crun nothing pre) in
  let X' := fst (crun (crun nothing pre) post) in
  nth_error (snd (crun (crun nothing pre) post)) k = Some a /\ hist_of X' a = hist_of X a /\
  (forall A c, object_fill cast rnd user order srcs X' a A c = hist_fill cast rnd user order srcs (hist_of X a) A c) /\
  (forall h o profile, length (o_prof (p_head h)) = length (h_prof (hist_of X a)) ->
     object_table sqrt bw X' a h o profile = table sqrt bw h o profile).
Proof.
  intros K1 K2 Hk X X'.
  destruct (run_good pre nothing (Forall_nil _) K1) as (G1 & _).
  destruct (run_good post _ G1 K2) as (G2 & O2). destruct (O2 k a Hk) as (H1 & H2).
  assert (Ga := proj1 (Forall_forall _ _) G2 a (nth_error_In _ _ H1)). cbn beta in Ga. destruct Ga as (_ & P).
  split; [exact H1|]. split; [exact H2|]. split.
  - intros A c. unfold X. rewrite <- H2. apply fill_in_place. exact P.
  - intros h o profile L. apply table_in_place; [exact P|]. rewrite L. unfold hist_of. cbn [h_prof]. apply map_length.
Qed.
Print Assumptions C30_axes.
Definition lots : list cop :=
  [CDerive 0 DSame None; CDerive 0 (DProject (fun l => Nat.eqb l 0)) None; CDerive 0 (DReplace 1 (fst (ax2 "y" 1)) (TName "y")) (Some (WxTree (TName "p"))); CDerive 3 (DGroup (AGroupby "g") (TName "g")) None; CDerive 1 (DRemove 1) None].
Example C30_axes_example : keeps_run nothing two /\ keeps_run (crun nothing two) lots /\ length (snd (crun (crun nothing two) lots)) = 6 /\
  exists c, fill_at (crun (crun nothing two) lots) 0 CNone = Some (c, None) /\ same_float c (CArr [nz 0; nz 0; nz 0; nz 0; nz 1; nz 0]) = true.
Proof.
  split; [repeat split|]. split; [|split; [reflexivity|eexists; split; vm_compute; reflexivity]].
  cbn [keeps_run]. split; [exact I|]. split; [exists 1; reflexivity|]. split; [reflexivity|]. split; [reflexivity|]. split; [|exact I]. split; [exists 1; reflexivity|exists 0; reflexivity].
Qed.

(** An axis that the new histogram has in another place than the old one: the old one is left with the
    other place. *)
Theorem C30_axes_moved pre d w k a X' a' l i j : keeps_run nothing pre ->
  let s := crun nothing pre in
  nth_error (snd s) k = Some a -> construct (fst s) w (derived_args d a) = (X', a') -> wf X' a' ->
  (nth_error (a_fixed a) i = Some l /\ nth_error (a_fixed a') j = Some l) \/ (nth_error (a_prof a) i = Some l /\ nth_error (a_prof a') j = Some l) ->
  i <> j -> ~ in_place X' a.
Proof.
  intros K s Ha E (V & N & _) Hl Hij. eapply construct_out_of_place; eauto.
Qed.
Print Assumptions C30_axes_moved.

(** So projecting changes where the projected histogram is filled: with 2 bins of x and 3 bins of y,
    after h.project("y") a row with x = 1 and y = 1 is counted at x = 1, y = 0. *)
Theorem C30_project_refuted :
  let s := crun nothing two in
  let s' := crun s [CDerive 0 (DProject (fun l => Nat.eqb l 1)) None] in
  hist_at s' 0 = hist_at s 0 /\
  (exists c, fill_at s 0 CNone = Some (c, None) /\ same_float c (CArr [nz 0; nz 0; nz 0; nz 0; nz 1; nz 0]) = true) /\
  (exists c, fill_at s' 0 CNone = Some (c, None) /\ same_float c (CArr [nz 0; nz 0; nz 0; nz 1; nz 0; nz 0]) = true).
Proof. split; [reflexivity|]. split; eexists; split; vm_compute; reflexivity. Qed.
Print Assumptions C30_project_refuted.
(** h.copy() puts the axes of h back, but then the projected histogram is filled wrongly: a row with
    y = 1 and z = 1 is counted at z = 0. *)
Definition three : list cop := [CNew [ax2 "x" 2; ax2 "y" 3; ax2 "z" 2] None; CDerive 0 (DProject (fun l => Nat.leb 1 l)) None].
Theorem C30_copy_after_project_refuted :
  let s := crun nothing three in
  let s' := crun s [CDerive 0 DSame None] in
  hist_at s' 1 = hist_at s 1 /\
  (exists c, fill_at s 1 CNone = Some (c, None) /\ same_float c (CArr [nz 0; nz 0; nz 0; nz 1; nz 0; nz 0]) = true) /\
  (exists c, fill_at s' 1 CNone = Some (c, None) /\ same_float c (CArr [nz 0; nz 0; nz 1; nz 0; nz 0; nz 0]) = true) /\
  (exists c, fill_at s 0 CNone = Some (c, None) /\ same_float c (fst (fill_value (hist_of (fst s) (nth 0 (snd s) no_ahist)) CNone)) = false) /\
  (exists c, fill_at s' 0 CNone = Some (c, None) /\ same_float c (fst (fill_value (hist_of (fst s) (nth 0 (snd s) no_ahist)) CNone)) = true).
Proof. split; [reflexivity|]. repeat split; eexists; split; vm_compute; reflexivity. Qed.
Print Assumptions C30_copy_after_project_refuted.
(** select of a cut that is not the last fixed axis: the axis that follows moves. *)
Definition cuts : list cop := [CNew [(ACut "c", TName "c"); ax2 "x" 2; ax2 "y" 3] None].
Theorem C30_select_refuted :
  let s := crun nothing cuts in
  let s' := crun s [CDerive 0 (DRemove 0) None] in
  hist_at s' 0 = hist_at s 0 /\
  (exists c, fill_at s 0 CNone = Some (c, None) /\ same_float c (fst (fill_value (hist_of (fst s) (nth 0 (snd s) no_ahist)) CNone)) = true) /\
  (exists c, fill_at s' 0 CNone = Some (c, None) /\ same_float c (fst (fill_value (hist_of (fst s) (nth 0 (snd s) no_ahist)) CNone)) = false).
Proof. split; [reflexivity|]. split; eexists; split; vm_compute; reflexivity. Qed.
Print Assumptions C30_select_refuted.
(** h.drop("p") of profiles p and q: the sums of q of h are then put in the place of those of p, and its
    table shows p for q. *)
Definition profs : list cop := [CNew [(AProfile "p", TName "p"); (AProfile "q", TName "q")] None].
Theorem C30_drop_refuted :
  let s := crun nothing profs in
  let s' := crun s [CDerive 0 (DDrop (fun l => Nat.eqb l 1)) None] in
  let h := {| o_group := []; o_fixed := []; o_prof := [AProfile "p"; AProfile "q"]; o_weight := None; o_filter := None; o_defs := []; o_attach := []; o_content := CArr [nz 5; nz 25; nz 7; nz 49; nz 1] |} in
  let t X := object_table (fun x => x) (fun _ _ _ => none1) X (nth 0 (snd s) no_ahist) (view h) {| t_count := false; t_effcount := false; t_error := false; t_normalized := false; t_recarray := false |} [AProfile "q"] in
  hist_at s' 0 = hist_at s 0 /\
  (exists c, fill_at s 0 CNone = Some (c, None) /\ same_float c (CArr [nz 5; nz 25; nz 7; nz 49; nz 1]) = true) /\
  (exists c, fill_at s' 0 CNone = Some (c, None) /\ same_float c (CArr [nz 12; nz 74; nz 0; nz 0; nz 1]) = true) /\
  (exists x, t (fst s) = Ok (PArr [1] [x], ["q"]) /\ neqb x (nz 7) = true) /\ (exists x, t (fst s') = Ok (PArr [1] [x], ["q"]) /\ neqb x (nz 5) = true).
Proof. split; [reflexivity|]. split; [|split; [|split]]; eexists; split; vm_compute; reflexivity. Qed.
Print Assumptions C30_drop_refuted.
