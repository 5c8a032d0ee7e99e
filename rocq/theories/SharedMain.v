(** Programs that keep every axis in its place. *)
From Coq Require Import String Permutation.
From Verif Require Import Base Num NumFacts Axis Calc Content Fill FillProofs Elem Tree Instr HistFill HistFillProofs HistAlg Nd Proj Table Shared SharedProofs SharedSpec.
Local Open Scope list_scope.
Local Open Scope nat_scope.

Notation has_kind X p := (fun l => p (x_axis (obj X l)) = true).
Definition kinds (X : axheap) (a : ahist) : Prop :=
  Forall (has_kind X is_group) (a_group a) /\ Forall (has_kind X is_fixed) (a_fixed a) /\ Forall (has_kind X is_profile) (a_prof a).
Definition wf (X : axheap) (a : ahist) : Prop := valid X a /\ NoDup (axes_of a) /\ kinds X a.

Lemma kind_excl x : (is_group x = true -> is_fixed x = false /\ is_profile x = false) /\
  (is_fixed x = true -> is_group x = false /\ is_profile x = false) /\ (is_profile x = true -> is_group x = false /\ is_fixed x = false).
Proof. destruct x; cbn; repeat split; intros; congruence. Qed.
Lemma filter_id {A} (p : A -> bool) l : Forall (fun x => p x = true) l -> filter p l = l.
Proof. induction 1; cbn; auto. rewrite H. f_equal. auto. Qed.
Lemma filter_nil {A} (p : A -> bool) l : Forall (fun x => p x = false) l -> filter p l = [].
Proof. induction 1; cbn; auto. rewrite H. auto. Qed.
Lemma filter_kinds X g f p : Forall (has_kind X is_group) g -> Forall (has_kind X is_fixed) f -> Forall (has_kind X is_profile) p ->
  filter (fun l => is_group (x_axis (obj X l))) (g ++ f ++ p) = g /\
  filter (fun l => is_fixed (x_axis (obj X l))) (g ++ f ++ p) = f /\
  filter (fun l => is_profile (x_axis (obj X l))) (g ++ f ++ p) = p.
Proof.
  intros Hg Hf Hp. rewrite !filter_app.
  assert (N : forall q r ls, (forall x, q x = true -> r x = false) -> Forall (has_kind X q) ls -> filter (fun l => r (x_axis (obj X l))) ls = []).
  { intros q r ls H Hl. apply filter_nil. eapply Forall_impl; [|exact Hl]. cbn beta. auto. }
  rewrite (filter_id _ g Hg), (filter_id _ f Hf), (filter_id _ p Hp).
  rewrite (N is_fixed is_group f), (N is_profile is_group p), (N is_group is_fixed g), (N is_profile is_fixed p), (N is_group is_profile g), (N is_fixed is_profile f); auto; try (intros [] Hx; cbn in *; congruence).
  rewrite !app_nil_r. auto.
Qed.

Lemma alloc_old X ls : alloc_args X (map AOld ls) = (X, ls).
Proof. induction ls as [|l ls IH]; cbn [map alloc_args]; auto. rewrite IH. reflexivity. Qed.
Lemma alloc_new X axes : alloc_args X (map (fun p : axis * tree => ANew (fst p) (snd p)) axes) =
  (X ++ map (fun p => {| x_axis := fst p; x_tree := snd p; x_shape := 0; x_wx := 0 |}) axes, seq (length X) (length axes)).
Proof.
  revert X. induction axes as [|p axes IH]; intros X; cbn [map alloc_args]; [rewrite app_nil_r; reflexivity|].
  rewrite IH, <- app_assoc, app_length. cbn [length app seq]. rewrite Nat.add_1_r. reflexivity.
Qed.
Definition sub1 (cut new l : nat) : nat := if Nat.eqb l cut then new else l.
Lemma alloc_replace X cut x t ls : NoDup ls -> exists Y, (Y = [] \/ Y = [{| x_axis := x; x_tree := t; x_shape := 0; x_wx := 0 |}] /\ In cut ls) /\ (In cut ls -> Y <> []) /\
  alloc_args X (map (fun l => if Nat.eqb l cut then ANew x t else AOld l) ls) = (X ++ Y, map (sub1 cut (length X)) ls).
Proof.
  intros Hn. induction Hn as [|l ls Hl Hn IH]; cbn [map alloc_args].
  - exists []. rewrite app_nil_r. repeat split; auto.
  - unfold sub1 at 1. destruct (Nat.eqb_spec l cut) as [->|Hne].
    + replace (map (fun l => if Nat.eqb l cut then ANew x t else AOld l) ls) with (map AOld ls).
      * rewrite alloc_old. eexists. split; [right; split; [reflexivity|left; reflexivity]|]. split; [discriminate|]. f_equal. f_equal.
        rewrite <- (map_id ls) at 1. apply map_ext_in. intros m Hm. unfold sub1. destruct (Nat.eqb_spec m cut) as [->|]; auto. contradiction.
      * apply map_ext_in. intros m Hm. destruct (Nat.eqb_spec m cut) as [->|]; auto. contradiction.
    + destruct IH as (Y & HY & HI & E). rewrite E. exists Y. split; [destruct HY as [->|(-> & H)]; auto; right; split; auto; right; auto|]. split; [|reflexivity].
      intros [H|H]; [congruence|auto].
Qed.

(** The new histogram from the list of axis locations. *)
Lemma construct_lists X w args X1 g f p : alloc_args X args = (X1, g ++ f ++ p) ->
  Forall (has_kind X1 is_group) g -> Forall (has_kind X1 is_fixed) f -> Forall (has_kind X1 is_profile) p ->
  exists X', construct X w args = (X', {| a_group := g; a_fixed := f; a_prof := p; a_weight := w |}).
Proof.
  intros E Hg Hf Hp. unfold construct. rewrite E. destruct (filter_kinds X1 g f p Hg Hf Hp) as (-> & -> & ->). eexists. reflexivity.
Qed.
Lemma kinds_after X X' w args a' X1 ls l (q : axis -> bool) : construct X w args = (X', a') -> alloc_args X args = (X1, ls) -> q (x_axis (obj X1 l)) = true -> q (x_axis (obj X' l)) = true.
Proof. intros E E1 H. assert (Q := construct_axis _ _ _ _ _ E l). rewrite E1 in Q. cbn [fst] in Q. unfold axis_at in Q. inversion Q. congruence. Qed.
Lemma construct_wf X w args X1 g f p : alloc_args X args = (X1, g ++ f ++ p) ->
  Forall (has_kind X1 is_group) g -> Forall (has_kind X1 is_fixed) f -> Forall (has_kind X1 is_profile) p ->
  NoDup (g ++ f ++ p) -> Forall (fun l => l < length X1) (g ++ f ++ p) ->
  exists X', construct X w args = (X', {| a_group := g; a_fixed := f; a_prof := p; a_weight := w |}) /\
    wf X' {| a_group := g; a_fixed := f; a_prof := p; a_weight := w |}.
Proof.
  intros E Hg Hf Hp Hn Hv. destruct (construct_lists X w args X1 g f p E Hg Hf Hp) as (X' & C). exists X'. split; [exact C|].
  split; [|split; [exact Hn|]].
  - unfold valid, axes_of. cbn [a_group a_fixed a_prof]. assert (L := x1_len _ _ _ _ _ C). rewrite E in L. cbn [fst] in L. rewrite L. exact Hv.
  - split; [|split]; cbn [a_group a_fixed a_prof]; (eapply Forall_impl; [|eassumption]); cbn beta; intros l Hl; eapply kinds_after; eauto.
Qed.

Lemma Forall_filter {A} (P : A -> Prop) q l : Forall P l -> Forall P (filter q l).
Proof. rewrite !Forall_forall. intros H x Hx. apply filter_In in Hx. apply H. tauto. Qed.
Lemma nodup_filter {A} (q : A -> bool) l : NoDup l -> NoDup (filter q l).
Proof. induction 1; cbn; [constructor|]. destruct (q x); auto. constructor; auto. intros C. apply filter_In in C. tauto. Qed.
Lemma starts_nth {A} (l m : list A) j x : starts l m -> nth_error m j = Some x -> nth_error l j = Some x.
Proof. intros (n & ->) H. revert l j H. induction n as [|n IH]; intros [|y l] [|j] H; cbn in *; try discriminate; auto. Qed.
Lemma sub_nodup (g f p : list nat) (q1 q2 q3 : nat -> bool) : NoDup (g ++ f ++ p) -> NoDup (filter q1 g ++ filter q2 f ++ filter q3 p).
Proof.
  intros H. assert (Hd : forall A (l m : list A), NoDup (l ++ m) <-> NoDup l /\ NoDup m /\ forall x, In x l -> ~ In x m).
  { intros A l m. induction l as [|x l IH]; cbn; [split; [intros Hm; repeat split; auto; constructor|tauto]|].
    split.
    - intros Hx. inversion Hx as [|? ? J2 J3]; subst. apply IH in J3. destruct J3 as (N1 & N2 & N3). split; [constructor; auto; intros C; apply J2, in_or_app; auto|]. split; auto. intros y [->|Hy]; auto. intros C. apply J2, in_or_app. auto.
    - intros (N1 & N2 & N3). inversion N1; subst. constructor; [|apply IH; repeat split; auto; intros y Hy; apply N3; right; auto]. intros C. apply in_app_or in C. destruct C as [C|C]; [contradiction|]. apply (N3 x); auto. }
  rewrite !Hd in *. destruct H as (N1 & (N2 & N3 & N4) & N5).
  repeat split; try (apply nodup_filter; auto; fail).
  - intros x Hx C. apply filter_In in Hx, C. apply (N4 x); tauto.
  - intros x Hx C. apply filter_In in Hx. apply (N5 x); [tauto|]. apply in_app_or in C. apply in_or_app. destruct C as [C|C]; apply filter_In in C; tauto.
Qed.

(** ** A derived histogram *)
Section Derived.
  Variables (X : axheap) (a : ahist) (w : option wexpr).
  Hypothesis Hwf : wf X a.

  (** sublists of the old axes *)
  Lemma derived_sub q1 q2 q3 args : args = map AOld (filter q1 (a_group a) ++ filter q2 (a_fixed a) ++ filter q3 (a_prof a)) ->
    let a' := {| a_group := filter q1 (a_group a); a_fixed := filter q2 (a_fixed a); a_prof := filter q3 (a_prof a); a_weight := w |} in
    exists X', construct X w args = (X', a') /\ wf X' a'.
  Proof.
    intros -> a'. destruct Hwf as (Hv & Hn & Hg & Hf & Hp). unfold a'. apply (construct_wf X w _ X).
    - apply alloc_old.
    - apply Forall_filter; auto.
    - apply Forall_filter; auto.
    - apply Forall_filter; auto.
    - apply sub_nodup; auto.
    - unfold valid, axes_of in Hv. rewrite !Forall_app in *. destruct Hv as (V1 & V2 & V3). split; [|split]; apply Forall_filter; auto.
  Qed.
  (** The axes of the new histogram that the old heap has keep their places. *)
  Definition kept (a' : ahist) : Prop :=
    (forall l j, l < length X -> nth_error (a_fixed a') j = Some l -> nth_error (a_fixed a) j = Some l) /\
    (forall l j, l < length X -> nth_error (a_prof a') j = Some l -> nth_error (a_prof a) j = Some l).

  Lemma filter_true {A} (l : list A) : filter (fun _ => true) l = l.
  Proof. apply filter_id. apply Forall_forall. auto. Qed.
  Lemma nodup_map_sub cut ls : NoDup ls -> Forall (fun l => l < length X) ls -> NoDup (map (sub1 cut (length X)) ls).
  Proof.
    induction 1 as [|l ls Hl Hn IH]; intros Hv; cbn [map]; [constructor|]. inversion Hv; subst. constructor; auto.
    intros C. apply in_map_iff in C. destruct C as (m & E & Hm). rewrite Forall_forall in H2. specialize (H2 m Hm). unfold sub1 in E.
    destruct (Nat.eqb_spec m cut) as [->|]; destruct (Nat.eqb_spec l cut) as [->|]; try lia; try contradiction. subst. contradiction.
  Qed.

  Lemma derived d : keeps_places X a d -> exists X' a', construct X w (derived_args d a) = (X', a') /\ wf X' a' /\ kept a'.
  Proof.
    intros Hk. assert (Hwf' := Hwf). destruct Hwf' as (Hv & Hn & Hg & Hf & Hp). destruct d as [|x t|cut x t|keep|keep|cut]; cbn [derived_args keeps_places] in *.
    - destruct (derived_sub (fun _ => true) (fun _ => true) (fun _ => true) (same_args a)) as (X' & C & W); [rewrite !filter_true; reflexivity|]. eexists X', _. split; [exact C|]. split; [exact W|]. rewrite !filter_true. split; cbn [a_fixed a_prof]; auto.
    - set (o := {| x_axis := x; x_tree := t; x_shape := 0; x_wx := 0 |}).
      assert (K : forall (q : axis -> bool) ls, Forall (fun l => l < length X) ls -> Forall (has_kind X q) ls -> Forall (has_kind (X ++ [o]) q) ls).
      { intros q ls H1 H2. rewrite Forall_forall in *. intros l Hl. rewrite obj_app by auto. auto. }
      unfold valid, axes_of in Hv. rewrite !Forall_app in Hv. destruct Hv as (V1 & V2 & V3).
      destruct (construct_wf X w (group_args x t a) (X ++ [o]) (length X :: a_group a) (a_fixed a) (a_prof a)) as (X' & C & W).
      + unfold group_args, same_args. cbn [alloc_args]. rewrite alloc_old. reflexivity.
      + constructor; auto. unfold obj. rewrite nth_middle. exact Hk.
      + auto.
      + auto.
      + cbn [app]. constructor; auto. intros C. rewrite !in_app_iff in C. rewrite Forall_forall in V1, V2, V3. destruct C as [C|[C|C]]; [apply V1 in C|apply V2 in C|apply V3 in C]; lia.
      + cbn [app]. rewrite app_length. cbn [length]. constructor; [lia|]. rewrite !Forall_app. split; [|split]; [apply (Forall_impl _ (P := fun l => l < length X)); [|exact V1]|apply (Forall_impl _ (P := fun l => l < length X)); [|exact V2]|apply (Forall_impl _ (P := fun l => l < length X)); [|exact V3]]; intros; lia.
      + eexists X', _. split; [exact C|]. split; [exact W|]. split; cbn [a_fixed a_prof]; auto.
    - destruct (alloc_replace X cut x t (a_group a ++ a_fixed a ++ a_prof a) Hn) as (Y & HY & HI & EA).
      set (s := sub1 cut (length X)) in *. rewrite !map_app in EA.
      assert (K : forall (q : axis -> bool) ls, (forall b, q b = true <-> kind_of b = match q ANull, q (AProfile ""), q (AGroupby "") with true, _, _ => 1 | _, true, _ => 2 | _, _, true => 0 | _, _, _ => 4 end) -> incl ls (a_group a ++ a_fixed a ++ a_prof a) -> Forall (has_kind X q) ls -> Forall (has_kind (X ++ Y) q) (map s ls)).
      { intros q ls Hq Hi Hl. rewrite Forall_forall in *. intros m Hm. apply in_map_iff in Hm. destruct Hm as (l & <- & Hm). unfold s, sub1. destruct (Nat.eqb_spec l cut) as [->|Hne].
        - assert (Hin : In cut (a_group a ++ a_fixed a ++ a_prof a)) by (apply Hi; auto). destruct HY as [->|(-> & _)]; [exfalso; apply HI; auto|]. unfold obj. rewrite nth_middle. cbn [x_axis]. apply Hq. rewrite Hk. apply Hq. apply Hl. auto.
        - rewrite obj_app; auto. apply (proj1 (Forall_forall _ _) Hv). apply Hi. auto. }
      assert (Q1 : forall b, is_group b = true <-> kind_of b = 0) by (intros []; cbn; split; congruence).
      assert (Q2 : forall b, is_fixed b = true <-> kind_of b = 1) by (intros []; cbn; split; congruence).
      assert (Q3 : forall b, is_profile b = true <-> kind_of b = 2) by (intros []; cbn; split; congruence).
      destruct (construct_wf X w (replace_args cut x t a) (X ++ Y) (map s (a_group a)) (map s (a_fixed a)) (map s (a_prof a))) as (X' & C & W).
      + unfold replace_args. rewrite !map_app. exact EA.
      + apply (K is_group); auto. intros l Hl. rewrite !in_app_iff. auto.
      + apply (K is_fixed); auto. intros l Hl. rewrite !in_app_iff. auto.
      + apply (K is_profile); auto. intros l Hl. rewrite !in_app_iff. auto.
      + rewrite <- !map_app. apply nodup_map_sub; auto.
      + rewrite <- !map_app. apply Forall_forall. intros m Hm. apply in_map_iff in Hm. destruct Hm as (l & <- & Hl). rewrite app_length. unfold s, sub1. destruct (Nat.eqb_spec l cut) as [->|].
        * specialize (HI Hl). destruct Y; [congruence|]. cbn [length]. lia.
        * assert (H := proj1 (Forall_forall _ _) Hv l Hl). cbn beta in H. lia.
      + eexists X', _. split; [exact C|]. split; [exact W|].
        split; cbn [a_fixed a_prof]; intros l j Hl Hj; rewrite nth_error_map in Hj; [destruct (nth_error (a_fixed a) j) as [m|] eqn:E|destruct (nth_error (a_prof a) j) as [m|] eqn:E]; try discriminate; cbn [option_map] in Hj; unfold s, sub1 in Hj; destruct (Nat.eqb_spec m cut); inversion Hj; subst; auto; lia.
    - destruct (derived_sub keep keep (fun _ => true) (project_args keep a)) as (X' & C & W); [unfold project_args; rewrite filter_true, filter_app, <- app_assoc; reflexivity|]. eexists X', _. split; [exact C|]. split; [exact W|]. rewrite !filter_true. split; cbn [a_fixed a_prof]; auto. intros l j _. apply starts_nth; auto.
    - destruct (derived_sub (fun _ => true) (fun _ => true) keep (drop_args keep a)) as (X' & C & W); [rewrite !filter_true; reflexivity|]. eexists X', _. split; [exact C|]. split; [exact W|]. rewrite !filter_true. split; cbn [a_fixed a_prof]; auto. intros l j _. apply starts_nth; auto.
    - destruct (derived_sub (fun l => negb (Nat.eqb l cut)) (fun l => negb (Nat.eqb l cut)) (fun l => negb (Nat.eqb l cut)) (remove_args cut a)) as (X' & C & W); [unfold remove_args; rewrite !filter_app; reflexivity|]. eexists X', _. split; [exact C|]. split; [exact W|]. destruct Hk as (K1 & K2). split; cbn [a_fixed a_prof]; intros l j _; apply starts_nth; auto.
  Qed.
  Lemma kept_same b X' a' : kept a' -> construct X w (@nil axarg) = construct X w [] -> valid X b -> in_place X a -> in_place X b -> wf X' a' -> same_places b a'.
  Proof.
    intros (K1 & K2) _ Hvb (A1 & A2) (B1 & B2) _. split; intros l i j Hi Hj.
    - assert (Hl : l < length X) by (apply (valid_in X b); auto; left; apply nth_error_In in Hi; auto). rewrite <- (B1 i l Hi). apply A1. auto.
    - assert (Hl : l < length X) by (apply (valid_in X b); auto; right; left; apply nth_error_In in Hi; auto). assert (E := B2 i l Hi). rewrite (A2 j l) in E by auto. lia.
  Qed.
End Derived.

(** ** Programs *)
Definition all_good (s : cstate) : Prop := Forall (fun a => wf (fst s) a /\ in_place (fst s) a) (snd s).
Lemma add_good X X' w args a' vs : construct X w args = (X', a') -> wf X' a' ->
  Forall (fun b => wf X b /\ in_place X b) vs -> (forall b, In b vs -> same_places b a') -> Forall (fun b => wf X' b /\ in_place X' b) (vs ++ [a']).
Proof.
  intros E (V & N & K) Hvs Hs. apply Forall_app. split.
  - rewrite Forall_forall in *. intros b Hb. destruct (Hvs b Hb) as ((Vb & Nb & Kb) & Pb). split.
    + split; [eapply construct_valid; eauto|]. split; auto. unfold kinds in *. destruct Kb as (K1 & K2 & K3).
      assert (G : forall (q : axis -> bool) ls, (forall l, In l ls -> l < length X) -> Forall (has_kind X q) ls -> Forall (has_kind X' q) ls).
      { intros q ls H1 H2. rewrite Forall_forall in *. intros l Hl. assert (Q := construct_old _ _ _ _ _ E l (H1 l Hl)). unfold axis_at in Q. inversion Q as [[Q1 Q2]]. rewrite Q1. auto. }
      split; [|split]; apply G; auto; intros l Hl; apply (valid_in X b); auto.
    + eapply construct_in_place; eauto.
  - constructor; [|constructor]. split; [split; auto|]. eapply construct_new_in_place; eauto.
Qed.
Lemma seq_kinds_perm (A : Type) (g f p : list A) : Permutation (g ++ f ++ p) (g ++ f ++ p).
Proof. apply Permutation_refl. Qed.
Lemma step_good s o : all_good s -> (match o with CNew _ _ => True | CDerive i d _ => match nth_error (snd s) i with Some a => keeps_places (fst s) a d | None => True end end) -> all_good (cstep s o).
Proof.
  destruct s as [X vs]. intros G K. destruct o as [axes w|i d w]; cbn [cstep snd fst] in *.
  - destruct (construct X w _) as [X' a'] eqn:E. unfold all_good in *. cbn [fst snd] in *.
    assert (EA := alloc_new X axes). destruct (construct_eq _ _ _ _ _ E) as (E1 & E2). rewrite EA in E2. cbn [fst snd] in E2. set (X1 := X ++ _) in *. set (ls := seq _ _) in *.
    assert (Hin : forall l, In l (axes_of a') -> In l ls). { intros l Hl. rewrite E2 in Hl. unfold axes_of in Hl. cbn [a_group a_fixed a_prof] in Hl. rewrite !in_app_iff, !filter_In in Hl. tauto. }
    assert (W : wf X' a').
    { split; [|split].
      - unfold valid. rewrite (x1_len _ _ _ _ _ E), EA. cbn [fst]. fold X1. apply Forall_forall. intros l Hl. apply Hin in Hl. unfold ls in Hl. apply in_seq in Hl. unfold X1. rewrite app_length, map_length. lia.
      - rewrite E2. unfold axes_of. cbn [a_group a_fixed a_prof]. assert (Hn : NoDup ls) by apply seq_NoDup. clear - Hn. induction Hn as [|l ls Hl Hn IH]; [constructor|].
        cbn [filter]. destruct (is_group (x_axis (obj X1 l))) eqn:Eg.
        + destruct (proj1 (kind_excl _) Eg) as (-> & ->). cbn [app]. constructor; auto. rewrite !in_app_iff, !filter_In. tauto.
        + destruct (is_fixed (x_axis (obj X1 l))) eqn:Ef.
          * destruct (proj1 (proj2 (kind_excl _)) Ef) as (_ & ->). eapply Permutation_NoDup; [apply Permutation_middle|]. cbn [app]. constructor; auto. rewrite !in_app_iff, !filter_In. tauto.
          * destruct (is_profile (x_axis (obj X1 l))) eqn:Ep; auto. rewrite app_assoc. eapply Permutation_NoDup; [apply Permutation_middle|]. rewrite <- app_assoc. constructor; auto. rewrite !in_app_iff, !filter_In. tauto.
      - split; [|split]; rewrite E2; cbn [a_group a_fixed a_prof]; apply Forall_forall; intros l Hl; apply filter_In in Hl; eapply kinds_after; eauto; tauto. }
    eapply add_good; eauto. intros b Hb. rewrite Forall_forall in G. destruct (G b Hb) as ((Vb & _) & _).
    assert (F : forall l, In l (axes_of a') -> l < length X -> False) by (intros l Hl Hx; apply Hin in Hl; unfold ls in Hl; apply in_seq in Hl; lia).
    split; intros l i j Hi Hj; exfalso; apply (F l).
    + unfold axes_of. rewrite !in_app_iff. apply nth_error_In in Hj. auto.
    + apply (valid_in X b); auto. apply nth_error_In in Hi. auto.
    + unfold axes_of. rewrite !in_app_iff. apply nth_error_In in Hj. auto.
    + apply (valid_in X b); auto. apply nth_error_In in Hi. auto.
  - destruct (nth_error vs i) as [a|] eqn:Ea; [|exact G]. unfold all_good in *. cbn [fst snd] in *.
    assert (Ga := proj1 (Forall_forall _ _) G a (nth_error_In _ _ Ea)). cbn beta in Ga. destruct Ga as (Wa & Pa).
    destruct (derived X a w Wa d K) as (X' & a' & E & W & Kp). rewrite E. cbn [fst snd]. eapply add_good; eauto. intros b Hb. assert (Gb := proj1 (Forall_forall _ _) G b Hb). cbn beta in Gb. destruct Gb as ((Vb & _) & Pb). eapply (kept_same X a w); eauto.
Qed.
Lemma step_old s o k a : all_good s -> nth_error (snd s) k = Some a -> nth_error (snd (cstep s o)) k = Some a /\ hist_of (fst (cstep s o)) a = hist_of (fst s) a.
Proof.
  destruct s as [X vs]. intros G H. cbn [fst snd] in *. assert (Ga := proj1 (Forall_forall _ _) G a (nth_error_In _ _ H)). cbn beta in Ga. destruct Ga as ((V & _) & _).
  assert (L : k < length vs) by (apply nth_error_Some; congruence).
  destruct o as [axes w|i d w]; cbn [cstep].
  - destruct (construct X w _) as [X' a'] eqn:E. cbn [fst snd]. split; [rewrite nth_error_app1; auto|eapply construct_hist_of; eauto].
  - destruct (nth_error vs i) as [b|]; [|auto]. destruct (construct X w _) as [X' a'] eqn:E. cbn [fst snd]. split; [rewrite nth_error_app1; auto|eapply construct_hist_of; eauto].
Qed.
Lemma run_good os : forall s, all_good s -> keeps_run s os -> all_good (crun s os) /\
  forall k a, nth_error (snd s) k = Some a -> nth_error (snd (crun s os)) k = Some a /\ hist_of (fst (crun s os)) a = hist_of (fst s) a.
Proof.
  induction os as [|o os IH]; intros s G K; [split; auto|]. cbn [keeps_run] in K. destruct K as (K1 & K2). unfold crun. cbn [fold_left]. fold (crun (cstep s o) os).
  assert (G' := step_good s o G K1). destruct (IH _ G' K2) as (G2 & O2). split; auto. intros k a Hk. destruct (step_old s o k a G Hk) as (H1 & H2). destruct (O2 k a H1) as (H3 & H4). split; auto. congruence.
Qed.

(** ** Tables *)
Lemma index_of_lt x l i : index_of x l = Some i -> i < length l.
Proof.
  revert i. induction l as [|y l IH]; intros i H; cbn [index_of] in H; [discriminate|]. destruct (axis_eqb y x); [inversion H; cbn; lia|].
  destruct (index_of x l) as [j|]; [|discriminate]. cbn [option_map] in H. inversion H; subst. cbn [length]. specialize (IH j eq_refl). lia.
Qed.
Lemma thandle_ext (f g : list nat -> list Num -> res pv) : (forall s d, f s d = g s d) -> forall c, thandle f c = thandle g c.
Proof.
  intros H. fix IH 1. intros c. destruct c as [|sh d|l|l]; cbn [thandle]; auto. f_equal. induction l as [|[k x] l IHl]; cbn [proj_items]; auto.
  rewrite (IH x). destruct (thandle g x); cbn [bind]; auto. fold (proj_items (thandle f)) in *. fold (proj_items (thandle g)) in *. rewrite IHl. reflexivity.
Qed.
Lemma table_with_ext sqrt bw wx wx' h o profile : (forall i, i < length (o_prof (p_head h)) -> wx i = wx' i) ->
  table_with sqrt bw wx h o profile = table_with sqrt bw wx' h o profile.
Proof.
  intros H. unfold table_with. cbn zeta. destruct (mapM (profile_index (p_head h)) profile) as [is|e] eqn:E; [|reflexivity]. cbn [bind].
  destruct (if t_normalized o then _ else _) as [ws|e]; [|reflexivity]. cbn [bind]. erewrite thandle_ext; [reflexivity|].
  intros s d. unfold table_array. cbn zeta. destruct (negb _); [reflexivity|].
  match goal with |- bind ?r _ = _ => destruct r as [cs|e]; [|reflexivity] end. cbn [bind]. f_equal. f_equal. f_equal.
  assert (HI : forall i, In i is -> wx i = wx' i).
  { intros i Hi. apply H. apply mapM_ok in E. clear - E Hi. induction E as [|p j ps js Hp E IH]; [destruct Hi|]. destruct Hi as [->|Hi]; auto.
    unfold profile_index in Hp. destruct (index_of p _) as [k|] eqn:Ek; [|discriminate]. inversion Hp; subst. eapply index_of_lt; eauto. }
  rewrite !flat_map_concat_map. f_equal. apply map_ext_in. intros i Hi. rewrite (HI i Hi). reflexivity.
Qed.
Lemma table_in_place sqrt bw X a h o profile : in_place X a -> length (o_prof (p_head h)) = length (a_prof a) ->
  object_table sqrt bw X a h o profile = table sqrt bw h o profile.
Proof.
  intros (_ & P) L. unfold object_table, table. apply table_with_ext. intros i Hi. apply P. rewrite L in Hi. apply nth_error_nth'. auto.
Qed.
