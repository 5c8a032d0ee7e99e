(** Proofs about shared axis objects. *)
From Coq Require Import String Permutation.
From Verif Require Import Base Num NumFacts Axis Calc Content Fill FillProofs Elem Tree Instr HistFill HistFillProofs Shared.
Local Open Scope list_scope.
Local Open Scope nat_scope.

(** ** Fills *)
Lemma flat_loop_in_place T : forall axes acc, length T = length axes ->
  (forall i t, nth_error (map fst axes) i = Some t -> nth_error T i = Some (Some t)) ->
  flat_loop_at acc (combine T (map snd axes)) = flat_loop acc axes.
Proof.
  induction T as [|t T IH]; intros [|[t' d] axes] acc Hl H; try discriminate Hl; [reflexivity|].
  cbn [map fst snd combine flat_loop_at flat_loop]. assert (E := H 0 t' eq_refl). cbn in E. inversion E; subst t.
  destruct d as [c|]; [|auto]. destruct (Nat.eqb (length acc) (length c)); auto. apply IH; auto. intros i x Hx. apply (H (S i) x Hx).
Qed.
Lemma fst_combine {A B} (l : list A) : forall m : list B, length m = length l -> map fst (combine l m) = l.
Proof. induction l as [|x l IH]; intros [|y m] H; try discriminate; auto. cbn [combine map fst]. f_equal. apply IH. injection H; auto. Qed.
Lemma snd_combine {A B} (l : list A) : forall m : list B, length m = length l -> map snd (combine l m) = m.
Proof. induction l as [|x l IH]; intros [|y m] H; try discriminate; auto. cbn [combine map snd]. f_equal. apply IH. injection H; auto. Qed.
Lemma flat_in_place T tots cols : length T = length tots -> length cols = length tots ->
  (forall i t, nth_error tots i = Some t -> nth_error T i = Some (Some t)) ->
  flat_indexes_at (combine T cols) = flat_indexes (combine tots cols).
Proof.
  intros H1 H2 H. destruct T as [|t T], tots as [|t' tots], cols as [|c cols]; try discriminate; auto.
  injection H1 as H1. injection H2 as H2.
  assert (G : forall acc, flat_loop_at acc (combine T cols) = flat_loop acc (combine tots cols)).
  { intros acc. rewrite <- (flat_loop_in_place T (combine tots cols) acc).
    - rewrite snd_combine by auto. reflexivity.
    - rewrite combine_length. lia.
    - rewrite fst_combine by auto. intros i x Hx. apply (H (S i)). exact Hx. }
  destruct T as [|t2 T], tots as [|t2' tots], cols as [|c2 cols]; try discriminate; auto.
  cbn [combine flat_indexes_at flat_indexes] in G |- *. destruct c as [c|]; auto. rewrite G. reflexivity.
Qed.
Lemma profiles_in_place k n : forall p data idx ws wx profs, length wx = n -> length profs = n -> 2 * (p + n) <= k ->
  (forall i, i < n -> nth_error wx i = Some (2 * (p + i))) ->
  fill_profiles_at k data idx ws wx profs = fill_profiles k p data idx ws profs.
Proof.
  induction n as [|n IH]; intros p data idx ws [|c wx] [|[sx sx2] profs] H1 H2 Hk H; try discriminate; auto.
  assert (E := H 0 (Nat.lt_0_succ n)). cbn [nth_error] in E. rewrite Nat.add_0_r in E. assert (Ec : c = 2 * p) by congruence. subst c. clear E.
  cbn [fill_profiles_at fill_profiles]. destruct (match ws with None => _ | Some _ => _ end) as [ws'|]; auto.
  unfold add_at_col. replace (2 * p <? k) with true by (symmetry; apply Nat.ltb_lt; lia). replace (S (2 * p) <? k) with true by (symmetry; apply Nat.ltb_lt; lia).
  replace (S (2 * p)) with (2 * p + 1) by lia. destruct (do v <- mul_weight sx ws'; _) as [d1|]; auto. destruct (do v <- mul_weight sx2 ws'; _) as [d2|]; auto.
  apply IH; [injection H1; auto|injection H2; auto|lia|]. intros i Hi. replace (S p + i) with (p + S i) by lia. apply (H (S i)). lia.
Qed.
Lemma fillblock_in_place L wx len data idx ws profs : length wx = l_nprof L -> length profs = l_nprof L ->
  (forall i, i < l_nprof L -> nth_error wx i = Some (2 * i)) ->
  fillblock_at L wx len data idx ws profs = fillblock L len data idx ws profs.
Proof.
  intros H1 H2 H. unfold fillblock_at, fillblock. rewrite (profiles_in_place _ (l_nprof L) 0); auto. unfold l_last. lia.
Qed.
Lemma dict_loop_ext f g fresh : (forall i c, f i c = g i c) -> forall us i d, dict_loop f fresh i us d = dict_loop g fresh i us d.
Proof. intros H. induction us as [|u us IH]; intros i d; cbn [dict_loop]; auto. rewrite H. destruct (g i _) as [new [e|]]; auto. Qed.
Lemma filldict_in_place L wx len : length wx = l_nprof L -> (forall i, i < l_nprof L -> nth_error wx i = Some (2 * i)) ->
  forall groups c idx profs ws all, length profs = l_nprof L ->
  filldict_at L wx len groups c idx profs ws all = filldict L len groups c idx profs ws all.
Proof.
  intros H1 H. induction groups as [|[us inv] groups IH]; intros c idx profs ws all Hp; cbn [filldict_at filldict].
  - destruct c; auto. rewrite fillblock_in_place; auto.
  - destruct c; auto. erewrite dict_loop_ext; [reflexivity|]. intros i c. cbv beta zeta. apply IH. rewrite map_length. exact Hp.
Qed.

(** Every axis has its place in the histogram written on it. *)
Definition in_place (X : axheap) (a : ahist) : Prop :=
  (forall i l, nth_error (a_fixed a) i = Some l -> x_shape (obj X l) = i) /\
  (forall i l, nth_error (a_prof a) i = Some l -> x_wx (obj X l) = 2 * i).

Lemma read_lengths h out d : read_dest h out = Ok d -> length (d_fixed d) = length (h_fixed h) /\ length (d_prof d) = length (h_prof h).
Proof.
  unfold read_dest. intros E. apply bind_ok in E. destruct E as (g & _ & E). apply bind_ok in E. destruct E as (f & Ef & E). apply bind_ok in E. destruct E as (p & Ep & E). apply bind_ok in E. destruct E as (w & _ & E). inversion E. cbn [d_fixed d_prof].
  apply mapM_ok, Forall2_len in Ef. apply mapM_ok, Forall2_len in Ep. auto.
Qed.
Theorem fill_in_place cast rnd user order srcs X a A c : in_place X a ->
  object_fill cast rnd user order srcs X a A c = hist_fill cast rnd user order srcs (hist_of X a) A c.
Proof.
  intros (Hs & Hw). unfold object_fill, hist_fill.
  destruct (do is <- instructions order srcs (hist_goals (hist_of X a)); _) as [[len d]|e] eqn:E; auto.
  apply bind_ok in E. destruct E as (is & _ & E). apply bind_ok in E. destruct E as (fs & _ & E). apply bind_ok in E. destruct E as (r & _ & E). apply bind_ok in E. destruct E as (d' & Ed & E).
  inversion E; subst d'. clear E. destruct (read_lengths _ _ _ Ed) as (L1 & L2). cbn [hist_of h_fixed h_prof] in L1, L2. rewrite map_length in L1, L2.
  unfold postfill_at, postfill.
  rewrite (flat_in_place _ (l_tots (hist_layout (hist_of X a)))).
  - destruct (flat_indexes _) as [idx|]; auto. apply filldict_in_place.
    + cbn [hist_of hist_layout l_nprof h_prof]. rewrite !map_length. reflexivity.
    + cbn [hist_of hist_layout l_nprof h_prof]. rewrite map_length. intros i Hi. rewrite nth_error_map. destruct (nth_error (a_prof a) i) as [l|] eqn:El.
      * cbn [option_map]. f_equal. apply Hw; auto.
      * apply nth_error_None in El. lia.
    + rewrite L2. cbn [hist_of hist_layout l_nprof h_prof]. rewrite map_length. reflexivity.
  - cbn [hist_of hist_layout l_tots h_fixed]. rewrite !map_length. reflexivity.
  - rewrite L1. cbn [hist_of hist_layout l_tots h_fixed]. rewrite !map_length. reflexivity.
  - intros i t Ht. rewrite nth_error_map. destruct (nth_error (a_fixed a) i) as [l|] eqn:El.
    + cbn [option_map]. f_equal. rewrite (Hs i l El). rewrite nth_error_app1; auto. apply nth_error_Some. congruence.
    + apply nth_error_None in El. exfalso. assert (i < length (l_tots (hist_layout (hist_of X a)))) by (apply nth_error_Some; congruence). cbn [hist_of hist_layout l_tots h_fixed] in H. rewrite !map_length in H. lia.
Qed.

(** ** The constructor *)
Lemma alloc_prefix args : forall X X' ls, alloc_args X args = (X', ls) -> exists Y, X' = X ++ Y.
Proof.
  induction args as [|[a t|l] args IH]; intros X X' ls E; cbn [alloc_args] in E.
  - inversion E. exists []. rewrite app_nil_r. reflexivity.
  - destruct (alloc_args _ args) as [X1 ls1] eqn:E1. inversion E; subst. destruct (IH _ _ _ E1) as (Y & ->). eexists. rewrite <- app_assoc. reflexivity.
  - destruct (alloc_args X args) as [X1 ls1] eqn:E1. inversion E; subst. apply (IH _ _ _ E1).
Qed.
Lemma obj_app X Y l : l < length X -> obj (X ++ Y) l = obj X l.
Proof. intros H. unfold obj. apply app_nth1; auto. Qed.
Lemma obj_upd f X l m : obj (upd f l X) m = if Nat.eqb m l && (l <? length X) then f (obj X m) else obj X m.
Proof.
  unfold obj. revert l m. induction X as [|x X IH]; intros l m.
  - destruct l; cbn [upd length]; rewrite andb_false_r; reflexivity.
  - destruct l as [|l], m as [|m]; cbn [upd nth length]; auto. rewrite IH. reflexivity.
Qed.
Lemma upd_len {A} (f : A -> A) l : forall i, length (upd f i l) = length l.
Proof. intros i. apply upd_length. Qed.
Lemma number_len set step ls : forall i X, length (number set i step ls X) = length X.
Proof. induction ls as [|l ls IH]; intros i X; cbn [number]; auto. rewrite IH. apply upd_length. Qed.
(** What numbering does not write. *)
Lemma number_other {A} (f : axobj -> A) set step ls : (forall i x, f (set i x) = f x) -> forall i X m, f (obj (number set i step ls X) m) = f (obj X m).
Proof.
  intros H. induction ls as [|l ls IH]; intros i X m; cbn [number]; auto. rewrite IH, obj_upd. destruct (_ && _); auto.
Qed.
Lemma number_out (f : axobj -> nat) set step ls : forall i X m, ~ In m ls -> f (obj (number set i step ls X) m) = f (obj X m).
Proof.
  induction ls as [|l ls IH]; intros i X m Hm; cbn [number]; auto. rewrite IH by (intros C; apply Hm; right; auto). rewrite obj_upd.
  replace (Nat.eqb m l) with false; [reflexivity|]. symmetry. apply Nat.eqb_neq. intros ->. apply Hm. left. reflexivity.
Qed.
Lemma number_at (f : axobj -> nat) set step ls : (forall i x, f (set i x) = i) -> NoDup ls -> forall i X j m, nth_error ls j = Some m -> m < length X ->
  f (obj (number set i step ls X) m) = i + step * j.
Proof.
  intros H. induction 1 as [|l ls Hl Hn IH]; intros i X [|j] m Hj Hm; try discriminate; cbn [number].
  - inversion Hj; subst. rewrite number_out by auto. rewrite obj_upd, Nat.eqb_refl. replace (m <? length X) with true by (symmetry; apply Nat.ltb_lt; auto). cbn [andb]. rewrite H. lia.
  - rewrite (IH (i + step) _ j m Hj) by (rewrite upd_length; auto). lia.
Qed.

Section Construct.
  Variables (X X' : axheap) (w : option wexpr) (args : list axarg) (a' : ahist).
  Hypothesis E : construct X w args = (X', a').
  Let X1 := fst (alloc_args X args).
  Let ls := snd (alloc_args X args).
  Let kind (p : axis -> bool) := filter (fun l => p (x_axis (obj X1 l))) ls.
  Lemma construct_eq : X' = number set_wx 0 2 (kind is_profile) (number set_shape 0 1 (kind is_fixed) X1) /\
    a' = {| a_group := kind is_group; a_fixed := kind is_fixed; a_prof := kind is_profile; a_weight := w |}.
  Proof. unfold construct in E. unfold kind, ls, X1. destruct (alloc_args X args) as [X2 ls2]. inversion E. auto. Qed.
  Lemma construct_axis m : axis_at X' m = axis_at X1 m.
  Proof.
    destruct construct_eq as (-> & _). unfold axis_at.
    rewrite !(number_other x_axis), !(number_other x_tree) by reflexivity. reflexivity.
  Qed.
  Lemma construct_prefix : exists Y, X1 = X ++ Y.
  Proof. unfold X1. destruct (alloc_args X args) as [X2 ls2] eqn:E2. apply (alloc_prefix _ _ _ _ E2). Qed.
  (** Axes are never changed otherwise. *)
  Lemma construct_old m : m < length X -> axis_at X' m = axis_at X m.
  Proof. intros H. rewrite construct_axis. destruct construct_prefix as (Y & ->). unfold axis_at. rewrite !obj_app by auto. reflexivity. Qed.
  Lemma construct_len : length X <= length X' .
  Proof. destruct construct_eq as (-> & _). rewrite !number_len. destruct construct_prefix as (Y & ->). rewrite app_length. lia. Qed.
  Lemma x1_len : length X' = length X1.
  Proof. destruct construct_eq as (-> & _). rewrite !number_len. reflexivity. Qed.

  Lemma shape_written i m : NoDup (a_fixed a') -> nth_error (a_fixed a') i = Some m -> m < length X' -> x_shape (obj X' m) = i.
  Proof.
    intros Hn Hm Hl. rewrite x1_len in Hl. destruct construct_eq as (-> & ->). cbn [a_fixed] in *. rewrite (number_other x_shape) by reflexivity. rewrite (number_at x_shape set_shape 1 (kind is_fixed)) with (j := i); auto. lia.
  Qed.
  Lemma wx_written i m : NoDup (a_prof a') -> nth_error (a_prof a') i = Some m -> m < length X' -> x_wx (obj X' m) = 2 * i.
  Proof.
    intros Hn Hm Hl. rewrite x1_len in Hl. destruct construct_eq as (-> & ->). cbn [a_prof] in *. rewrite (number_at x_wx set_wx 2 (kind is_profile)) with (j := i); auto. rewrite number_len. auto.
  Qed.
  Lemma shape_kept m : ~ In m (a_fixed a') -> m < length X -> x_shape (obj X' m) = x_shape (obj X m).
  Proof.
    intros Hn Hl. destruct construct_prefix as (Y & EY). destruct construct_eq as (-> & ->). cbn [a_fixed] in *. rewrite (number_other x_shape) by reflexivity. rewrite (number_out x_shape) by auto. rewrite EY, obj_app by auto. reflexivity.
  Qed.
  Lemma wx_kept m : ~ In m (a_prof a') -> m < length X -> x_wx (obj X' m) = x_wx (obj X m).
  Proof.
    intros Hn Hl. destruct construct_prefix as (Y & EY). destruct construct_eq as (-> & ->). cbn [a_prof] in *. rewrite (number_out x_wx) by auto. rewrite (number_other x_wx) by reflexivity. rewrite EY, obj_app by auto. reflexivity.
  Qed.
End Construct.

Lemma nodup_app_l {A} (l m : list A) : NoDup (l ++ m) -> NoDup l.
Proof. induction l as [|x l IH]; intros H; [constructor|]. cbn in H. inversion H; subst. constructor; auto. intros C. apply H2, in_or_app. auto. Qed.
Lemma nodup_app_r {A} (l m : list A) : NoDup (l ++ m) -> NoDup m.
Proof. induction l as [|x l IH]; intros H; auto. cbn in H. inversion H; subst. auto. Qed.
Definition axes_of (a : ahist) : list nat := a_group a ++ a_fixed a ++ a_prof a.
Definition valid (X : axheap) (a : ahist) : Prop := Forall (fun l => l < length X) (axes_of a).
(** Where the two histograms share an axis, it has the same place in both. *)
Definition same_places (a b : ahist) : Prop :=
  (forall l i j, nth_error (a_fixed a) i = Some l -> nth_error (a_fixed b) j = Some l -> i = j) /\
  (forall l i j, nth_error (a_prof a) i = Some l -> nth_error (a_prof b) j = Some l -> i = j).

Lemma valid_in X a l : valid X a -> In l (a_fixed a) \/ In l (a_prof a) \/ In l (a_group a) -> l < length X.
Proof.
  unfold valid, axes_of. rewrite Forall_forall. intros H I. apply H. rewrite !in_app_iff. tauto.
Qed.
Lemma construct_hist_of X X' w args a a' : construct X w args = (X', a') -> valid X a -> hist_of X' a = hist_of X a.
Proof.
  intros E V. unfold hist_of. f_equal.
  - apply map_ext_in. intros l Hl. apply (construct_old _ _ _ _ _ E). apply (valid_in X a); auto.
  - apply map_ext_in. intros l Hl. apply (construct_old _ _ _ _ _ E). apply (valid_in X a); auto.
  - apply map_ext_in. intros l Hl. assert (H := construct_old _ _ _ _ _ E l (valid_in X a l V (or_intror (or_introl Hl)))). unfold axis_at in H. inversion H. reflexivity.
Qed.
Lemma construct_valid X X' w args a a' : construct X w args = (X', a') -> valid X a -> valid X' a.
Proof. intros E V. unfold valid in *. eapply Forall_impl; [|exact V]. cbn beta. intros l H. assert (L := construct_len _ _ _ _ _ E). lia. Qed.
Lemma construct_in_place X X' w args a a' : construct X w args = (X', a') -> NoDup (axes_of a') -> valid X' a' ->
  valid X a -> in_place X a -> same_places a a' -> in_place X' a.
Proof.
  intros E Hn Hv' Hv (H1 & H2) (S1 & S2). assert (Hf : NoDup (a_fixed a')). { unfold axes_of in Hn. apply nodup_app_r, nodup_app_l in Hn. auto. }
  assert (Hp : NoDup (a_prof a')). { unfold axes_of in Hn. apply nodup_app_r, nodup_app_r in Hn. auto. }
  split; intros i l Hl.
  - destruct (in_dec Nat.eq_dec l (a_fixed a')) as [Hi|Hi].
    + apply In_nth_error in Hi. destruct Hi as (j & Hj). rewrite (shape_written _ _ _ _ _ E j l); auto; [symmetry; eapply S1; eauto|]. apply (valid_in X' a'); auto. left. apply nth_error_In in Hj. auto.
    + rewrite (shape_kept _ _ _ _ _ E) by (auto; apply (valid_in X a); auto; left; apply nth_error_In in Hl; auto). auto.
  - destruct (in_dec Nat.eq_dec l (a_prof a')) as [Hi|Hi].
    + apply In_nth_error in Hi. destruct Hi as (j & Hj). rewrite (wx_written _ _ _ _ _ E j l); auto; [rewrite (S2 l i j); auto|]. apply (valid_in X' a'); auto. right; left. apply nth_error_In in Hj. auto.
    + rewrite (wx_kept _ _ _ _ _ E) by (auto; apply (valid_in X a); auto; right; left; apply nth_error_In in Hl; auto). auto.
Qed.
(** The new histogram's own axes are in place. *)
Lemma construct_new_in_place X X' w args a' : construct X w args = (X', a') -> NoDup (axes_of a') -> valid X' a' -> in_place X' a'.
Proof.
  intros E Hn Hv. assert (Hf : NoDup (a_fixed a')). { unfold axes_of in Hn. apply nodup_app_r, nodup_app_l in Hn. auto. }
  assert (Hp : NoDup (a_prof a')). { unfold axes_of in Hn. apply nodup_app_r, nodup_app_r in Hn. auto. }
  split; intros i l Hl.
  - apply (shape_written _ _ _ _ _ E); auto. apply (valid_in X' a'); auto. left. apply nth_error_In in Hl. auto.
  - apply (wx_written _ _ _ _ _ E); auto. apply (valid_in X' a'); auto. right; left. apply nth_error_In in Hl. auto.
Qed.
(** An axis at two places: the older histogram is no longer in place. *)
Lemma construct_out_of_place X X' w args a a' l i j : construct X w args = (X', a') -> NoDup (axes_of a') -> valid X' a' ->
  (nth_error (a_fixed a) i = Some l /\ nth_error (a_fixed a') j = Some l) \/ (nth_error (a_prof a) i = Some l /\ nth_error (a_prof a') j = Some l) ->
  i <> j -> ~ in_place X' a.
Proof.
  intros E Hn Hv Hij Hne (H1 & H1'). destruct (construct_new_in_place _ _ _ _ _ E Hn Hv) as (H2 & H2'). apply Hne.
  destruct Hij as [(Hi & Hj)|(Hi & Hj)]; [rewrite <- (H1 i l Hi), <- (H2 j l Hj); reflexivity|]. assert (Q := H1' i l Hi). rewrite (H2' j l Hj) in Q. lia.
Qed.
