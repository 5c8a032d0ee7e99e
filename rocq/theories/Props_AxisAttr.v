(** C77: what an axis says about itself, and finding an axis by its kind and properties. *)
From Coq Require Import String Qabs Lqa Permutation Sorted.
From Verif Require Import Base Num NumFacts Axis AxisProofs Calc Content Fill FillSpec FillR FillRSpec RoundProofs Tree Order Expr ExprFacts ExprSpec AlgSpec HistAlg Nd Proj ProjSpec Table TableSpec TableNorm
  Access AccessSpec AxisAttr AxisAttrSpec AxisWidth AxisAttrProofs Props_Expr Props_HistNew Props_Table.
Open Scope string_scope.
Local Open Scope list_scope.

(** ** Sizes: totbins is the number of bins, numbins the number of those that are not underflow,
    overflow or nanflow, and finiteslice cuts out exactly these. *)
Theorem C77_sizes : forall bw a, made a -> finite_edges a -> is_fixed a = true -> a <> ANull ->
  attr bw a "totbins" = Ok (YInt (Z.of_nat (List.length (keys a)))) /\
  attr bw a "numbins" = Ok (YInt (Z.of_nat (List.length (filter finite_key (keys a))))) /\
  exists s, attr bw a "finiteslice" = Ok (YSlice s) /\ cut_out s (keys a) = filter finite_key (keys a).
Proof. exact description. Qed.
Print Assumptions C77_sizes.

(** ** The flags tell which special bins there are, and which end of each bin belongs to it. *)
Theorem C77_underflow : forall bw a u, made a -> finite_edges a -> attr bw a "underflow" = Ok (YBool u) ->
  (u = true <-> exists h cl ch, In (KIv NInf h cl ch) (keys a)).
Proof. exact underflow_flag. Qed.
Theorem C77_overflow : forall bw a o, made a -> finite_edges a -> attr bw a "overflow" = Ok (YBool o) ->
  (o = true <-> exists l cl ch, In (KIv l PInf cl ch) (keys a)).
Proof. exact overflow_flag. Qed.
Theorem C77_nanflow : forall bw a nf, made a -> finite_edges a -> is_fixed a = true -> attr bw a "nanflow" = Ok (YBool nf) ->
  (nf = true <-> In KNaN (keys a)).
Proof. exact nanflow_flag. Qed.
Theorem C77_closedlow : forall bw a cl, made a -> finite_edges a -> is_fixed a = true -> attr bw a "closedlow" = Ok (YBool cl) ->
  forall l h c1 c2, In (KIv l h c1 c2) (filter finite_key (keys a)) -> c1 = cl /\ c2 = negb cl.
Proof. exact closedlow_flag. Qed.
Print Assumptions C77_underflow.
Print Assumptions C77_overflow.
Print Assumptions C77_nanflow.
Print Assumptions C77_closedlow.

(** ** low and high, min and max are the ends of the finite bins. *)
Theorem C77_low_high : forall bw a l h, made a -> finite_edges a -> attr bw a "low" = Ok (YFloat l) -> attr bw a "high" = Ok (YFloat h) ->
  filter finite_key (keys a) <> [] ->
  (exists y cl ch, first_is (KIv l y cl ch) (filter finite_key (keys a))) /\ (exists x cl ch, last_is (KIv x h cl ch) (filter finite_key (keys a))).
Proof. exact low_high. Qed.
Theorem C77_min_max : forall bw a mn mx, made a -> attr bw a "min" = Ok (YInt mn) -> attr bw a "max" = Ok (YInt mx) ->
  first_is (KInt mn) (filter finite_key (keys a)) /\ last_is (KInt mx) (filter finite_key (keys a)).
Proof. exact min_max. Qed.
Print Assumptions C77_low_high.
Print Assumptions C77_min_max.

(** ** copy() gives the same axis; relabel() changes the expression and nothing else. *)
Theorem C77_copy : forall a, made a -> nan_free_axis a -> copy_axis a = Ok a.
Proof. intros a M N. rewrite copy_is, relabel_ok, with_own by auto. reflexivity. Qed.
Theorem C77_relabel : forall label a, made a -> nan_free_axis a -> a <> ANull ->
  exists b, relabel label a = Ok b /\ axis_expr b = label /\ unnamed b = unnamed a /\ keys b = keys a /\ made b /\
    forall bw name, name <> "expr" -> attr bw b name = attr bw a name.
Proof.
  intros label a M N NN. exists (with_expr label a). rewrite relabel_ok by auto. split; auto. split; [destruct a; auto; congruence|]. split; [destruct a; auto|].
  split; [apply keys_with|]. split; [|intros; apply attr_with; auto]. pose proof (relabel_ok label a M N) as R.
  destruct a as [e|e w og nf cl|e n l h u o nf cl|e mn mx u o|e es u o nf cl|e| |e]; auto. exists es. exact R.
Qed.
Print Assumptions C77_copy.
Print Assumptions C77_relabel.

(** ** items(content) pairs every key with the content of its bin. *)
Theorem C77_items : forall A a (content : list A), is_fixed a = true -> a <> ANull -> List.length content = List.length (keys a) ->
  exists l, items a content = Ok l /\ map fst l = keys a /\ map snd l = content.
Proof.
  intros A a content F N L. exists (combine (keys a) content). unfold items. rewrite L, Nat.eqb_refl. split; auto.
  revert L. generalize (keys a). intros ks. revert content. induction ks as [|k ks IH]; intros [|c content] L; try discriminate; [auto|].
  injection L as L. destruct (IH content L) as (E1 & E2). cbn [combine map fst snd]. rewrite E1, E2. auto.
Qed.
Theorem C77_items_wrong_length : forall A a (content : list A), List.length content <> List.length (keys a) -> items a content = Err ValueError.
Proof. intros A a content L. unfold items. destruct (Nat.eqb_spec (List.length (keys a)) (List.length content)); [congruence|reflexivity]. Qed.
Print Assumptions C77_items.

(** ** Widths *)
(** split.binwidth(i) is the width of the finite bin number i, counted from the end if negative. *)
Theorem C77_split_binwidth : forall e es u o nf cl z i, made (ASplit e es u o nf cl) -> finite_edges (ASplit e es u o nf cl) ->
  means_index (List.length es - 1) z i ->
  exists lo hi c1 c2, nth_error (filter finite_key (keys (ASplit e es u o nf cl))) i = Some (KIv lo hi c1 c2) /\ split_binwidth es z = Ok (nsub hi lo).
Proof.
  intros e es u o nf cl z i M F (L & Z). rewrite (finite_keys _ M F). cbn [finite_of].
  destruct (nth_error es i) as [x|] eqn:X; [|apply nth_error_None in X; lia]. destruct (nth_error es (i + 1)) as [y|] eqn:Y; [|apply nth_error_None in Y; lia].
  exists x, y, cl, (negb cl). split; [|apply (split_width es z i x y); [split|..]; auto].
  rewrite nth_error_map. assert (P : nth_error (pairs_of es) i = Some (x, y)).
  { clear -X Y. revert i X Y. induction es as [|a es IH]; intros i X Y; [destruct i; discriminate|]. destruct es as [|b es]; [destruct i as [|[|]]; discriminate|].
    change (pairs_of (a :: b :: es)) with ((a, b) :: pairs_of (b :: es)). destruct i as [|i]; [cbn in *; congruence|]. apply IH; auto. }
  rewrite P. reflexivity.
Qed.
Theorem C77_split_binwidth_too_high : forall es z, es <> [] -> (Z.of_nat (List.length es) - 1 <= z)%Z -> split_binwidth es z = Err IndexError.
Proof. intros. apply split_width_high; auto. Qed.
(** An index that is too low is not refused: one below the range gives minus the whole range. *)
Theorem C77_split_binwidth_too_low_refuted : forall e es u o nf cl l h, made (ASplit e es u o nf cl) -> 2 <= List.length es ->
  nth_error es 0 = Some l -> nth_error es (List.length es - 1) = Some h -> split_binwidth es (- Z.of_nat (List.length es)) = Ok (nsub l h).
Proof. intros. apply split_width_wraps; auto. Qed.
Print Assumptions C77_split_binwidth.
Print Assumptions C77_split_binwidth_too_high.
Print Assumptions C77_split_binwidth_too_low_refuted.

(** bin.binwidth: the loop ends after at most three subtractions; the result is positive, a number
    with 53 bits, and the width up to eight roundings; but numbins times it is always less than the
    difference of high and low as the machine computes it. *)
Theorem C77_bin_binwidth : forall e n l h u o nf cl, made (ABin e n (Fin l) (Fin h) u o nf cl) -> 0 < n ->
  exists w, (forall turns, 3 < turns -> bin_binwidth turns n (Fin l) (Fin h) = Some (Ok (Fin w))) /\ float53 w /\ (0 < this w)%Q /\
    (this w * inject_Z (Z.of_nat n) < this (round53 (h - l)))%Q /\
    (Qabs (this w * inject_Z (Z.of_nat n) - (this h - this l)) <= (8 # 2 ^ 53) * (this h - this l))%Q.
Proof.
  intros e n l h u o nf cl M Hn. apply binwidth_ok; auto. apply made_bin in M. destruct M as (M & _). destruct (M Hn) as [L|[L|L]]; try discriminate.
  cbn [nltb] in L. apply qltb_iff in L. exact L.
Qed.
(** nextafter in the model is what it should be. *)
Theorem C77_neighbour : forall a, float53 a -> (0 < this a)%Q -> exists b, toward0 (Fin a) = Fin b /\ just_below a b.
Proof. exact toward0_below. Qed.
(** So binwidth is never the width of the bins (where high - low is exact). *)
Theorem C77_bin_binwidth_refuted : forall e n l h u o nf cl w turns i lo hi c1 c2, made (ABin e n (Fin l) (Fin h) u o nf cl) -> float53 (h - l) ->
  3 < turns -> bin_binwidth turns n (Fin l) (Fin h) = Some (Ok w) ->
  nth_error (filter finite_key (keys (ABin e n (Fin l) (Fin h) u o nf cl))) i = Some (KIv lo hi c1 c2) -> nltb w (nsub hi lo) = true.
Proof.
  intros e n l h u o nf cl w turns i lo hi c1 c2 M FL HT E N.
  assert (FE : finite_edges (ABin e n (Fin l) (Fin h) u o nf cl)) by (split; eexists; reflexivity). rewrite (finite_keys _ M FE) in N. cbn [finite_of] in N.
  rewrite nth_error_map in N. destruct (nth_error (seq 0 n) i) as [j|] eqn:S; [|discriminate]. cbn [option_map] in N.
  assert (J : j < n). { apply nth_error_In, in_seq in S. lia. } assert (Hn : 0 < n) by lia. rewrite !(i2x_edge n l h Hn) in N. injection N as <- <- _ _.
  destruct (C77_bin_binwidth _ _ _ _ _ _ _ _ M Hn) as (w' & T & _ & _ & W & _). rewrite (T turns HT) in E. injection E as <-. rewrite (round53_id _ FL) in W.
  unfold nsub, nneg, nadd. cbn [nltb]. apply qltb_iff. rewrite this_add, this_opp. unfold edge. rewrite !this_add, !this_mul, !this_div, !this_qz, !this_sub in *.
  pose proof (qn_pos n Hn) as P. set (d := inject_Z (Z.of_nat n)) in *. replace (Z.of_nat (j + 1)) with (Z.of_nat j + 1)%Z by lia. rewrite inject_Z_plus. change (inject_Z 1) with 1%Q.
  set (t := inject_Z (Z.of_nat j)). set (D := (this h - this l)%Q) in *.
  assert (X : ((t + 1) / d * D + this l + - (t / d * D + this l) == D / d)%Q) by (field; lra). rewrite X.
  apply Qlt_shift_div_l; auto.
Qed.
(** Without finite bins there is no width. *)
Theorem C77_bin_binwidth_none : forall turns l h, bin_binwidth turns 0 l h = Some (Err ZeroDivisionError).
Proof. reflexivity. Qed.
Print Assumptions C77_bin_binwidth.
Print Assumptions C77_neighbour.
Print Assumptions C77_bin_binwidth_refuted.

(** The widths by which a normalized table divides are positive (the hypothesis of
    C43_normalized_counts_are_shares), so it needs no other condition on the axes. *)
Definition machine_width (n : nat) (l h : Num) : Num :=
  match bin_binwidth 4 n l h with Some (Ok w) => w | _ => NaN end.
Definition has_bins (a : axis) : Prop := filter finite_key (keys a) <> [].
Theorem C77_widths_positive : forall a, made a -> finite_edges a -> uniform a -> has_bins a -> pos (width_of machine_width a).
Proof.
  intros a M F U B. destruct a as [e|e w og nf cl|e n l h u o nf cl|e mn mx u o|e es u o nf cl|e| |e]; try contradiction; cbn [width_of];
    try (exists qc1; split; [reflexivity|reflexivity]).
  destruct F as ((l' & ->) & (h' & ->)). destruct n as [|n]. { exfalso. apply B. rewrite (finite_keys _ M) by (split; eexists; reflexivity). reflexivity. }
  destruct (C77_bin_binwidth _ _ _ _ _ _ _ _ M (Nat.lt_0_succ n)) as (w & T & _ & P & _). exists w. split; auto. unfold machine_width. rewrite T by lia. reflexivity.
Qed.
Theorem C77_normalized_tables : forall sqrt h o profs is, hobj_ok h -> o_group h = [] -> o_content h <> CNone ->
  Forall uniform (o_fixed h) -> Forall (fun a => made a /\ finite_edges a /\ has_bins a) (o_fixed h) -> finite_content h -> pos (grand_total h) ->
  Forall2 (profile_number h) profs is -> t_count o = true -> t_normalized o = true ->
  (t_recarray o = true -> table_columns o profs <> [] /\ has_dup (table_columns o profs) = false) ->
  exists T, table sqrt machine_width (view h) o profs = Ok (T, table_columns o profs) /\
    forall ss, in_shape (o_layout h) ss -> exists rest, bin_row T [] ss = Some (ndiv (hcell h [] ss SumW) (divisor h ss) :: rest).
Proof.
  intros sqrt h o profs is OK G C U M F P PN TC TN TR.
  destruct (C43_normalized_counts_are_shares sqrt machine_width h o profs is OK G C U) as (T & E & R); auto.
  - rewrite Forall_forall in *. intros a I. destruct (M a I) as (M1 & M2 & M3). apply C77_widths_positive; auto.
  - exists T. split; auto. intros ss S. rewrite (R ss S). eexists. reflexivity.
Qed.
Print Assumptions C77_widths_positive.
Print Assumptions C77_normalized_tables.

(** ** Arguments of the constructors *)
(** A constructor succeeds exactly on arguments of the right types with the right values. *)
Theorem C77_new_bin : forall e n l h u o nf cl a, new_bin e n l h u o nf cl = Ok a <->
  exists n' l' h' u' o' nf' cl', an_int n (Z.of_nat n') /\ a_real l l' /\ a_real h h' /\ a_bool u u' /\ a_bool o o' /\ a_bool nf nf' /\ a_bool cl cl' /\
    mk_bin e n' l' h' u' o' nf' cl' = Ok a.
Proof. exact new_bin_iff. Qed.
Theorem C77_new_groupbin : forall e w og nf cl a, new_groupbin e w og nf cl = Ok a <->
  exists w' o' nf' cl', a_real w w' /\ a_real og o' /\ a_bool nf nf' /\ a_bool cl cl' /\ mk_groupbin e w' o' nf' cl' = Ok a.
Proof. exact new_groupbin_iff. Qed.
Theorem C77_new_intbin : forall e mn mx u o a, new_intbin e mn mx u o = Ok a <->
  exists mn' mx' u' o', an_int mn mn' /\ an_int mx mx' /\ a_bool u u' /\ a_bool o o' /\ mk_intbin e mn' mx' u' o' = Ok a.
Proof. exact new_intbin_iff. Qed.
Theorem C77_new_split : forall e es u o nf cl a, new_split e es u o nf cl = Ok a <->
  exists es' u' o' nf' cl', edges_of es es' /\ a_bool u u' /\ a_bool o o' /\ a_bool nf nf' /\ a_bool cl cl' /\ mk_split e es' u' o' nf' cl' = Ok a.
Proof. exact new_split_iff. Qed.
Print Assumptions C77_new_bin.
Print Assumptions C77_new_groupbin.
Print Assumptions C77_new_intbin.
Print Assumptions C77_new_split.
(** Otherwise the error is a TypeError or a ValueError; a TypeError if a number is not of its type. *)
Lemma int_err y e : to_int y = Err e -> e = TypeError. Proof. destruct y; cbn; congruence. Qed.
Lemma nonneg_err y e : to_nonneg y = Err e -> e = TypeError.
Proof. unfold to_nonneg. destruct (to_int y) eqn:E; [destruct (_ <? 0)%Z; congruence|]. destruct y; cbn in E; congruence. Qed.
Lemma real_err y e : to_real y = Err e -> e = TypeError. Proof. destruct y; cbn; congruence. Qed.
Lemma bool_err y e : to_bool y = Err e -> e = TypeError. Proof. destruct y; cbn; congruence. Qed.
Lemma edges_err y e : to_edges y = Err e -> e = TypeError.
Proof. unfold to_edges. destruct (y_num y); [discriminate|]. destruct y as [|b|z|x|t|l|l|sl|]; try congruence; destruct l; try congruence; destruct (all_some _); congruence. Qed.
Theorem C77_constructor_errors : forall e er,
  (forall n l h u o nf cl, new_bin e n l h u o nf cl = Err er -> er = TypeError \/ er = ValueError) /\
  (forall w og nf cl, new_groupbin e w og nf cl = Err er -> er = TypeError \/ er = ValueError) /\
  (forall mn mx u o, new_intbin e mn mx u o = Err er -> er = TypeError \/ er = ValueError) /\
  (forall es u o nf cl, new_split e es u o nf cl = Err er -> er = TypeError \/ er = ValueError).
Proof.
  intros e er.
  assert (B : forall A B (r : res A) (k : A -> res B), bind r k = Err er -> r = Err er \/ exists a, r = Ok a /\ k a = Err er) by (intros A B [a|x] k H; cbn in *; [right; eauto|left; congruence]).
  repeat split; intros; unfold new_bin, new_groupbin, new_intbin, new_split in *; cbv zeta in *;
    repeat match goal with
    | H : bind _ _ = Err er |- _ => apply B in H; destruct H as [H|(? & _ & H)]
    | H : (if ?b then _ else _) = Err er |- _ => destruct b
    | H : Err _ = Err er |- _ => injection H as <-; auto
    | H : Ok _ = Err er |- _ => discriminate
    | H : to_int ?y = Err er |- _ => left; apply (int_err y er); exact H
    | H : to_nonneg ?y = Err er |- _ => left; apply (nonneg_err y er); exact H
    | H : to_real ?y = Err er |- _ => left; apply (real_err y er); exact H
    | H : to_bool ?y = Err er |- _ => left; apply (bool_err y er); exact H
    | H : to_edges ?y = Err er |- _ => left; apply (edges_err y er); exact H
    end.
Qed.
Theorem C77_type_errors : forall e n l h u o nf cl mn mx es,
  ((forall z, (0 <= z)%Z -> ~ an_int n z) -> new_bin e n l h u o nf cl = Err TypeError) /\
  ((exists z, (0 <= z)%Z /\ an_int n z) -> (forall x, ~ a_real l x) -> new_bin e n l h u o nf cl = Err TypeError) /\
  ((exists z, (0 <= z)%Z /\ an_int n z) -> (exists x, a_real l x) -> (forall x, ~ a_real h x) -> new_bin e n l h u o nf cl = Err TypeError) /\
  ((forall z, ~ an_int mn z) -> new_intbin e mn mx u o = Err TypeError) /\
  ((exists z, an_int mn z) -> (forall z, ~ an_int mx z) -> new_intbin e mn mx u o = Err TypeError) /\
  ((forall x, ~ a_real l x) -> new_groupbin e l h nf cl = Err TypeError) /\
  ((forall x, ~ edges_of es x) -> new_split e es u o nf cl = Err TypeError).
Proof.
  intros. assert (T : forall A (r : res A), (forall a, r <> Ok a) -> (forall x, r = Err x -> x = TypeError) -> r = Err TypeError) by (intros A [a|x] H1 H2; [destruct (H1 a); auto|rewrite (H2 x); auto]).
  assert (N : (exists z, (0 <= z)%Z /\ an_int n z) -> exists k, to_nonneg n = Ok k).
  { intros (z & Hz & A). exists (Z.to_nat z). apply to_nonneg_iff. rewrite Z2Nat.id; auto. }
  assert (R : forall y, (forall x, ~ a_real y x) -> to_real y = Err TypeError).
  { intros y H. apply T; [|apply real_err]. intros a E. apply to_real_iff in E. apply (H a); auto. }
  split; [|split; [|split; [|split; [|split; [|split]]]]].
  - intros H. unfold new_bin. rewrite (T _ (to_nonneg n)); [reflexivity| |apply nonneg_err]. intros a E. apply to_nonneg_iff in E. apply (H (Z.of_nat a)); auto. lia.
  - intros H1 H2. destruct (N H1) as (k & K). unfold new_bin. rewrite K. cbn [bind]. rewrite (R l H2). reflexivity.
  - intros H1 (x & X) H2. destruct (N H1) as (k & K). apply to_real_iff in X. unfold new_bin. rewrite K, X. cbn [bind]. rewrite (R h H2). reflexivity.
  - intros H. unfold new_intbin. rewrite (T _ (to_int mn)); [reflexivity| |apply int_err]. intros a E. apply to_int_iff in E. apply (H a); auto.
  - intros (z & H1) H0. unfold new_intbin. apply to_int_iff in H1. rewrite H1. cbn [bind]. rewrite (T _ (to_int mx)); [reflexivity| |apply int_err]. intros a E. apply to_int_iff in E. apply (H0 a); auto.
  - intros H. unfold new_groupbin. rewrite (R l H). reflexivity.
  - intros H. unfold new_split. rewrite (T _ (to_edges es)); [reflexivity| |apply edges_err]. intros a E. apply to_edges_iff in E. apply (H a); auto.
Qed.
Print Assumptions C77_constructor_errors.
Print Assumptions C77_type_errors.

(** The properties of the new axis equal the arguments (the edges of a split: the same numbers in
    increasing order). *)
Theorem C77_constructor_properties : forall bw e,
  (forall n l h u o nf cl a, new_bin e n l h u o nf cl = Ok a -> nan_free_axis a ->
     forall p, In p [("expr", YStr e); ("numbins", n); ("low", l); ("high", h); ("underflow", u); ("overflow", o); ("nanflow", nf); ("closedlow", cl)] -> has_property bw a p) /\
  (forall w og nf cl a, new_groupbin e w og nf cl = Ok a -> nan_free_axis a ->
     forall p, In p [("expr", YStr e); ("binwidth", w); ("origin", og); ("nanflow", nf); ("closedlow", cl)] -> has_property bw a p) /\
  (forall mn mx u o a, new_intbin e mn mx u o = Ok a ->
     forall p, In p [("expr", YStr e); ("min", mn); ("max", mx); ("underflow", u); ("overflow", o)] -> has_property bw a p) /\
  (forall es es' u o nf cl a, new_split e es u o nf cl = Ok a -> edges_of es es' -> Forall (fun x => isnan x = false) es' ->
     (forall p, In p [("expr", YStr e); ("underflow", u); ("overflow", o); ("nanflow", nf); ("closedlow", cl)] -> has_property bw a p) /\
     exists s, attr bw a "edges" = Ok (YTuple (map Some s)) /\ (forall x, In x s <-> In x es') /\ List.length s = List.length es' /\ StronglySorted (fun x y => nltb x y = true) s).
Proof.
  assert (EI : forall y z, an_int y z -> y_num y = Some (nz z)) by (intros y z []; auto; destruct b; reflexivity).
  assert (ER : forall y x, a_real y x -> y_num y = Some x) by (intros y x [y' z A|x']; auto).
  assert (HI : forall y z, an_int y z -> y_eqb (YInt z) y = true) by (intros y z A; unfold y_eqb; cbn [y_num]; rewrite (EI _ _ A); apply neqb_refl; reflexivity).
  assert (HR : forall y x, a_real y x -> isnan x = false -> y_eqb (YFloat x) y = true) by (intros y x A N; unfold y_eqb; cbn [y_num]; rewrite (ER _ _ A); apply neqb_refl; exact N).
  assert (HB : forall y b, a_bool y b -> y_eqb (YBool b) y = true) by (intros y b []; unfold y_eqb; cbn [y_num]; apply neqb_refl; reflexivity).
  assert (HS : forall t, y_eqb (YStr t) (YStr t) = true) by (intros; apply String.eqb_refl).
  intros bw e. split; [|split; [|split]].
  - intros n l h u o nf cl a H NF p I. apply new_bin_iff in H. destruct H as (n' & l' & h' & u' & o' & nf' & cl' & N & L & Hh & U & O & NFl & CL & H). unfold mk_bin in H.
    destruct (_ || _); [discriminate|]. destruct (Nat.eqb _ 0); [discriminate|]. injection H as <-. destruct NF as (NL & NH).
    repeat (destruct I as [<-|I]; [unfold has_property; cbn [fst snd]; eexists; split; [reflexivity|auto]|]). destruct I.
  - intros w og nf cl a H NF p I. apply new_groupbin_iff in H. destruct H as (w' & o' & nf' & cl' & W & O & NFl & CL & H). unfold mk_groupbin in H.
    destruct (nleb _ _); [discriminate|]. injection H as <-. destruct NF as (NL & NH).
    repeat (destruct I as [<-|I]; [unfold has_property; cbn [fst snd]; eexists; split; [reflexivity|auto]|]). destruct I.
  - intros mn mx u o a H p I. apply new_intbin_iff in H. destruct H as (mn' & mx' & u' & o' & W & X & U & O & H). unfold mk_intbin in H.
    destruct (_ <? _)%Z; [discriminate|]. injection H as <-.
    repeat (destruct I as [<-|I]; [unfold has_property; cbn [fst snd]; eexists; split; [reflexivity|auto]|]). destruct I.
  - intros es es' u o nf cl a H Ed NN. apply new_split_iff in H. destruct H as (es2 & u' & o' & nf' & cl' & Ed2 & U & O & NFl & CL & H).
    assert (es2 = es') by (apply to_edges_iff in Ed; apply to_edges_iff in Ed2; congruence). subst es2. unfold mk_split in H. destruct es' as [|x es']; [discriminate|]. cbv zeta in H.
    destruct (Axis.has_dup (sort_num (x :: es'))) eqn:D; [discriminate|]. destruct (Nat.eqb _ 0); [discriminate|]. injection H as <-. split.
    + intros p I. repeat (destruct I as [<-|I]; [unfold has_property; cbn [fst snd]; eexists; split; [reflexivity|auto]|]). destruct I.
    + exists (sort_num (x :: es')). split; [reflexivity|]. split; [intros y; apply sort_num_in|]. split; [apply sort_num_length|].
      assert (NS : Forall (fun y => isnan y = false) (sort_num (x :: es'))). { rewrite Forall_forall in *. intros y Hy. apply NN. apply sort_num_in. exact Hy. }
      assert (SS : StronglySorted (fun a b => nleb a b = true) (sort_num (x :: es'))) by (apply sort_num_sorted; intros y Hy; rewrite Forall_forall in NN; specialize (NN y Hy); intros ->; discriminate).
      revert D NS SS. generalize (sort_num (x :: es')). intros s. induction s as [|y s IH]; intros D NS SS; constructor.
      * apply IH; [cbn [Axis.has_dup] in D; apply orb_false_iff in D; tauto|inversion NS; auto|inversion SS; auto].
      * inversion SS as [|? ? S1 S2]; subst. cbn [Axis.has_dup] in D. apply orb_false_iff in D. destruct D as (D & _). rewrite Forall_forall in *. intros z Hz.
        specialize (S2 z Hz). apply nleb_iff in S2. destruct S2 as [S2|(-> & S2)]; auto. exfalso. assert (existsb (neqb z) s = true) by (apply existsb_exists; exists z; split; auto; apply neqb_refl; auto). congruence.
Qed.
Print Assumptions C77_constructor_properties.

(** ** Finding an axis *)
Definition lookup_of (bw : nat -> Num -> Num -> res Num) (k : kind) (s : src) (kwargs : list (string * yv)) (axes : list (axis * expr)) : res (axis * expr) :=
  find_axis bw py_sorted nodefs k s kwargs axes.
Definition keywords (kwargs : list (string * yv)) : Prop := forall p, In p kwargs -> fst p <> "expr" /\ fst p <> "self".
Lemma no_positional kwargs : keywords kwargs -> existsb (fun p => String.eqb (fst p) "expr" || String.eqb (fst p) "self") kwargs = false.
Proof.
  intros K. destruct (existsb _ kwargs) eqn:E; auto. apply existsb_exists in E. destruct E as (p & I & E). destruct (K p I) as (K1 & K2).
  apply orb_prop in E. destruct E as [E|E]; apply String.eqb_eq in E; congruence.
Qed.
(** What is found is the first axis of that kind, with that expression, whose properties equal the
    keyword arguments. *)
Theorem C77_lookup_sound : forall bw k s kwargs axes p, lookup_of bw k s kwargs axes = Ok p ->
  exists e i, parse_top py_sorted nodefs s = Ok e /\ nth_error axes i = Some p /\ fits bw k e kwargs p /\
    forall j q, j < i -> nth_error axes j = Some q -> ~ fits bw k e kwargs q.
Proof.
  intros bw k s kwargs axes p H. unfold lookup_of, find_axis in H. destruct (existsb _ kwargs); [discriminate|].
  destruct (parse_top py_sorted nodefs s) as [e|er]; [|discriminate]. cbn [bind] in H. apply find_in_sound in H. destruct H as (i & N & F & B). exists e, i. auto.
Qed.
(** If there is such an axis, one is found; if there is none, IndexError. *)
Theorem C77_lookup_complete : forall bw k s e kwargs axes, parse_top py_sorted nodefs s = Ok e -> keywords kwargs ->
  (forall a e', In (a, e') axes -> is_kind k a = true -> readable bw kwargs a) ->
  ((exists p, In p axes /\ fits bw k e kwargs p) -> exists q, lookup_of bw k s kwargs axes = Ok q) /\
  ((forall p, In p axes -> ~ fits bw k e kwargs p) -> lookup_of bw k s kwargs axes = Err IndexError).
Proof.
  intros bw k s e kwargs axes P K R. unfold lookup_of, find_axis. rewrite (no_positional _ K), P. cbn [bind]. split.
  - intros (p & I & F). eapply find_in_complete; eauto.
  - intros NF. apply find_in_none; auto.
Qed.
(** All properties but the binwidth of a bin axis without finite bins can be read. *)
Theorem C77_readable : forall (bw : nat -> Num -> Num -> res Num) kwargs a, made a ->
  (forall e n l h u o nf cl, a = ABin e n l h u o nf cl -> In "binwidth" (map fst kwargs) -> exists w, bw n l h = Ok w) -> readable bw kwargs a.
Proof.
  intros bw kwargs a M H (n, x) I. cbn [fst]. assert (IB : n = "binwidth" -> In "binwidth" (map fst kwargs)) by (intros <-; apply (in_map fst) in I; exact I).
  unfold attr. assert (X : forall l : list (string * res yv), (forall m v, In (m, v) l -> (exists y, v = Ok y) \/ (m = "binwidth" /\ (n = "binwidth" -> exists y, v = Ok y))) ->
    (exists v, lookup n l = Ok v) \/ lookup n l = Err AttributeError).
  { induction l as [|(m, v) l IH]; intros L; [right; reflexivity|]. cbn [lookup]. destruct (String.eqb_spec m n) as [->|]; [|apply IH; intros m' v' J; apply L; right; auto].
    destruct (L n v (or_introl eq_refl)) as [L1|(L1 & L2)]; auto. }
  apply X. intros m v J.
  destruct a as [e|e w og nf cl|e nb l h u o nf cl|e mn mx u o|e es u o nf cl|e| |e]; cbn [properties In] in J;
    repeat (destruct J as [J|J]; [injection J as <- <-; try (left; eexists; reflexivity)|]); try (destruct J; fail).
  - right. split; auto. intros E. destruct (H e nb l h u o nf cl eq_refl (IB E)) as (w & W). rewrite W. eexists. reflexivity.
  - left. apply made_split in M. destruct es as [|y es]; [congruence|]. eexists. reflexivity.
  - left. apply made_split in M. unfold py_nth. assert (Z : norm_index (List.length es) (-1) = Some (List.length es - 1)).
    { apply AccessProofs.means_index_iff. destruct es; [congruence|]. cbn [List.length]. split; lia. }
    rewrite Z. destruct (nth_error es (List.length es - 1)) as [y|] eqn:Y; [eexists; reflexivity|]. apply nth_error_None in Y. destruct es; [congruence|]. cbn [List.length] in Y. lia.
Qed.
(** An axis is found by its expression and the arguments of its constructor: what is found has the
    same binning. *)
Theorem C77_lookup_by_arguments : forall bw axes a e k s, In (a, e) axes -> parse_top py_sorted nodefs s = Ok e -> is_kind k a = true -> nan_free_axis a ->
  (forall b e', In (b, e') axes -> made b) -> exists b, lookup_of bw k s (constructor_arguments a) axes = Ok (b, e) /\ unnamed b = unnamed a.
Proof.
  intros bw axes a e k s I P K NF MD.
  assert (KW : keywords (constructor_arguments a)). { intros p J. destruct a; cbn [constructor_arguments In] in J; repeat (destruct J as [<-|J]; [split; discriminate|]); destruct J. }
  assert (NB : forall n, y_num (YInt n) = Some (nz n)) by reflexivity.
  assert (RE : forall x, isnan x = false -> neqb x x = true) by (intros; apply neqb_refl; auto).
  assert (IE : forall l, Forall (fun x => isnan x = false) l -> items_eqb (map Some l) (map Some l) = true).
  { induction 1 as [|x l X L IH]; auto. cbn [map items_eqb]. rewrite neqb_refl, IH by auto. reflexivity. }
  assert (F : fits bw k e (constructor_arguments a) (a, e)).
  { split; auto. split; auto. cbn [fst]. intros q J. destruct a as [e'|e' w og nf cl|e' n l h u o nf cl|e' mn mx u o|e' es u o nf cl|e'| |e']; cbn [constructor_arguments In nan_free_axis] in J, NF;
      repeat (destruct J as [<-|J]; [unfold has_property; cbn [fst snd]; eexists; split; [reflexivity|]; unfold y_eqb; cbn [y_num];
        first [apply neqb_refl; first [reflexivity|apply NF]|apply IE, NF]|]); destruct J. }
  assert (R : forall b e', In (b, e') axes -> is_kind k b = true -> readable bw (constructor_arguments a) b).
  { intros b e' J KB. apply C77_readable; [eapply MD; eauto|]. intros e2 n l h u o nf cl -> B. exfalso. destruct k; try discriminate. destruct a; try discriminate. cbn in B. intuition discriminate. }
  destruct (proj1 (C77_lookup_complete bw k s e (constructor_arguments a) axes P KW R)) as ((b, e') & L); [exists (a, e); auto|].
  destruct (C77_lookup_sound _ _ _ _ _ _ L) as (e2 & i & P2 & _ & (K2 & E2 & F2) & _). cbn [fst snd] in *. assert (e2 = e) by congruence. subst e2 e'. exists b. split; auto.
  assert (Q : forall n x, In (n, x) (constructor_arguments a) -> exists v, attr bw b n = Ok v /\ y_eqb v x = true) by (intros n x J; exact (F2 (n, x) J)).
  assert (BB : forall x y, y_eqb (YBool x) (YBool y) = true -> x = y) by (intros [] []; auto; discriminate).
  assert (FF : forall x y, y_eqb (YFloat x) (YFloat y) = true -> x = y) by (intros x y Y; unfold y_eqb in Y; cbn [y_num] in Y; apply neqb_iff in Y; tauto).
  assert (II : forall x y, y_eqb (YInt x) (YInt y) = true -> x = y).
  { intros x y Y. unfold y_eqb in Y. cbn [y_num] in Y. apply neqb_iff in Y. destruct Y as (Y & _). apply AxisProofs2.nz_inj. exact Y. }
  assert (TT : forall l m, y_eqb (YTuple (map Some l)) (YTuple (map Some m)) = true -> l = m).
  { unfold y_eqb. cbn [y_num]. induction l as [|x l IH]; intros [|y m] Y; try discriminate; auto. cbn [map items_eqb] in Y. apply andb_prop in Y. destruct Y as (Y1 & Y2). apply neqb_iff in Y1. f_equal; [tauto|]. apply IH. exact Y2. }
  destruct k; destruct a as [e1|e1 w1 og1 nf1 cl1|e1 n1 l1 h1 u1 o1 nf1 cl1|e1 mn1 mx1 u1 o1|e1 es1 u1 o1 nf1 cl1|e1| |e1]; try discriminate;
    destruct b as [e2|e2 w2 og2 nf2 cl2|e2 n2 l2 h2 u2 o2 nf2 cl2|e2 mn2 mx2 u2 o2|e2 es2 u2 o2 nf2 cl2|e2| |e2]; try discriminate; cbn [unnamed]; auto; cbn [constructor_arguments] in Q.
  - destruct (Q _ _ (or_introl eq_refl)) as (v1 & A1 & Y1). attr_in A1. injection A1 as <-. apply FF in Y1.
    destruct (Q _ _ (or_intror (or_introl eq_refl))) as (v2 & A2 & Y2). attr_in A2. injection A2 as <-. apply FF in Y2.
    destruct (Q _ _ (or_intror (or_intror (or_introl eq_refl)))) as (v3 & A3 & Y3). attr_in A3. injection A3 as <-. apply BB in Y3.
    destruct (Q _ _ (or_intror (or_intror (or_intror (or_introl eq_refl))))) as (v4 & A4 & Y4). attr_in A4. injection A4 as <-. apply BB in Y4. congruence.
  - destruct (Q "numbins" (YInt (Z.of_nat n1))) as (v1 & A1 & Y1); [cbn; tauto|]. attr_in A1. injection A1 as <-. apply II in Y1.
    destruct (Q "low" (YFloat l1)) as (v2 & A2 & Y2); [cbn; tauto|]. attr_in A2. injection A2 as <-. apply FF in Y2.
    destruct (Q "high" (YFloat h1)) as (v3 & A3 & Y3); [cbn; tauto|]. attr_in A3. injection A3 as <-. apply FF in Y3.
    destruct (Q "underflow" (YBool u1)) as (v4 & A4 & Y4); [cbn; tauto|]. attr_in A4. injection A4 as <-. apply BB in Y4.
    destruct (Q "overflow" (YBool o1)) as (v5 & A5 & Y5); [cbn; tauto|]. attr_in A5. injection A5 as <-. apply BB in Y5.
    destruct (Q "nanflow" (YBool nf1)) as (v6 & A6 & Y6); [cbn; tauto|]. attr_in A6. injection A6 as <-. apply BB in Y6.
    destruct (Q "closedlow" (YBool cl1)) as (v7 & A7 & Y7); [cbn; tauto|]. attr_in A7. injection A7 as <-. apply BB in Y7.
    assert (n2 = n1) by lia. congruence.
  - destruct (Q "min" (YInt mn1)) as (v1 & A1 & Y1); [cbn; tauto|]. attr_in A1. injection A1 as <-. apply II in Y1.
    destruct (Q "max" (YInt mx1)) as (v2 & A2 & Y2); [cbn; tauto|]. attr_in A2. injection A2 as <-. apply II in Y2.
    destruct (Q "underflow" (YBool u1)) as (v4 & A4 & Y4); [cbn; tauto|]. attr_in A4. injection A4 as <-. apply BB in Y4.
    destruct (Q "overflow" (YBool o1)) as (v5 & A5 & Y5); [cbn; tauto|]. attr_in A5. injection A5 as <-. apply BB in Y5. congruence.
  - destruct (Q "edges" (YTuple (map Some es1))) as (v1 & A1 & Y1); [cbn; tauto|]. attr_in A1. injection A1 as <-. apply TT in Y1.
    destruct (Q "underflow" (YBool u1)) as (v4 & A4 & Y4); [cbn; tauto|]. attr_in A4. injection A4 as <-. apply BB in Y4.
    destruct (Q "overflow" (YBool o1)) as (v5 & A5 & Y5); [cbn; tauto|]. attr_in A5. injection A5 as <-. apply BB in Y5.
    destruct (Q "nanflow" (YBool nf1)) as (v6 & A6 & Y6); [cbn; tauto|]. attr_in A6. injection A6 as <-. apply BB in Y6.
    destruct (Q "closedlow" (YBool cl1)) as (v7 & A7 & Y7); [cbn; tauto|]. attr_in A7. injection A7 as <-. apply BB in Y7. congruence.
Qed.
Print Assumptions C77_lookup_sound.
Print Assumptions C77_lookup_complete.
Print Assumptions C77_readable.
Print Assumptions C77_lookup_by_arguments.

(** A split cannot be found by a list of its edges, although it is made from one, nor by its binwidth. *)
Theorem C77_lookup_split_refuted : forall bw s e axes l x, parse_top py_sorted nodefs s = Ok e ->
  lookup_of bw IsSplit s [("edges", YList l)] axes = Err IndexError /\ (x <> YMethod -> lookup_of bw IsSplit s [("binwidth", x)] axes = Err IndexError).
Proof.
  intros bw s e axes l x P. unfold lookup_of, find_axis. cbn [existsb fst]. rewrite P. cbn [orb String.eqb Ascii.eqb Bool.eqb bind]. split; [|intros NX]; induction axes as [|(a, e') axes IH]; auto; cbn [find_in].
  - destruct (is_kind IsSplit a) eqn:K; auto. destruct a; try discriminate. cbn [andb]. destruct (expr_same e' e); auto.
  - destruct (is_kind IsSplit a) eqn:K; auto. destruct a; try discriminate. cbn [andb]. destruct (expr_same e' e); auto.
    cbn [kwargs_match]. unfold attr at 1. cbn [properties lookup String.eqb Ascii.eqb Bool.eqb]. destruct x; try congruence; exact IH.
Qed.
(** Asking for the binwidth meets bin axes without finite bins: ZeroDivisionError, although another axis
    has that binwidth. *)
Theorem C77_lookup_no_bins_refuted : exists axes w, (forall a e, In (a, e) axes -> made a) /\
  lookup_of (fun n l h => match bin_binwidth 4 n l h with Some r => r | None => Err AssertionError end) IsBin (XName "x") [("binwidth", YFloat w)] axes = Err ZeroDivisionError /\
  lookup_of (fun n l h => match bin_binwidth 4 n l h with Some r => r | None => Err AssertionError end) IsBin (XName "x") [("binwidth", YFloat w)] (tl axes) = Ok (ABin "x" 1 (nz 0) (nz 1) true true true true, EName "x").
Proof.
  exists [(ABin "x" 0 (nz 0) (nz 0) true true true true, EName "x"); (ABin "x" 1 (nz 0) (nz 1) true true true true, EName "x")], (machine_width 1 (nz 0) (nz 1)).
  split; [|split; vm_compute; reflexivity]. intros a e [E|[E|[]]]; injection E as <- <-; reflexivity.
Qed.
Print Assumptions C77_lookup_split_refuted.
Print Assumptions C77_lookup_no_bins_refuted.

(** ** Concrete cases meet the hypotheses *)
Definition ex_bin : axis := ABin "x" 4 (nz 0) (nz 2) true true true true.
Definition ex_split : axis := ASplit "y" [nz 0; nz 1; nz 5] true false true false.
Definition ex_int : axis := AIntbin "n" (-1) 2 true true.
Definition ex_groupbin : axis := AGroupbin "x" (nz 2) (nz 1) true true.
Example C77_made_ex : Forall (fun a => made a /\ finite_edges a /\ nan_free_axis a /\ a <> ANull) [ex_bin; ex_split; ex_int; ex_groupbin].
Proof.
  repeat constructor; try discriminate; try (eexists; reflexivity); try reflexivity.
  exists [nz 5; nz 0; nz 1]. vm_compute. reflexivity.
Qed.
Example C77_bins_ex : uniform ex_bin /\ has_bins ex_bin /\ List.length (keys ex_bin) = 7 /\ attr (fun _ _ _ => Err ZeroDivisionError) ex_bin "totbins" = Ok (YInt 7) /\
  attr (fun _ _ _ => Err ZeroDivisionError) ex_bin "numbins" = Ok (YInt 4).
Proof. split; [exact I|]. split; [discriminate|]. split; [|split]; reflexivity. Qed.
Example C77_items_ex : List.length [10; 11; 12; 13; 14; 15; 16] = List.length (keys ex_bin). Proof. reflexivity. Qed.
Example C77_split_ex : split_binwidth [nz 0; nz 1; nz 5] 1 = Ok (nz 4) /\ split_binwidth [nz 0; nz 1; nz 5] (-1) = Ok (nz 4) /\ split_binwidth [nz 0; nz 1; nz 5] (-3) = Ok (nz (-5)).
Proof. repeat split; vm_compute; reflexivity. Qed.
Example C77_width_ex : exists w, bin_binwidth 4 4 (nz 0) (nz 2) = Some (Ok w) /\ nltb w (Fin (Q2Qc (1 # 2))) = true. Proof. eexists. split; vm_compute; reflexivity. Qed.
Example C77_new_ex : new_bin "x" (YInt 4) (YInt 0) (YFloat (nz 2)) (YBool true) (YBool true) (YBool true) (YBool true) = Ok ex_bin /\
  new_bin "x" (YBool true) (YInt 0) (YFloat (nz 2)) (YBool true) (YBool true) (YBool true) (YBool true) = Ok (ABin "x" 1 (nz 0) (nz 2) true true true true) /\
  new_bin "x" (YInt (-4)) (YInt 0) (YFloat (nz 2)) (YBool true) (YBool true) (YBool true) (YBool true) = Err TypeError /\
  new_bin "x" (YFloat (nz 4)) (YInt 0) (YFloat (nz 2)) (YBool true) (YBool true) (YBool true) (YBool true) = Err TypeError /\
  new_split "y" (YList [Some (nz 5); Some (nz 0); Some (nz 1)]) (YBool true) (YBool false) (YBool true) (YBool false) = Ok ex_split.
Proof. repeat split; vm_compute; reflexivity. Qed.
Example C77_lookup_ex : exists bw, keywords (constructor_arguments ex_split) /\
  lookup_of bw IsSplit (XName "y") (constructor_arguments ex_split) [(ex_bin, EName "x"); (ex_split, EName "y")] = Ok (ex_split, EName "y") /\
  lookup_of bw IsBin (XName "x") [("low", YInt 0)] [(ex_split, EName "x"); (ex_bin, EName "x")] = Ok (ex_bin, EName "x") /\
  lookup_of bw IsBin (XName "y") [("low", YInt 0)] [(ex_split, EName "y"); (ex_bin, EName "x")] = Err IndexError /\
  lookup_of bw IsBin (XName "x") [("expr", YInt 0)] [(ex_bin, EName "x")] = Err TypeError.
Proof.
  exists (fun _ _ _ => Err ZeroDivisionError). split; [|repeat split; vm_compute; reflexivity].
  intros p J. cbn [constructor_arguments ex_split In] in J. repeat (destruct J as [<-|J]; [split; discriminate|]). destruct J.
Qed.
