(** Proofs about the properties of axes and the lookup of an axis. *)
From Coq Require Import String Qabs Lqa Permutation.
From Verif Require Import Base Num NumFacts Axis AxisProofs AxisProofs2 Calc Content Fill FillR FillRSpec Tree Order Expr ExprFacts AlgSpec Nd Table TableNorm
  Access AccessSpec AccessProofs AxisAttr AxisAttrSpec.
From Verif Require JsonProofs.
Local Open Scope list_scope.

Ltac attr_goal := cbn [attr properties lookup String.eqb Ascii.eqb Bool.eqb].
Tactic Notation "attr_in" hyp(H) := cbn [attr properties lookup String.eqb Ascii.eqb Bool.eqb] in H.
Lemma nat_z n : Z.to_nat (Z.of_nat n) = n. Proof. apply Nat2Z.id. Qed.

(** ** Keys: what is before the finite ones, the finite ones, and what is after them *)
Definition under_of (a : axis) : list key :=
  match a with
  | ABin _ _ l _ u _ _ cl => if u then [KIv NInf l true (negb cl)] else []
  | AIntbin _ mn _ u _ => if u then [KIv NInf (nz mn) true false] else []
  | ASplit _ es u _ _ cl => if u then [KIv NInf (hd NaN es) true (negb cl)] else []
  | _ => []
  end.
Definition finite_of (a : axis) : list key :=
  match a with
  | ABin _ n l h _ _ _ cl => map (fun i => KIv (i2x n l h i) (i2x n l h (i + 1)) cl (negb cl)) (seq 0 n)
  | AIntbin _ mn mx _ _ => map (fun i => KInt (mn + Z.of_nat i)) (seq 0 (Z.to_nat (mx - mn + 1)))
  | ASplit _ es _ _ _ cl => map (fun p => KIv (fst p) (snd p) cl (negb cl)) (pairs_of es)
  | ACut _ => keys_cut
  | _ => []
  end.
Definition over_of (a : axis) : list key :=
  match a with
  | ABin _ _ _ h _ o nf cl => (if o then [KIv h PInf cl true] else []) ++ (if nf then [KNaN] else [])
  | AIntbin _ _ mx _ o => if o then [KIv (nz mx) PInf false true] else []
  | ASplit _ es _ o nf cl => (if o then [KIv (last es NaN) PInf cl true] else []) ++ (if nf then [KNaN] else [])
  | _ => []
  end.
Lemma keys_parts a : keys a = under_of a ++ finite_of a ++ over_of a.
Proof. destruct a; reflexivity. Qed.

Lemma made_bin e n l h u o nf cl : made (ABin e n l h u o nf cl) -> (0 < n -> nltb l h = true \/ isnan l = true \/ isnan h = true) /\ n + b2n u + b2n o + b2n nf <> 0.
Proof.
  cbn [made]. unfold mk_bin. destruct ((Nat.ltb 0 n && nleb h l) || nltb h l) eqn:C; [discriminate|]. destruct (Nat.eqb _ 0) eqn:D; [discriminate|]. intros _.
  apply orb_false_iff in C. destruct C as (C & _). apply Nat.eqb_neq in D. split; auto. intros H. apply Nat.ltb_lt in H. rewrite H in C. cbn in C.
  destruct (isnan l) eqn:L; auto. destruct (isnan h) eqn:M; auto. rewrite nleb_nltb in C by auto. apply negb_false_iff in C. auto.
Qed.
Lemma made_split e es u o nf cl : made (ASplit e es u o nf cl) -> es <> [].
Proof.
  intros (g & H). unfold mk_split in H. destruct g as [|x g]; [discriminate|]. destruct (Axis.has_dup _); [discriminate|]. destruct (Nat.eqb _ 0); [discriminate|].
  assert (E : es = sort_num (x :: g)) by congruence. intros ->. pose proof (sort_num_length (x :: g)) as L. rewrite <- E in L. discriminate.
Qed.
Lemma pairs_in {A} (x y : A) l : In (x, y) (pairs_of l) -> In x l /\ In y l.
Proof.
  induction l as [|a l IH]; [intros []|]. destruct l as [|b l]; [intros []|]. intros H. change (pairs_of (a :: b :: l)) with ((a, b) :: pairs_of (b :: l)) in H.
  destruct H as [H|H]; [injection H as -> ->; cbn; auto|]. apply IH in H. cbn [In] in *. tauto.
Qed.
Lemma finite_parts a : made a -> finite_edges a ->
  Forall (fun k => finite_key k = false) (under_of a) /\ Forall (fun k => finite_key k = true) (finite_of a) /\ Forall (fun k => finite_key k = false) (over_of a).
Proof.
  intros M F. destruct a as [e|e w og nf cl|e n l h u o nf cl|e mn mx u o|e es u o nf cl|e| |e]; cbn [under_of finite_of over_of]; try (repeat split; constructor; fail).
  - destruct F as ((l' & ->) & (h' & ->)). destruct (made_bin _ _ _ _ _ _ _ _ M) as (HL & _). split; [destruct u; repeat constructor|]. split; [|destruct o, nf; repeat constructor].
    apply Forall_forall. intros k Hk. apply in_map_iff in Hk. destruct Hk as (i & <- & Hi). apply in_seq in Hi.
    assert (Hn : 0 < n) by lia. rewrite !(i2x_edge n l' h' Hn). reflexivity.
  - split; [destruct u; repeat constructor|]. split; [|destruct o; repeat constructor].
    apply Forall_forall. intros k Hk. apply in_map_iff in Hk. destruct Hk as (i & <- & Hi). reflexivity.
  - split; [destruct u; repeat constructor|]. split; [|destruct o, nf; repeat constructor; destruct (last es NaN); reflexivity].
    apply Forall_forall. intros k Hk. apply in_map_iff in Hk. destruct Hk as ((x & y) & <- & Hi). apply pairs_in in Hi. destruct Hi as (Hx & Hy).
    cbn [finite_edges] in F. rewrite Forall_forall in F. destruct (F x Hx) as (x' & ->). destruct (F y Hy) as (y' & ->). reflexivity.
  - split; [constructor|]. split; repeat constructor.
Qed.
Lemma filter_all {A} (f : A -> bool) l : Forall (fun x => f x = true) l -> filter f l = l.
Proof. induction 1 as [|x l H HF IH]; cbn; auto. rewrite H, IH. reflexivity. Qed.
Lemma filter_none {A} (f : A -> bool) l : Forall (fun x => f x = false) l -> filter f l = [].
Proof. induction 1 as [|x l H HF IH]; cbn; auto. rewrite H, IH. reflexivity. Qed.
Lemma finite_keys a : made a -> finite_edges a -> filter finite_key (keys a) = finite_of a.
Proof.
  intros M F. destruct (finite_parts a M F) as (U & I & O). rewrite keys_parts, !filter_app, (filter_none _ _ U), (filter_all _ _ I), (filter_none _ _ O), app_nil_r. reflexivity.
Qed.
Lemma finite_of_length a : length (finite_of a) = num_bins a.
Proof. destruct a; cbn [finite_of num_bins]; rewrite ?map_length, ?seq_length, ?pairs_of_length; reflexivity. Qed.

Lemma cut_middle {A} (p m s : list A) lo hi : lo = Z.of_nat (length p) -> hi = (lo + Z.of_nat (length m))%Z -> cut_out (Slice (Some lo) (Some hi)) (p ++ m ++ s) = m.
Proof.
  intros -> ->. unfold cut_out, slice_lo, slice_hi. rewrite <- Nat2Z.inj_add, !clip_nat, !app_length.
  rewrite !Nat.min_r by lia. rewrite skipn_app, skipn_all, Nat.sub_diag. cbn [skipn app]. replace (length p + length m - length p) with (length m) by lia.
  rewrite firstn_app, firstn_all, Nat.sub_diag. cbn [firstn]. apply app_nil_r.
Qed.

Lemma slice_ok a : is_fixed a = true -> a <> ANull -> exists s, finite_slice a = Ok s /\ cut_out s (keys a) = finite_of a.
Proof.
  intros F N. destruct a as [e|e w og nf cl|e n l h u o nf cl|e mn mx u o|e es u o nf cl|e| |e]; try discriminate; try congruence; cbn [finite_slice].
  - eexists. split; [reflexivity|]. rewrite keys_parts. apply cut_middle; [destruct u; reflexivity|]. rewrite finite_of_length. reflexivity.
  - eexists. split; [reflexivity|]. rewrite keys_parts. apply cut_middle; [destruct u; reflexivity|]. rewrite finite_of_length. reflexivity.
  - eexists. split; [reflexivity|]. rewrite keys_parts. apply cut_middle; [destruct u; reflexivity|]. rewrite finite_of_length. reflexivity.
  - eexists. split; [reflexivity|]. reflexivity.
Qed.

Theorem description bw a : made a -> finite_edges a -> is_fixed a = true -> a <> ANull ->
  attr bw a "totbins" = Ok (YInt (Z.of_nat (length (keys a)))) /\
  attr bw a "numbins" = Ok (YInt (Z.of_nat (length (filter finite_key (keys a))))) /\
  exists s, attr bw a "finiteslice" = Ok (YSlice s) /\ cut_out s (keys a) = filter finite_key (keys a).
Proof.
  intros M F Fx N. rewrite (keys_length_totbins a Fx N), (finite_keys a M F), finite_of_length. destruct (slice_ok a Fx N) as (s & S & C).
  destruct a as [e|e w og nf cl|e n l h u o nf cl|e mn mx u o|e es u o nf cl|e| |e]; try discriminate; try congruence; attr_goal; cbn [num_bins].
  - split; [reflexivity|]. split; [reflexivity|]. exists s. rewrite S. split; auto.
  - split; [reflexivity|]. split; [|exists s; rewrite S; split; auto]. cbn [made] in M. unfold mk_intbin in M. destruct (mx <? mn)%Z eqn:L; [discriminate|]. apply Z.ltb_ge in L.
    rewrite Z2Nat.id by lia. reflexivity.
  - split; [reflexivity|]. split; [|exists s; rewrite S; split; auto]. apply made_split in M. destruct es as [|x es]; [congruence|]. cbn [length]. do 3 f_equal. lia.
  - split; [reflexivity|]. split; [reflexivity|]. exists s. rewrite S. split; auto.
Qed.

(** ** The flags *)
Lemma in_keys k a : In k (keys a) <-> In k (under_of a) \/ In k (finite_of a) \/ In k (over_of a).
Proof. rewrite keys_parts, !in_app_iff. reflexivity. Qed.
Lemma finite_is a k : made a -> finite_edges a -> In k (finite_of a) -> finite_key k = true.
Proof. intros M F. destruct (finite_parts a M F) as (_ & I & _). rewrite Forall_forall in I. auto. Qed.


Lemma last_in {A} (l : list A) d : l <> [] -> In (last l d) l.
Proof. induction l as [|x l IH]; intros H; [congruence|]. destruct l as [|y l]; [left; reflexivity|]. right. apply IH. discriminate. Qed.
Lemma hd_in {A} (l : list A) d : l <> [] -> In (hd d l) l.
Proof. destruct l; [congruence|left; reflexivity]. Qed.
Definition is_fin (x : Num) : Prop := exists q, x = Fin q.
Lemma under_shape a k : made a -> finite_edges a -> In k (under_of a) -> exists h cl ch, k = KIv NInf h cl ch /\ is_fin h.
Proof.
  intros M F I. destruct a as [e|e w og nf cl|e n l h u o nf cl|e mn mx u o|e es u o nf cl|e| |e]; cbn [under_of] in I; try (destruct I; fail).
  - destruct u; [|destruct I]; destruct I as [<-|[]]. eexists _, _, _. split; [reflexivity|]. apply F.
  - destruct u; [|destruct I]; destruct I as [<-|[]]. eexists _, _, _. split; [reflexivity|]. eexists; reflexivity.
  - destruct u; [|destruct I]; destruct I as [<-|[]]. eexists _, _, _. split; [reflexivity|]. cbn [finite_edges] in F. rewrite Forall_forall in F. apply F, hd_in, (made_split _ _ _ _ _ _ M).
Qed.
Lemma over_shape a k : made a -> finite_edges a -> In k (over_of a) -> k = KNaN \/ exists l cl ch, k = KIv l PInf cl ch /\ is_fin l.
Proof.
  intros M F I. destruct a as [e|e w og nf cl|e n l h u o nf cl|e mn mx u o|e es u o nf cl|e| |e]; cbn [over_of] in I; try (destruct I; fail).
  - apply in_app_iff in I. destruct I as [I|I]; [|left; destruct nf; [|destruct I]; destruct I as [<-|[]]; reflexivity].
    destruct o; [|destruct I]; destruct I as [<-|[]]. right. eexists _, _, _. split; [reflexivity|]. apply F.
  - destruct o; [|destruct I]; destruct I as [<-|[]]. right. eexists _, _, _. split; [reflexivity|]. eexists; reflexivity.
  - apply in_app_iff in I. destruct I as [I|I]; [|left; destruct nf; [|destruct I]; destruct I as [<-|[]]; reflexivity].
    destruct o; [|destruct I]; destruct I as [<-|[]]. right. eexists _, _, _. split; [reflexivity|]. cbn [finite_edges] in F. rewrite Forall_forall in F. apply F, last_in, (made_split _ _ _ _ _ _ M).
Qed.

Theorem underflow_flag bw a u : made a -> finite_edges a -> attr bw a "underflow" = Ok (YBool u) ->
  (u = true <-> exists h cl ch, In (KIv NInf h cl ch) (keys a)).
Proof.
  intros M F A. split.
  - intros ->. destruct a as [e|e w og nf cl|e n l h u' o nf cl|e mn mx u' o|e es u' o nf cl|e| |e]; try discriminate; attr_in A; injection A as ->;
      eexists _, _, _; apply in_keys; left; left; reflexivity.
  - intros (h & cl & ch & I). apply in_keys in I. destruct I as [I|[I|I]].
    + destruct a as [e|e w og nf cl'|e n l h' u' o nf cl'|e mn mx u' o|e es u' o nf cl'|e| |e]; try discriminate; attr_in A; injection A as ->; cbn [under_of] in I; destruct u; auto; destruct I.
    + apply finite_is in I; auto. discriminate.
    + apply over_shape in I; auto. destruct I as [I|(l' & c1 & c2 & I & (q & E))]; [discriminate|]. congruence.
Qed.
Theorem overflow_flag bw a o : made a -> finite_edges a -> attr bw a "overflow" = Ok (YBool o) ->
  (o = true <-> exists l cl ch, In (KIv l PInf cl ch) (keys a)).
Proof.
  intros M F A. split.
  - intros ->. destruct a as [e|e w og nf cl|e n l h u' o nf cl|e mn mx u' o|e es u' o nf cl|e| |e]; try discriminate; attr_in A; injection A as ->;
      eexists _, _, _; apply in_keys; right; right; left; reflexivity.
  - intros (l & cl & ch & I). apply in_keys in I. destruct I as [I|[I|I]].
    + apply under_shape in I; auto. destruct I as (l' & c1 & c2 & I & (q & E)). congruence.
    + apply finite_is in I; auto. destruct l; discriminate.
    + destruct a as [e|e w og nf cl'|e n l' h' u' o' nf cl'|e mn mx u' o'|e es u' o' nf cl'|e| |e]; try discriminate; attr_in A; injection A as ->; cbn [over_of] in I; destruct o; auto;
        try (destruct I; fail); destruct nf; try (destruct I; fail); destruct I as [I|[]]; discriminate.
Qed.
Theorem nanflow_flag bw a nf : made a -> finite_edges a -> is_fixed a = true -> attr bw a "nanflow" = Ok (YBool nf) -> (nf = true <-> In KNaN (keys a)).
Proof.
  intros M F Fx A. split.
  - intros ->. destruct a as [e|e w og nf cl|e n l h u o nf cl|e mn mx u o|e es u o nf cl|e| |e]; try discriminate; attr_in A; injection A as ->; apply in_keys; right; right;
      cbn [over_of]; apply in_app_iff; right; left; reflexivity.
  - intros I. apply in_keys in I. destruct I as [I|[I|I]].
    + apply under_shape in I; auto. destruct I as (l' & c1 & c2 & I & _). discriminate.
    + apply finite_is in I; auto. discriminate.
    + destruct a as [e|e w og nf' cl'|e n l' h' u o nf' cl'|e mn mx u o|e es u o nf' cl'|e| |e]; try discriminate; attr_in A; injection A as ->; cbn [over_of] in I; destruct nf; auto;
        rewrite app_nil_r in I; destruct o; try (destruct I; fail); destruct I as [I|[]]; discriminate.
Qed.
Theorem closedlow_flag bw a cl : made a -> finite_edges a -> is_fixed a = true -> attr bw a "closedlow" = Ok (YBool cl) ->
  forall l h c1 c2, In (KIv l h c1 c2) (filter finite_key (keys a)) -> c1 = cl /\ c2 = negb cl.
Proof.
  intros M F Fx A l h c1 c2 I. rewrite (finite_keys a M F) in I.
  destruct a as [e|e w og nf' cl'|e n l' h' u o nf' cl'|e mn mx u o|e es u o nf' cl'|e| |e]; try discriminate; attr_in A; injection A as ->; cbn [finite_of] in I;
    apply in_map_iff in I; destruct I as (x & E & _); injection E as _ _ <- <-; auto.
Qed.

(** ** The range *)
Lemma i2x_0 n l h : 0 < n -> i2x n (Fin l) (Fin h) 0 = Fin l.
Proof.
  intros H. rewrite (i2x_edge n l h H). f_equal. unfold edge. apply Qc_ext. rewrite this_add, this_mul, this_div, !this_qz.
  change (inject_Z (Z.of_nat 0)) with 0%Q. unfold Qdiv. rewrite Qmult_0_l, Qmult_0_l. apply Qplus_0_l.
Qed.
Lemma i2x_n n l h : 0 < n -> i2x n (Fin l) (Fin h) n = Fin h.
Proof.
  intros H. rewrite (i2x_edge n l h H). f_equal. unfold edge. apply Qc_ext. rewrite this_add, this_mul, this_div, this_sub, !this_qz.
  pose proof (qn_pos n H) as P. field. lra.
Qed.
Lemma pairs_last (l : list Num) x y d : pairs_of (x :: y :: l) <> [] /\ exists t z, pairs_of (x :: y :: l) = t ++ [(z, last (x :: y :: l) d)].
Proof.
  split; [discriminate|]. revert x y. induction l as [|w l IH]; intros x y; [exists [], x; reflexivity|].
  destruct (IH y w) as (t & z & E). exists ((x, y) :: t), z. change (pairs_of (x :: y :: w :: l)) with ((x, y) :: pairs_of (y :: w :: l)). rewrite E. reflexivity.
Qed.

Theorem low_high bw a l h : made a -> finite_edges a -> attr bw a "low" = Ok (YFloat l) -> attr bw a "high" = Ok (YFloat h) ->
  filter finite_key (keys a) <> [] ->
  (exists y cl ch, first_is (KIv l y cl ch) (filter finite_key (keys a))) /\ (exists x cl ch, last_is (KIv x h cl ch) (filter finite_key (keys a))).
Proof.
  intros M F L H NE. rewrite (finite_keys a M F) in *.
  destruct a as [e|e w og nf cl|e n l' h' u o nf cl|e mn mx u o|e es u o nf cl|e| |e]; try discriminate; attr_in L; attr_in H.
  - injection L as ->. injection H as ->. destruct F as ((l' & ->) & (h' & ->)). cbn [finite_of] in *. destruct n as [|n]; [destruct NE; reflexivity|]. split.
    + eexists _, _, _. cbn [seq map]. rewrite i2x_0 by lia. eexists. reflexivity.
    + rewrite seq_S, map_app. cbn [plus map]. replace (n + 1) with (S n) by lia. rewrite i2x_n by lia. eexists _, _, _, _. reflexivity.
  - destruct es as [|x [|y es]]; [destruct NE; reflexivity|destruct NE; reflexivity|].
    assert (E0 : py_nth (x :: y :: es) 0 = Ok x) by reflexivity. rewrite E0 in L. injection L as <-.
    assert (E1 : py_nth (x :: y :: es) (-1) = Ok (last (x :: y :: es) NaN)).
    { unfold py_nth. assert (Hm : norm_index (length (x :: y :: es)) (-1) = Some (S (length es))) by (apply means_index_iff; split; cbn [length]; lia). rewrite Hm.
      replace (nth_error (x :: y :: es) (S (length es))) with (Some (last (x :: y :: es) NaN)); auto.
      symmetry. clear. revert x y. induction es as [|z es IH]; intros x y; auto. cbn [length nth_error]. exact (IH y z). }
    rewrite E1 in H. injection H as <-. cbn [finite_of]. split.
    + eexists _, _, _, _. reflexivity.
    + destruct (pairs_last es x y NaN) as (_ & t & z & E). rewrite E, map_app. eexists _, _, _, _. reflexivity.
Qed.
Theorem min_max bw a mn mx : made a -> attr bw a "min" = Ok (YInt mn) -> attr bw a "max" = Ok (YInt mx) ->
  first_is (KInt mn) (filter finite_key (keys a)) /\ last_is (KInt mx) (filter finite_key (keys a)).
Proof.
  intros M L H. destruct a as [e|e w og nf cl|e n l' h' u o nf cl|e mn' mx' u o|e es u o nf cl|e| |e]; try discriminate; attr_in L; attr_in H.
  rewrite (finite_keys _ M) by exact I. injection L as ->. injection H as ->. cbn [finite_of]. cbn [made] in M. unfold mk_intbin in M. destruct (mx <? mn)%Z eqn:C; [discriminate|]. apply Z.ltb_ge in C.
  replace (Z.to_nat (mx - mn + 1)) with (S (Z.to_nat (mx - mn))) by lia. split.
  - cbn [seq map]. eexists. do 2 f_equal. lia.
  - rewrite seq_S, map_app. cbn [map plus]. eexists. do 3 f_equal. lia.
Qed.

(** ** copy and relabel *)
Lemma relabel_ok label a : made a -> nan_free_axis a -> relabel label a = Ok (with_expr label a).
Proof.
  intros M N. destruct a as [e|e w og nf cl|e n l h u o nf cl|e mn mx u o|e es u o nf cl|e| |e]; auto; cbn [made relabel with_expr] in *.
  - unfold mk_groupbin in *. destruct (nleb w nzero); [discriminate|reflexivity].
  - unfold mk_bin in *. destruct (_ || _); [discriminate|]. destruct (Nat.eqb _ 0); [discriminate|reflexivity].
  - unfold mk_intbin in *. destruct (mx <? mn)%Z; [discriminate|reflexivity].
  - destruct M as (g & M). assert (I : mk_split e es u o nf cl = Ok (ASplit e es u o nf cl)).
    { apply JsonProofs.mk_split_idem with (es := g); auto. cbn [nan_free_axis] in N.
      unfold mk_split in M. destruct g as [|x g]; [discriminate|]. destruct (Axis.has_dup _); [discriminate|]. destruct (Nat.eqb _ 0); [discriminate|].
      assert (E : es = sort_num (x :: g)) by congruence. rewrite Forall_forall in *. intros y Hy. apply N. rewrite E. apply sort_num_in. exact Hy. }
    clear M. unfold mk_split in *. destruct es; [discriminate|]. destruct (Axis.has_dup _); [discriminate|]. destruct (Nat.eqb _ 0); [discriminate|]. congruence.
Qed.
Lemma copy_is a : copy_axis a = relabel (axis_expr a) a.
Proof. destruct a; reflexivity. Qed.
Lemma with_own a : with_expr (axis_expr a) a = a.
Proof. destruct a; reflexivity. Qed.
Lemma keys_with label a : keys (with_expr label a) = keys a.
Proof. destruct a; reflexivity. Qed.
Lemma attr_with bw label a name : name <> "expr"%string -> attr bw (with_expr label a) name = attr bw a name.
Proof.
  intros N. apply not_eq_sym, String.eqb_neq in N. unfold attr. destruct a; cbn [with_expr properties lookup]; try reflexivity; rewrite N; reflexivity.
Qed.

(** ** items *)
Theorem items_ok {A} a (content : list A) : is_fixed a = true -> a <> ANull -> length content = totbins a ->
  items a content = Ok (combine (keys a) content) /\ length (combine (keys a) content) = totbins a.
Proof.
  intros F N L. pose proof (keys_length_totbins a F N) as K. unfold items. rewrite K, L, Nat.eqb_refl. split; auto. rewrite combine_length, K, L. apply Nat.min_id.
Qed.

(** ** The widths of a split *)
Lemma py_nth_is {A} (l : list A) z i x : means_index (length l) z i -> nth_error l i = Some x -> py_nth l z = Ok x.
Proof. intros M N. unfold py_nth. rewrite (proj2 (means_index_iff _ _ _) M), N. reflexivity. Qed.
Lemma py_nth_out {A} (l : list A) z : (z < - Z.of_nat (length l) \/ Z.of_nat (length l) <= z)%Z -> py_nth l z = Err IndexError.
Proof.
  intros H. unfold py_nth, norm_index. replace ((0 <=? z) && (z <? Z.of_nat (length l)))%Z with false by (symmetry; apply andb_false_iff; rewrite Z.leb_gt, Z.ltb_ge; lia).
  replace ((- Z.of_nat (length l) <=? z) && (z <? 0))%Z with false by (symmetry; apply andb_false_iff; rewrite Z.leb_gt, Z.ltb_ge; lia). reflexivity.
Qed.
Theorem split_width es z i x y : means_index (length es - 1) z i -> nth_error es i = Some x -> nth_error es (i + 1) = Some y -> split_binwidth es z = Ok (nsub y x).
Proof.
  intros (L & M) X Y. unfold split_binwidth. set (nb := (Z.of_nat (length es) - 1)%Z).
  assert (E : (if z <? 0 then z + nb else z)%Z = Z.of_nat i). { destruct (Z.ltb_spec z 0); unfold nb; lia. } rewrite E.
  destruct (Z.leb_spec nb (Z.of_nat i)); [unfold nb in *; lia|].
  rewrite (py_nth_is es (Z.of_nat i + 1) (i + 1) y) by (auto; split; lia). rewrite (py_nth_is es (Z.of_nat i) i x) by (auto; split; lia). reflexivity.
Qed.
Theorem split_width_high es z : (Z.of_nat (length es) - 1 <= z)%Z -> es <> [] -> split_binwidth es z = Err IndexError.
Proof.
  intros H N. unfold split_binwidth. destruct es as [|x es]; [congruence|]. cbn [length] in *. destruct (Z.ltb_spec z 0); [lia|]. destruct (Z.leb_spec (Z.of_nat (S (length es)) - 1) z); [reflexivity|lia].
Qed.
Theorem split_width_wraps es x y : 2 <= length es -> nth_error es 0 = Some x -> nth_error es (length es - 1) = Some y ->
  split_binwidth es (- Z.of_nat (length es)) = Ok (nsub x y).
Proof.
  intros L X Y. unfold split_binwidth. destruct (Z.ltb_spec (- Z.of_nat (length es)) 0); [|lia].
  replace (- Z.of_nat (length es) + (Z.of_nat (length es) - 1))%Z with (-1)%Z by lia. destruct (Z.leb_spec (Z.of_nat (length es) - 1) (-1)); [lia|].
  rewrite (py_nth_is es (-1 + 1) 0 x) by (auto; split; lia). rewrite (py_nth_is es (-1) (length es - 1) y) by (auto; split; lia). reflexivity.
Qed.

(** ** Constructors *)
Lemma to_int_iff y z : to_int y = Ok z <-> an_int y z.
Proof. split; [destruct y; try discriminate; cbn; intros E; injection E as <-; [destruct b|]; constructor|intros []; auto; destruct b; reflexivity]. Qed.
Lemma to_int_err y e : to_int y = Err e -> e = TypeError.
Proof. destruct y; cbn; congruence. Qed.
Lemma to_nonneg_iff y n : to_nonneg y = Ok n <-> an_int y (Z.of_nat n).
Proof.
  unfold to_nonneg. rewrite <- to_int_iff. destruct (to_int y) as [z|e]; [|split; discriminate]. destruct (Z.ltb_spec z 0); split; intros E; try discriminate; injection E as E; [lia| |]; f_equal; lia.
Qed.
Lemma to_real_iff y x : to_real y = Ok x <-> a_real y x.
Proof.
  unfold to_real. split.
  - destruct y; cbn [y_num]; try discriminate; intros E; injection E as <-; repeat constructor.
  - intros [y' z A|x']; auto. destruct A; auto.
Qed.
Lemma to_bool_iff y b : to_bool y = Ok b <-> a_bool y b.
Proof. split; [destruct y; try discriminate; cbn; intros E; injection E as <-; constructor|intros []; reflexivity]. Qed.
Lemma all_some_iff {A} (l : list (option A)) m : all_some l = Some m <-> l = map Some m.
Proof.
  revert m. induction l as [|[x|] l IH]; intros m; cbn [all_some].
  - split; [intros E; injection E as <-; auto|destruct m; [auto|discriminate]].
  - destruct (all_some l) as [m'|] eqn:E.
    + split; [intros F; injection F as <-; cbn; f_equal; apply IH; auto|]. destruct m as [|y m]; [discriminate|]. cbn. intros F. injection F as -> F. apply IH in F. congruence.
    + split; [discriminate|]. destruct m as [|y m]; [discriminate|]. cbn. intros F. injection F as -> F. apply IH in F. discriminate.
  - split; [discriminate|destruct m; discriminate].
Qed.
Lemma to_edges_iff y l : to_edges y = Ok l <-> edges_of y l.
Proof.
  split.
  - unfold to_edges. destruct (y_num y) as [x|] eqn:N; [intros E; injection E as <-; constructor; apply to_real_iff; unfold to_real; rewrite N; reflexivity|].
    destruct y as [|b|z|x|t|l0|l0|sl|]; try discriminate; (destruct l0 as [|a l0]; [discriminate|]);
      destruct (all_some (a :: l0)) as [m|] eqn:A; try discriminate; intros E; injection E as <-; apply all_some_iff in A; rewrite A; constructor; intros ->; discriminate.
  - intros [y' x R|m M|m M]; unfold to_edges.
    + apply to_real_iff in R. unfold to_real in R. destruct (y_num y'); [congruence|discriminate].
    + destruct m as [|a m]; [congruence|]. cbn [y_num map]. rewrite (proj2 (all_some_iff (Some a :: map Some m) (a :: m)) eq_refl). reflexivity.
    + destruct m as [|a m]; [congruence|]. cbn [y_num map]. rewrite (proj2 (all_some_iff (Some a :: map Some m) (a :: m)) eq_refl). reflexivity.
Qed.
Lemma bind_iff {A B} (r : res A) (k : A -> res B) b : bind r k = Ok b <-> exists a, r = Ok a /\ k a = Ok b.
Proof. destruct r as [a|e]; cbn; split; [eauto|intros (a' & E & H); congruence|discriminate|intros (a' & E & _); discriminate]. Qed.

Theorem new_bin_iff e n l h u o nf cl a : new_bin e n l h u o nf cl = Ok a <->
  exists n' l' h' u' o' nf' cl', an_int n (Z.of_nat n') /\ a_real l l' /\ a_real h h' /\ a_bool u u' /\ a_bool o o' /\ a_bool nf nf' /\ a_bool cl cl' /\
    mk_bin e n' l' h' u' o' nf' cl' = Ok a.
Proof.
  unfold new_bin, mk_bin. split.
  - rewrite bind_iff. intros (n' & N & H). rewrite bind_iff in H. destruct H as (l' & L & H). rewrite bind_iff in H. destruct H as (h' & Hh & H).
    destruct ((Nat.ltb 0 n' && nleb h' l') || nltb h' l') eqn:C; [discriminate|].
    rewrite bind_iff in H. destruct H as (u' & U & H). rewrite bind_iff in H. destruct H as (o' & O & H). rewrite bind_iff in H. destruct H as (nf' & NF & H). rewrite bind_iff in H. destruct H as (cl' & CL & H).
    apply to_nonneg_iff in N. apply to_real_iff in L, Hh. apply to_bool_iff in U, O, NF, CL. exists n', l', h', u', o', nf', cl'. rewrite C. repeat split; auto.
  - intros (n' & l' & h' & u' & o' & nf' & cl' & N & L & Hh & U & O & NF & CL & H). apply to_nonneg_iff in N. apply to_real_iff in L, Hh. apply to_bool_iff in U, O, NF, CL.
    rewrite N, L, Hh. cbn [bind]. destruct ((Nat.ltb 0 n' && nleb h' l') || nltb h' l'); [discriminate|]. rewrite U, O, NF, CL. cbn [bind]. exact H.
Qed.
Theorem new_groupbin_iff e w og nf cl a : new_groupbin e w og nf cl = Ok a <->
  exists w' o' nf' cl', a_real w w' /\ a_real og o' /\ a_bool nf nf' /\ a_bool cl cl' /\ mk_groupbin e w' o' nf' cl' = Ok a.
Proof.
  unfold new_groupbin, mk_groupbin. split.
  - rewrite bind_iff. intros (w' & W & H). destruct (nleb w' nzero) eqn:C; [discriminate|].
    rewrite bind_iff in H. destruct H as (o' & O & H). rewrite bind_iff in H. destruct H as (nf' & NF & H). rewrite bind_iff in H. destruct H as (cl' & CL & H).
    apply to_real_iff in W, O. apply to_bool_iff in NF, CL. exists w', o', nf', cl'. rewrite C. repeat split; auto.
  - intros (w' & o' & nf' & cl' & W & O & NF & CL & H). apply to_real_iff in W, O. apply to_bool_iff in NF, CL.
    rewrite W. cbn [bind]. destruct (nleb w' nzero); [discriminate|]. rewrite O, NF, CL. exact H.
Qed.
Theorem new_intbin_iff e mn mx u o a : new_intbin e mn mx u o = Ok a <->
  exists mn' mx' u' o', an_int mn mn' /\ an_int mx mx' /\ a_bool u u' /\ a_bool o o' /\ mk_intbin e mn' mx' u' o' = Ok a.
Proof.
  unfold new_intbin, mk_intbin. split.
  - rewrite bind_iff. intros (w' & W & H). rewrite bind_iff in H. destruct H as (x & X & H). rewrite bind_iff in H. destruct H as (u' & U & H). rewrite bind_iff in H. destruct H as (o' & O & H).
    apply to_int_iff in W, X. apply to_bool_iff in U, O. exists w', x, u', o'. repeat split; auto.
  - intros (w' & x & u' & o' & W & X & U & O & H). apply to_int_iff in W, X. apply to_bool_iff in U, O. rewrite W, X, U, O. exact H.
Qed.
Theorem new_split_iff e es u o nf cl a : new_split e es u o nf cl = Ok a <->
  exists es' u' o' nf' cl', edges_of es es' /\ a_bool u u' /\ a_bool o o' /\ a_bool nf nf' /\ a_bool cl cl' /\ mk_split e es' u' o' nf' cl' = Ok a.
Proof.
  assert (NE : forall y l, edges_of y l -> l <> []) by (intros y l []; auto; discriminate).
  unfold new_split. split.
  - rewrite bind_iff. intros (s & S & H). cbv zeta in H. destruct (Axis.has_dup (sort_num s)) eqn:C; [discriminate|].
    rewrite bind_iff in H. destruct H as (u' & U & H). rewrite bind_iff in H. destruct H as (o' & O & H). rewrite bind_iff in H. destruct H as (nf' & NF & H). rewrite bind_iff in H. destruct H as (cl' & CL & H).
    apply to_edges_iff in S. apply to_bool_iff in U, O, NF, CL. exists s, u', o', nf', cl'. repeat split; auto.
    unfold mk_split. pose proof (NE _ _ S). destruct s as [|x s]; [congruence|]. cbv zeta. rewrite C. exact H.
  - intros (s & u' & o' & nf' & cl' & S & U & O & NF & CL & H). pose proof (NE _ _ S) as N. apply to_edges_iff in S. apply to_bool_iff in U, O, NF, CL. rewrite S. cbn [bind]. cbv zeta.
    unfold mk_split in H. destruct s as [|x s]; [congruence|]. cbv zeta in H. destruct (Axis.has_dup _); [discriminate|]. rewrite U, O, NF, CL. exact H.
Qed.

(** ** Lookup *)
Section Lookup.
  Variable bw : nat -> Num -> Num -> res Num.
  Lemma kwargs_yes a kwargs : kwargs_match bw a kwargs = Ok true <-> forall q, In q kwargs -> has_property bw a q.
  Proof.
    induction kwargs as [|(n, x) kwargs IH]; cbn [kwargs_match].
    - split; auto. intros _ q [].
    - split.
      + destruct (attr bw a n) as [v|e] eqn:E; [|destruct e; discriminate]. destruct (y_eqb v x) eqn:Y; [|discriminate]. intros H q [<-|I]; [exists v; auto|]. apply IH; auto.
      + intros H. destruct (H (n, x)) as (v & E & Y); [left; auto|]. cbn [fst snd] in *. rewrite E, Y. apply IH. intros q I. apply H. right. auto.
  Qed.
  Lemma kwargs_readable a kwargs : readable bw kwargs a -> exists b, kwargs_match bw a kwargs = Ok b.
  Proof.
    induction kwargs as [|(n, x) kwargs IH]; intros R; cbn [kwargs_match]; [eauto|].
    destruct (R (n, x)) as [(v & E)|E]; [left; auto| |]; cbn [fst] in E; rewrite E; [|eauto]. destruct (y_eqb v x); [|eauto]. apply IH. intros q I. apply R. right. auto.
  Qed.
  Lemma find_in_sound k e kwargs axes p : find_in bw k e kwargs axes = Ok p ->
    exists i, nth_error axes i = Some p /\ fits bw k e kwargs p /\ forall j q, j < i -> nth_error axes j = Some q -> ~ fits bw k e kwargs q.
  Proof.
    induction axes as [|(a, e') axes IH]; [discriminate|]. cbn [find_in].
    assert (Later : ~ fits bw k e kwargs (a, e') -> find_in bw k e kwargs axes = Ok p ->
      exists i, nth_error ((a, e') :: axes) i = Some p /\ fits bw k e kwargs p /\ forall j q, j < i -> nth_error ((a, e') :: axes) j = Some q -> ~ fits bw k e kwargs q).
    { intros NF H. destruct (IH H) as (i & N & F & B). exists (S i). split; auto. split; auto. intros [|j] q J Q; [injection Q as <-; auto|]. apply (B j q); [lia|exact Q]. }
    destruct (is_kind k a && expr_same e' e) eqn:C.
    - apply andb_prop in C. destruct C as (C1 & C2). apply expr_same_eq in C2. subst e'. destruct (kwargs_match bw a kwargs) as [[]|er] eqn:K; cbn [bind]; [| |discriminate].
      + intros E. injection E as <-. exists 0. split; auto. split; [|lia]. split; auto. split; auto. apply kwargs_yes. exact K.
      + apply Later. intros (_ & _ & F). apply kwargs_yes in F. cbn [fst] in F. congruence.
    - apply Later. intros (F1 & F2 & _). cbn [fst snd] in *. rewrite F1, F2, expr_same_refl in C. discriminate.
  Qed.
  Lemma find_in_complete k e kwargs axes p : In p axes -> fits bw k e kwargs p -> (forall a e', In (a, e') axes -> is_kind k a = true -> readable bw kwargs a) ->
    exists q, find_in bw k e kwargs axes = Ok q.
  Proof.
    induction axes as [|(a, e') axes IH]; [intros []|]. intros I F R. cbn [find_in].
    assert (Later : In p axes -> exists q, find_in bw k e kwargs axes = Ok q) by (intros J; apply IH; auto; intros a0 e0 X; apply (R a0 e0); right; auto).
    destruct (is_kind k a) eqn:KA; cbn [andb].
    - destruct (expr_same e' e) eqn:C.
      + destruct (kwargs_readable a kwargs (R a e' (or_introl eq_refl) KA)) as (b & K). rewrite K. cbn [bind]. destruct b; [eauto|]. destruct I as [<-|I]; auto. exfalso.
        destruct F as (_ & _ & F). apply kwargs_yes in F. cbn [fst] in F. congruence.
      + destruct I as [<-|I]; auto. exfalso. destruct F as (_ & F & _). cbn [snd] in F. subst. rewrite expr_same_refl in C. discriminate.
    - destruct I as [<-|I]; auto. exfalso. destruct F as (F & _). cbn [fst] in F. congruence.
  Qed.
  Lemma find_in_none k e kwargs axes : (forall p, In p axes -> ~ fits bw k e kwargs p) -> (forall a e', In (a, e') axes -> is_kind k a = true -> readable bw kwargs a) ->
    find_in bw k e kwargs axes = Err IndexError.
  Proof.
    induction axes as [|(a, e') axes IH]; auto. intros NF R. cbn [find_in].
    assert (Later : find_in bw k e kwargs axes = Err IndexError) by (apply IH; [intros p I; apply NF; right; auto|intros a0 e0 X; apply (R a0 e0); right; auto]).
    destruct (is_kind k a && expr_same e' e) eqn:C; auto. apply andb_prop in C. destruct C as (C1 & C2). apply expr_same_eq in C2. subst e'.
    destruct (kwargs_readable a kwargs (R a e (or_introl eq_refl) C1)) as (b & K). rewrite K. cbn [bind]. destruct b; auto. exfalso. apply (NF (a, e)); [left; auto|].
    split; auto. split; auto. apply kwargs_yes. exact K.
  Qed.
End Lookup.
