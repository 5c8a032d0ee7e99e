(** Proofs about combinations of plots. *)
From Coq Require Import String Ascii DecimalString DecimalNat DecimalFacts Lia.
From Verif Require Import Base Num Axis Calc Content Fill FillSpec Tree Order Expr HistAlg Nd Proj Select Table Pandas Vega VegaEnc VegaComb VegaCombSpec.
Local Open Scope string_scope.
Local Open Scope list_scope.

(** ** Names *)
Fixpoint all_chars (p : ascii -> bool) (s : string) : bool := match s with EmptyString => true | String c t => p c && all_chars p t end.
Definition lower (c : ascii) : bool := Nat.leb 97 (nat_of_ascii c) && Nat.leb (nat_of_ascii c) 122.
Definition digit (c : ascii) : bool := Nat.leb 48 (nat_of_ascii c) && Nat.leb (nat_of_ascii c) 57.
Lemma digit_not_lower c : digit c = true -> lower c = false.
Proof.
  unfold digit, lower. rewrite andb_true_iff, !Nat.leb_le. intros (H1 & H2). apply andb_false_iff. left. apply Nat.leb_gt. lia.
Qed.
Lemma all_chars_app p s t : all_chars p (s ++ t)%string = all_chars p s && all_chars p t.
Proof. induction s as [|c s IH]; cbn; auto. rewrite IH. apply andb_assoc. Qed.
Lemma str_digits n : all_chars digit (str_nat n) = true /\ str_nat n <> "".
Proof.
  unfold str_nat. generalize (Nat.to_uint n). intros d. unfold NilZero.string_of_uint. destruct d; (split; [|discriminate]); cbn [NilEmpty.string_of_uint all_chars digit andb]; try reflexivity.
  all: induction d as [|d IH|d IH|d IH|d IH|d IH|d IH|d IH|d IH|d IH|d IH]; cbn in *; auto.
Qed.
Lemma str_inj n m : str_nat n = str_nat m -> n = m.
Proof.
  unfold str_nat. intros H.
  assert (U : forall k, Nat.to_uint k <> Decimal.Nil).
  { intros k Hk. apply (DecimalFacts.unorm_nonnil (Nat.to_uint k)). rewrite <- DecimalNat.Unsigned.to_of, DecimalNat.Unsigned.of_to. exact Hk. }
  apply (f_equal NilZero.uint_of_string) in H. rewrite !NilZero.usu in H by apply U. injection H as H. apply DecimalNat.Unsigned.to_uint_inj. exact H.
Qed.
Lemma app_inj_l s : forall a b, (s ++ a)%string = (s ++ b)%string -> a = b.
Proof. induction s as [|c s IH]; intros a b H; auto. injection H as H. auto. Qed.
Lemma app_assoc_s a b c : ((a ++ b) ++ c)%string = (a ++ (b ++ c))%string.
Proof. induction a as [|x a IH]; cbn; [auto|rewrite IH; auto]. Qed.
Fixpoint lead (s : string) : string := match s with EmptyString => "" | String c t => if lower c then String c (lead t) else "" end.
Lemma lead_app v s : all_chars lower v = true -> lead s = "" -> lead (v ++ s)%string = v.
Proof. induction v as [|c v IH]; cbn; auto. destruct (lower c); [|discriminate]. intros H1 H2. rewrite IH; auto. Qed.
Lemma lead_digits s t : all_chars digit s = true -> s <> "" -> lead (s ++ t)%string = "".
Proof. destruct s as [|c s]; [congruence|]. cbn. intros H _. apply andb_true_iff in H. destruct H as (H & _). rewrite (digit_not_lower c H). reflexivity. Qed.

(** The columns of a plot: number [j], or the one for the error bars *)
Inductive col : Type := Cell (j : nat) | Centre (j : nat).
Definition name (v : string) (c : col) : string := match c with Cell j => field v j | Centre j => (field v j ++ "c")%string end.
Definition tail (c : col) : string := match c with Cell j => str_nat j | Centre j => (str_nat j ++ "c")%string end.
Lemma name_tail v c : name v c = (v ++ tail c)%string.
Proof. destruct c; cbn; auto. unfold field. apply app_assoc_s. Qed.
Lemma tail_lead c : lead (tail c) = "" /\ tail c <> "".
Proof.
  destruct c as [j|j]; cbn [tail]; destruct (str_digits j) as (H1 & H2).
  - split; auto. rewrite <- (lead_digits (str_nat j) "" H1 H2). f_equal. clear. induction (str_nat j) as [|x s IH]; cbn; congruence.
  - split; [apply lead_digits; auto|]. destruct (str_nat j); [congruence|discriminate].
Qed.
Lemma app_c s t : (s ++ "c")%string = (t ++ "c")%string -> s = t.
Proof.
  revert t. induction s as [|x s IH]; intros [|y t] H; auto.
  - injection H as H1 H2. destruct t; discriminate.
  - injection H as H1 H2. destruct s; discriminate.
  - injection H as -> H. f_equal. auto.
Qed.
Lemma tail_inj c d : tail c = tail d -> c = d.
Proof.
  destruct c as [j|j], d as [k|k]; cbn [tail]; intros H.
  - f_equal. apply str_inj; auto.
  - exfalso. destruct (str_digits j) as (X & _). rewrite H, all_chars_app in X. apply andb_true_iff in X. destruct X as (_ & X). discriminate.
  - exfalso. destruct (str_digits k) as (X & _). rewrite <- H, all_chars_app in X. apply andb_true_iff in X. destruct X as (_ & X). discriminate.
  - f_equal. apply str_inj. apply app_c. exact H.
Qed.
Lemma name_inj v w c d : all_chars lower v = true -> all_chars lower w = true -> name v c = name w d -> v = w /\ c = d.
Proof.
  intros Hv Hw H. rewrite !name_tail in H. assert (E : v = w).
  { apply (f_equal lead) in H. rewrite !lead_app in H; auto; apply tail_lead. }
  split; auto. subst w. apply tail_inj. apply (app_inj_l v). exact H.
Qed.
Lemma name_not_id v c : all_chars lower v = true -> name v c <> "id".
Proof.
  intros Hv H. rewrite name_tail in H. pose proof (f_equal lead H) as L. rewrite lead_app in L; auto; [|apply tail_lead]. cbn in L. subst v. cbn [append] in H. injection H as H. apply (tail_lead c). exact H.
Qed.

(** _varname gives every plot its own name. *)
Definition digit26 (c : ascii) : nat := nat_of_ascii c - 97.
Fixpoint val_from (n : nat) (s : string) : nat := match s with EmptyString => n | String c t => val_from (26 * n + digit26 c) t end.
Lemma letter_ok i : i < 26 -> exists c, letter i = String c "" /\ digit26 c = i /\ lower c = true.
Proof.
  intros H. assert (X : forallb (fun i => match letter i with String c EmptyString => Nat.eqb (digit26 c) i && lower c | _ => false end) (seq 0 26) = true) by reflexivity.
  rewrite forallb_forall in X. specialize (X i). rewrite in_seq in X. specialize (X ltac:(lia)). destruct (letter i) as [|c [|]]; try discriminate. apply andb_true_iff in X. destruct X as (X1 & X2). apply Nat.eqb_eq in X1. eauto.
Qed.
Lemma varname_loop_ok : forall f i acc, i <= f -> val_from 0 (varname_loop f i acc) = val_from i acc /\ (all_chars lower acc = true -> all_chars lower (varname_loop f i acc) = true).
Proof.
  induction f as [|f IH]; intros i acc Hi.
  - replace i with 0 by lia. auto.
  - cbn [varname_loop]. destruct i as [|i0]; auto. set (i := S i0) in *. pose proof (Nat.div_mod i 26 ltac:(lia)) as D. pose proof (Nat.mod_upper_bound i 26 ltac:(lia)) as M.
    destruct (letter_ok (Nat.modulo i 26) M) as (c & Ec & Ed & El). destruct (IH (Nat.div i 26) (letter (Nat.modulo i 26) ++ acc)%string) as (I1 & I2); [lia|].
    rewrite I1. rewrite Ec in *. cbn [append val_from all_chars] in *. rewrite Ed. rewrite <- D. split; auto. intros H. apply I2. rewrite El. exact H.
Qed.
Lemma varname_lower i : all_chars lower (varname i) = true.
Proof. apply (varname_loop_ok (S i) (S i) ""); auto. Qed.
Lemma varname_inj i j : varname i = varname j -> i = j.
Proof.
  intros H. apply (f_equal (val_from 0)) in H. unfold varname in H. destruct (varname_loop_ok (S i) (S i) "" ltac:(lia)) as (E1 & _). destruct (varname_loop_ok (S j) (S j) "" ltac:(lia)) as (E2 & _).
  rewrite E1, E2 in H. cbn [val_from] in H. lia.
Qed.

(** ** Fields of a datum *)
Lemma value_app f a b : value_of f (a ++ b) = match value_of f a with Some x => Some x | None => value_of f b end.
Proof. induction a as [|[g x] a IH]; cbn [app value_of]; auto. destruct (String.eqb f g); auto. Qed.
Lemma value_cells v w c : all_chars lower v = true -> all_chars lower w = true -> forall row k,
  value_of (name v c) (combine (map (field w) (seq k (length row))) (map FCell row)) =
  match c with Cell j => if (String.eqb v w && Nat.leb k j)%bool then option_map FCell (nth_error row (j - k)) else None | Centre _ => None end.
Proof.
  intros Hv Hw. induction row as [|x row IH]; intros k; cbn [length seq map combine value_of].
  - destruct c as [j|j]; auto. destruct (String.eqb v w && Nat.leb k j)%bool; auto. destruct (j - k); reflexivity.
  - rewrite IH. destruct (String.eqb_spec (name v c) (field w k)) as [E|E].
    + change (field w k) with (name w (Cell k)) in E. apply name_inj in E; auto. destruct E as (-> & ->). rewrite String.eqb_refl, Nat.leb_refl, Nat.sub_diag. reflexivity.
    + destruct c as [j|j]; auto. destruct (String.eqb_spec v w) as [->|]; auto. cbn [andb]. assert (j <> k) by (intros ->; apply E; reflexivity).
      destruct (Nat.leb (S k) j) eqn:L.
      * apply Nat.leb_le in L. assert (L2 : Nat.leb k j = true) by (apply Nat.leb_le; lia). rewrite L2. replace (j - k) with (S (j - S k)) by lia. reflexivity.
      * apply Nat.leb_gt in L. assert (L2 : Nat.leb k j = false) by (apply Nat.leb_gt; lia). rewrite L2. reflexivity.
Qed.
(** What a column says, whatever the names *)
Definition meaning (lastj : nat) (c : col) (d : datum) : option fval :=
  match c with
  | Cell j => option_map FCell (nth_error (d_row d) j)
  | Centre j => if Nat.eqb j lastj then option_map FCell (d_centre d) else None
  end.
Lemma value_named v w c lastj d : all_chars lower v = true -> all_chars lower w = true ->
  value_of (name v c) (to_object w lastj d) = if String.eqb v w then meaning lastj c d else None.
Proof.
  intros Hv Hw. unfold to_object. rewrite !value_app, (value_cells v w c Hv Hw).
  assert (E0 : value_of (name v c) (id_field (d_id d)) = None).
  { destruct (d_id d); auto. cbn [id_field value_of]. destruct (String.eqb_spec (name v c) "id") as [E|]; auto. contradiction (name_not_id v c Hv E). }
  rewrite E0. clear E0.
  assert (E1 : value_of (name v c) (centre_field w lastj (d_centre d)) =
               match c with Centre j => if (String.eqb v w && Nat.eqb j lastj)%bool then option_map FCell (d_centre d) else None | Cell _ => None end).
  { destruct (d_centre d) as [x|]; cbn [centre_field value_of].
    - change (field w lastj ++ "c")%string with (name w (Centre lastj)). destruct (String.eqb_spec (name v c) (name w (Centre lastj))) as [E|E].
      + apply name_inj in E; auto. destruct E as (-> & ->). rewrite String.eqb_refl, Nat.eqb_refl. reflexivity.
      + destruct c as [j|j]; auto. destruct (String.eqb_spec v w) as [->|]; auto. destruct (Nat.eqb_spec j lastj) as [->|]; auto. congruence.
    - destruct c; auto. destruct (String.eqb v w && Nat.eqb j lastj)%bool; auto. }
  rewrite E1. destruct c as [j|j]; cbn [meaning Nat.leb andb].
  - rewrite andb_true_r, Nat.sub_0_r. destruct (String.eqb v w); auto. destruct (nth_error (d_row d) j); reflexivity.
  - destruct (String.eqb v w); auto.
Qed.
Lemma value_id v lastj d : all_chars lower v = true -> value_of "id" (to_object v lastj d) = option_map FId (d_id d).
Proof.
  intros Hv. unfold to_object. rewrite !value_app. destruct (d_id d) as [s|]; [reflexivity|]. cbn [id_field value_of option_map].
  assert (N : forall c, String.eqb "id" (name v c) = false) by (intros c; apply String.eqb_neq; intros E; apply (name_not_id v c Hv); auto).
  assert (E0 : forall row k, value_of "id" (combine (map (field v) (seq k (length row))) (map FCell row)) = None).
  { induction row as [|x row IH]; intros k; auto. cbn [length seq map combine value_of]. change (field v k) with (name v (Cell k)). rewrite N. apply IH. }
  rewrite E0. destruct (d_centre d); auto. cbn [centre_field value_of]. change (field v lastj ++ "c")%string with (name v (Centre lastj)). rewrite N. reflexivity.
Qed.

(** ** One plot, whatever its name *)
(** The marks, with columns in place of names *)
Record amark : Type := { a_cols : list (role * col); a_domain : list word; a_ordering : option ordering }.
Definition render (v : string) (a : amark) : unit_view :=
  {| u_ids := []; u_fields := map (fun rc => (fst rc, name v (snd rc))) (a_cols a); u_domain := a_domain a; u_ordering := a_ordering a |}.
Definition opt_col {A} (r : role) (f : A -> nat) (o : option A) : list (role * col) := match o with Some x => [(r, Cell (f x))] | None => [] end.
Definition amark_of (e : encoding) : amark :=
  {| a_cols := (RX, Cell (n_x e)) :: (RY, Cell (n_y e)) :: opt_col RColor (fun x => fst x) (n_color e) ++ opt_col ROrder (fun x => fst x) (n_order e) ++ opt_col RColumn (fun x => x) (n_column e) ++ opt_col RRow (fun x => x) (n_row e);
     a_domain := match n_color e with Some x => snd x | None => [] end; a_ordering := option_map snd (n_order e) |}.
Definition aerror (l : last1d) (j n : nat) : amark :=
  {| a_cols := [(RErrorX, if c_error l && is_baseline (c_kind l) then Centre j else Cell j); (RErrorY, Cell n); (RErrorSize, Cell (n + 1))]; a_domain := []; a_ordering := None |}.
Section Plots.
  Variables (sqrt : Num -> Num) (bin_width : nat -> Num -> Num -> Num) (sorted : list dkey -> res (list dkey)).
  Definition amarks (x : plot) (i : info) : res (list amark) :=
    match x with
    | Plot1 h p => do e <- encode1d sorted p (fst i) (snd i); Ok (amark_of e :: if c_error (p1_last p) then [aerror (p1_last p) (n_x e) (length (fst i))] else [])
    | Plot2 h p => do e <- encode2d sorted p (fst i) (snd i); Ok [amark_of e]
    end.
  Lemma render_unit v e : unit_of v e = render v (amark_of e).
  Proof. unfold unit_of, render, amark_of. cbn [a_cols a_domain a_ordering map fst snd name]. f_equal. rewrite !map_app. destruct (n_color e), (n_order e), (n_column e), (n_row e); reflexivity. Qed.
  Lemma render_error v l j n : error_unit v l j n = render v (aerror l j n).
  Proof. unfold error_unit, render, aerror. cbn [a_cols a_domain a_ordering map fst snd name]. destruct (c_error l && is_baseline (c_kind l)); reflexivity. Qed.
  Lemma units_render x i v : plot_units sorted x i v = do us <- amarks x i; Ok (map (render v) us).
  Proof.
    destruct x as [h p|h p]; cbn [plot_units amarks].
    - destruct (encode1d _ _ _ _) as [e|]; auto. cbn [bind map]. rewrite render_unit. destruct (c_error (p1_last p)); cbn [map]; [rewrite render_error|]; reflexivity.
    - destruct (encode2d _ _ _ _) as [e|]; auto. cbn [bind map]. rewrite render_unit. reflexivity.
  Qed.
  (** The data without names *)
  Definition set_id (id : option string) (d : datum) : datum := {| d_id := id; d_row := d_row d; d_centre := d_centre d |}.
  Definition raw (x : plot) : res (info * nat * list datum) :=
    match x with
    | Plot1 h p => do r <- data1d sqrt bin_width h p None; let '(order, data, ds) := r in do lastj <- position (c_axis (p1_last p)) order; Ok ((order, ds), lastj, data)
    | Plot2 h p => do r <- data2d sqrt bin_width h p None; let '(order, data, ds) := r in Ok ((order, ds), 0, data)
    end.
  Lemma plot_data_raw x id v : plot_data sqrt bin_width x id v = do r <- raw x; let '(inf, lastj, data) := r in Ok (inf, map (fun d => to_object v lastj (set_id id d)) data).
  Proof.
    destruct x as [h p|h p]; cbn [plot_data raw].
    - unfold data1d. destruct (project _ _) as [pr|]; auto. cbn [bind]. destruct (table _ _ _ _ _) as [t|]; auto. cbn [bind]. set (order := o_group (p_head pr) ++ o_fixed (p_head pr)).
      destruct (position (c_axis (p1_last p)) order) as [lastj|] eqn:El; auto. cbn [bind]. destruct (recurse _ _ _ _ _ _ _) as [r|]; auto. cbn [bind]. rewrite El. cbn [bind]. rewrite !map_map. reflexivity.
    - unfold data2d. destruct (project _ _) as [pr|]; auto. cbn [bind]. destruct (table _ _ _ _ _) as [t|]; auto. cbn [bind]. set (order := o_group (p_head pr) ++ o_fixed (p_head pr)).
      destruct (position (c_xaxis (p2_last p)) order) as [jx|]; auto. cbn [bind]. destruct (position (c_yaxis (p2_last p)) order) as [jy|]; auto. cbn [bind]. destruct (recurse2 _ _ _ _ _ _) as [r|]; auto. cbn [bind]. rewrite !map_map. reflexivity.
  Qed.
  (** A plot alone: it succeeds exactly if its data and marks do. *)
  Lemma alone x : plot_vegalite sqrt bin_width sorted x = do r <- raw x; let '(inf, lastj, data) := r in do us <- amarks x inf;
    Ok (map (fun d => to_object "a" lastj (set_id None d)) data, one_or_layer (map (render "a") us)).
  Proof.
    unfold plot_vegalite. rewrite plot_data_raw. destruct (raw x) as [[[inf lastj] data]|]; auto. cbn [bind fst snd]. rewrite units_render. destruct (amarks x inf) as [us|]; auto.
  Qed.
  Lemma marks_units us : marks (one_or_layer us) = us.
  Proof.
    assert (X : flat_map marks (map VUnit us) = us) by (induction us as [|u us IH]; cbn; congruence).
    unfold one_or_layer. destruct us as [|u [|u' us]]; auto.
  Qed.

  (** What a mark with the columns [a] says of a datum, and that it says it under any name *)
  Definition ameans (lastj : nat) (a : amark) (d : datum) : list (role * option fval) := map (fun rc => (fst rc, meaning lastj (snd rc) d)) (a_cols a).
  Lemma fields_mean v lastj a d : all_chars lower v = true -> map (fun rf => (fst rf, value_of (snd rf) (to_object v lastj d))) (u_fields (render v a)) = ameans lastj a d.
  Proof. intros Hv. unfold ameans. cbn [render u_fields]. rewrite map_map. apply map_ext. intros [r c]. cbn [fst snd]. rewrite value_named by auto. rewrite String.eqb_refl. reflexivity. Qed.
  Lemma fields_mean_set v lastj a id d : all_chars lower v = true -> map (fun rf => (fst rf, value_of (snd rf) (to_object v lastj (set_id id d)))) (u_fields (render v a)) = ameans lastj a d.
  Proof. intros Hv. rewrite fields_mean by auto. reflexivity. Qed.
  Lemma fields_other v w lastj a d : all_chars lower v = true -> all_chars lower w = true -> v <> w ->
    says_something (map (fun rf => (fst rf, value_of (snd rf) (to_object w lastj d))) (u_fields (render v a))) = false.
  Proof.
    intros Hv Hw Hn. unfold says_something. cbn [render u_fields]. rewrite map_map. induction (a_cols a) as [|[r c] l IH]; auto. cbn [map existsb fst snd]. rewrite value_named by auto. destruct (String.eqb_spec v w); [congruence|]. exact IH.
  Qed.
End Plots.
