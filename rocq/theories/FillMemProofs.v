From Coq Require Import String Permutation.
From Verif Require Import Num Base Tree Instr InstrSpec InstrProofs Axis Calc Content Fill FillProofs Elem HistFill HistSpec HistFillMain Book BookFill Lib FillMem FillMemSpec.
Local Open Scope list_scope.

Definition ext (m m' : memory) : Prop := exists e, m' = m ++ e.
Lemma ext_refl m : ext m m.
Proof. exists []. rewrite app_nil_r. auto. Qed.
Lemma ext_trans a b c : ext a b -> ext b c -> ext a c.
Proof. intros (x & ->) (y & ->). exists (x ++ y). rewrite app_assoc. auto. Qed.
Lemma ext_untouched m m' : ext m m' -> untouched m m'.
Proof.
  intros (e & ->) l v H. rewrite nth_error_app1; auto. apply nth_error_Some. congruence.
Qed.
Lemma ext_alloc m v : ext m (m ++ [v]).
Proof. exists [v]. auto. Qed.
Lemma ext_len m m' : ext m m' -> List.length m <= List.length m'.
Proof. intros (e & ->). rewrite app_length. lia. Qed.
Lemma upd_app {A} (f : A -> A) l l' i : List.length l <= i -> upd f i (l ++ l') = l ++ upd f (i - List.length l) l'.
Proof.
  revert i. induction l as [|x l IH]; intros i H; cbn [app List.length] in *.
  - f_equal. lia.
  - destruct i; [lia|]. cbn [upd]. f_equal. rewrite IH by lia. auto.
Qed.
Lemma mcell_ext m m' l : ext m m' -> l < List.length m -> mcell m' l = mcell m l.
Proof. intros (e & ->) H. unfold mcell. apply app_nth1; auto. Qed.

Section MemP.
  Variable cast : Num -> Z.
  Variable rnd : Qc -> Num.
  Variable user : string -> list arg -> res val.
  Variable int32 : nat -> bool.
  Notation mread := (mread cast rnd user).
  Notation call_m := (call_m cast rnd user int32).
  Notation calc_m := (calc_m cast rnd user int32).
  Notation lib := (lib cast rnd user).

  Definition fine (m : memory) (r : ref) : Prop :=
    match r with RLit _ => True | RArr l | RCut l => l < List.length m end.
  Lemma fine_ext m m' r : ext m m' -> fine m r -> fine m' r.
  Proof. intros E. assert (L := ext_len _ _ E). destruct r; simpl; lia. Qed.
  Lemma mread_ext m m' r : ext m m' -> fine m r -> mread m' r = mread m r.
  Proof. intros E F. destruct r; simpl in *; auto; rewrite (mcell_ext _ _ _ E F); auto. Qed.
  Lemma mread_alloc m v : mread (m ++ [v]) (RArr (List.length m)) = v.
  Proof. cbn. unfold mcell. rewrite app_nth2, Nat.sub_diag by lia. auto. Qed.

  (** A reference stands for a value. *)
  Definition stands (m : memory) (r : ref) (v : V) : Prop := fine m r /\ mread m r = v.
  Lemma stands_ext m m' r v : ext m m' -> stands m r v -> stands m' r v.
  Proof. intros E (F & <-). split; [eapply fine_ext; eauto|apply mread_ext; auto]. Qed.
  Lemma stands_alloc m v : stands (m ++ [v]) (RArr (List.length m)) v.
  Proof. split; [|apply mread_alloc]. cbn. rewrite app_length. cbn. lia. Qed.
  Definition same {A B} (R : A -> B -> Prop) (x : res A) (y : res B) : Prop :=
    match x, y with Ok a, Ok b => R a b | Err e, Err e' => e = e' | _, _ => False end.

  Lemma map_stands m rs vs : Forall2 (stands m) rs vs -> map (mread m) rs = vs.
  Proof. induction 1 as [|r v rs vs (_ & E)]; cbn; congruence. Qed.

  Lemma call_ok f rs vs m : takes_out f (List.length rs) = false -> Forall2 (stands m) rs vs ->
    let (m', r) := call_m f rs m in ext m m' /\ same (stands m') r (lib f vs).
  Proof.
    intros T H. unfold FillMem.call_m. rewrite T, (map_stands _ _ _ H).
    destruct (lib f vs) as [v|e] eqn:E; [|split; [apply ext_refl|reflexivity]].
    assert (G : ext m (fst (alloc m v)) /\ same (stands (fst (alloc m v))) (Ok (snd (alloc m v))) (Ok v)).
    { split; [apply ext_alloc|apply stands_alloc]. }
    cbn in G. destruct rs as [|r rs]; [exact G|]. destruct r as [c|l|l]; try exact G. destruct rs as [|r' rs]; [|exact G].
    destruct (String.eqb f "histbook.cut" && int32 l) eqn:C; [|exact G].
    apply andb_true_iff in C. destruct C as (C & _). apply String.eqb_eq in C. subst f.
    split; [apply ext_refl|]. inversion H as [|r v0 ? ? (F & R) H0]; subst. inversion H0; subst. cbn in F.
    change (lib "histbook.cut" [mcell m l] = Ok v) in E. split; auto.
    change (match lib "histbook.cut" [mcell m l] with Ok v => v | Err _ => VCol [] end = v). rewrite E. auto.
  Qed.

  (** Calls with the right number of arguments. *)
  Fixpoint fits (e : rtree) : Prop :=
    match e with
    | RConst _ | RVar _ => True
    | RCall f args => takes_out f (List.length args) = false /\
        (fix all (l : list rtree) : Prop := match l with [] => True | a :: l => fits a /\ all l end) args
    end.
  Definition sim (m : memory) (s : symtab ref) (t : symtab V) : Prop :=
    Forall2 (fun a b => fst a = fst b /\ stands m (snd a) (snd b)) s t.
  Lemma sim_ext m m' s t : ext m m' -> sim m s t -> sim m' s t.
  Proof.
    intros E H. induction H as [|a b s t (E1 & E2)]; constructor; auto. split; auto. eapply stands_ext; eauto.
  Qed.
  Lemma sim_lookup m s t n : sim m s t ->
    match lookup ref n s, lookup V n t with Some r, Some v => stands m r v | None, None => True | _, _ => False end.
  Proof.
    induction 1 as [|(a, r) (b, v) s t (E1 & E2)]; cbn in *; auto. subst b. destruct (Nat.eqb n a); auto.
  Qed.
  Lemma sim_remove m s t n : sim m s t -> sim m (remove ref n s) (remove V n t).
  Proof.
    unfold remove. induction 1 as [|(a, r) (b, v) s t (E1 & E2)]; cbn in *; [constructor|]. subst b. destruct (Nat.eqb n a); cbn; auto.
    constructor; auto.
  Qed.

  Fixpoint rtree_ind' (P : rtree -> Prop) (HC : forall c, P (RConst c)) (HV : forall n, P (RVar n))
    (HF : forall f args, Forall P args -> P (RCall f args)) (e : rtree) : P e :=
    match e with
    | RConst c => HC c
    | RVar n => HV n
    | RCall f args => HF f args ((fix go (l : list rtree) : Forall P l :=
        match l with [] => Forall_nil _ | a :: l => Forall_cons _ (rtree_ind' P HC HV HF a) (go l) end) args)
    end.

  Lemma calc_ok e : forall s t m, fits e -> sim m s t ->
    let (m', r) := calc_m s e m in ext m m' /\ same (stands m') r (calculate V VCst lib t e).
  Proof.
    induction e as [c|n|f args IH] using rtree_ind'; intros s t m F S.
    - cbn. split; [apply ext_refl|]. split; cbn; auto.
    - cbn. split; [apply ext_refl|]. assert (L := sim_lookup m s t n S).
      destruct (lookup ref n s), (lookup V n t); cbn; auto; contradiction.
    - cbn [FillMem.calc_m calculate]. destruct F as (T & F).
      set (go := fix go (l : list rtree) (m : memory) : memory * res (list ref) := _).
      set (go' := fix go' (l : list rtree) : res (list V) := _).
      assert (G : forall m, sim m s t -> let (m', rs) := go args m in ext m m' /\
        same (fun rs vs => Forall2 (stands m') rs vs /\ List.length rs = List.length args) rs (go' args)).
      { clear T m S. induction args as [|a args IHa]; intros m S.
        - cbn. split; [apply ext_refl|]. split; auto.
        - cbn [go go']. inversion IH as [|? ? IH1 IH2]; subst. destruct F as (F1 & F2).
          assert (H1 := IH1 s t m F1 S). destruct (calc_m s a m) as (m1, r).
          destruct H1 as (E1 & H1). destruct r as [r|e]; destruct (calculate V VCst lib t a) as [v|e']; cbn in H1; try contradiction.
          + assert (H2 := IHa IH2 F2 m1 (sim_ext _ _ _ _ E1 S)). fold go go'. destruct (go args m1) as (m2, rs).
            destruct H2 as (E2 & H2). destruct rs as [rs|e]; destruct (go' args) as [vs|e']; cbn in H2; try contradiction; cbn.
            * split; [eapply ext_trans; eauto|]. destruct H2 as (H2 & H3). split; [|cbn; auto]. constructor; auto. eapply stands_ext; eauto.
            * split; [eapply ext_trans; eauto|auto].
          + split; auto. }
      specialize (G m S). destruct (go args m) as (m1, rs). destruct G as (E1 & G).
      destruct rs as [rs|e]; destruct (go' args) as [vs|e']; cbn in G; try contradiction; [|cbn; auto].
      destruct G as (G & L). rewrite <- L in T. assert (C := call_ok f rs vs m1 T G). destruct (call_m f rs m1) as (m2, r).
      destruct C as (E2 & C). split; [eapply ext_trans; eauto|exact C].
  Qed.

  (** ** Parameters *)
  Lemma seen_ext A m m' : passed A m -> ext m m' -> forall s, seen A m' s = seen A m s.
  Proof.
    intros P E s. unfold seen. destruct (A s) as [[v|l]|] eqn:X; auto. destruct (P s l X) as (x & N).
    rewrite (mcell_ext _ _ _ E); auto. apply nth_error_Some. congruence.
  Qed.
  Lemma passed_ext A m m' : passed A m -> ext m m' -> passed A m'.
  Proof. intros P E s l X. destruct (P s l X) as (x & N). exists x. apply (ext_untouched _ _ E); auto. Qed.
  Lemma scan_same A A' is : (forall s, A s = A' s) -> scan_length A is = scan_length A' is.
  Proof.
    intros H. induction is as [|i is IH]; auto. destruct i as [n x| | |]; cbn [scan_length]; auto. destruct (field_name x) as [s|]; auto. rewrite H. destruct (A' s) as [[]|]; auto; destruct (lib_find s maybeconstants); auto.
  Qed.
  Lemma param_same A A' len t : (forall s, A s = A' s) -> param A len t = param A' len t.
  Proof. intros H. destruct t; cbn; auto; rewrite H; auto. Qed.
  Lemma param_ok A len t m : passed A m ->
    let (m', r) := param_m A len t m in ext m m' /\ same (stands m') r (param (seen A m) len t).
  Proof.
    intros P. unfold param_m. destruct (param (seen A m) len t) as [v|e] eqn:E; [|split; [apply ext_refl|reflexivity]].
    assert (G : ext m (fst (alloc m v)) /\ same (stands (fst (alloc m v))) (Ok (snd (alloc m v))) (Ok v)).
    { split; [apply ext_alloc|apply stands_alloc]. }
    cbn in G. destruct (field_name t) as [s|] eqn:N; [|exact G]. destruct (A s) as [[x|l]|] eqn:X; try exact G.
    destruct (P s l X) as (x & M). assert (L : l < List.length m) by (apply nth_error_Some; congruence).
    assert (C : mcell m l = VCol x) by (unfold mcell; apply nth_error_nth; auto).
    split; [apply ext_refl|]. split; auto. cbn. rewrite C.
    assert (S : seen A m s = Some (IAr x)) by (unfold seen; rewrite X, C; auto).
    destruct t as [c|s'|s' b|c|f args]; cbn in N; try discriminate; injection N as ->; cbn in E; rewrite S in E; destruct (Nat.eqb len (List.length x)); congruence.
  Qed.

  Definition fits_i (i : instr) : Prop := match i with Assign _ e => fits e | _ => True end.
  Definition outs (m : memory) (o : list (tree * ref)) (o' : list (tree * V)) : Prop :=
    Forall2 (fun a b => fst a = fst b /\ stands m (snd a) (snd b)) o o'.
  Lemma outs_ext m m' s t : ext m m' -> outs m s t -> outs m' s t.
  Proof.
    intros E H. induction H as [|a b s t (E1 & E2)]; constructor; auto. split; auto. eapply stands_ext; eauto.
  Qed.

  Lemma run_ok A0 A len is : forall s t o o' m, Forall fits_i is -> passed A m -> (forall x, seen A m x = A0 x) -> sim m s t -> outs m o o' ->
    let (m', r) := run_m cast rnd user int32 A len is s o m in
    ext m m' /\ same (outs m') r (rmap snd (run V VCst lib (param A0 len) is t o')).
  Proof.
    induction is as [|i is IH]; intros s t o o' m F P Q S O.
    { cbn. split; [apply ext_refl|auto]. }
    inversion F as [|? ? F1 F2]; subst. destruct i as [n x|n e|n g|n]; cbn [run_m run].
    - assert (H := param_ok A len x m P). rewrite (param_same _ _ len x Q) in H. destruct (param_m A len x m) as (m1, r). destruct H as (E1 & H).
      destruct r as [r|er]; destruct (param A0 len x) as [v|er']; cbn in H; try contradiction; [|cbn; auto].
      assert (R := IH ((n, r) :: s) ((n, v) :: t) o o' m1 F2 (passed_ext _ _ _ P E1)).
      assert (Q1 : forall y, seen A m1 y = A0 y) by (intros y; rewrite (seen_ext _ _ _ P E1); auto).
      specialize (R Q1). assert (S1 : sim m1 ((n, r) :: s) ((n, v) :: t)) by (constructor; [split; auto|eapply sim_ext; eauto]).
      specialize (R S1 (outs_ext _ _ _ _ E1 O)). cbn [bind]. destruct (run_m _ _ _ _ A len is ((n, r) :: s) o m1) as (m2, q). destruct R as (E2 & R). split; auto. eapply ext_trans; eauto.
    - assert (H := calc_ok e s t m F1 S). destruct (calc_m s e m) as (m1, r). destruct H as (E1 & H).
      destruct r as [r|er]; destruct (calculate V VCst lib t e) as [v|er']; cbn in H; try contradiction; [|cbn; auto].
      assert (R := IH ((n, r) :: s) ((n, v) :: t) o o' m1 F2 (passed_ext _ _ _ P E1)).
      assert (Q1 : forall y, seen A m1 y = A0 y) by (intros y; rewrite (seen_ext _ _ _ P E1); auto).
      specialize (R Q1). assert (S1 : sim m1 ((n, r) :: s) ((n, v) :: t)) by (constructor; [split; auto|eapply sim_ext; eauto]).
      specialize (R S1 (outs_ext _ _ _ _ E1 O)). cbn [bind]. destruct (run_m _ _ _ _ A len is ((n, r) :: s) o m1) as (m2, q). destruct R as (E2 & R). split; auto. eapply ext_trans; eauto.
    - assert (L := sim_lookup m s t n S). destruct (lookup ref n s) as [r|], (lookup V n t) as [v|]; try contradiction; [|cbn; split; [apply ext_refl|auto]].
      apply IH; auto. constructor; auto.
    - assert (L := sim_lookup m s t n S). destruct (lookup ref n s) as [r|], (lookup V n t) as [v|]; try contradiction; [|cbn; split; [apply ext_refl|auto]].
      apply IH; auto. apply sim_remove; auto.
  Qed.

  Lemma fill_arrays_ok A is m : Forall fits_i is -> passed A m ->
    let (m', r) := fill_arrays_m cast rnd user int32 A is m in
    ext m m' /\ same (fun x y => fst x = fst y /\ outs m' (snd x) (snd y)) r (fill_arrays cast rnd user (seen A m) is).
  Proof.
    intros F P. unfold fill_arrays_m, fill_arrays. destruct (scan_length (seen A m) is) as [len|e]; [|cbn; split; [apply ext_refl|auto]]. cbn [bind].
    assert (R := run_ok (seen A m) A len is [] [] [] [] m F P (fun _ => eq_refl) (Forall2_nil _) (Forall2_nil _)).
    destruct (run_m _ _ _ _ A len is [] [] m) as (m1, q). destruct R as (E & R). destruct (run V VCst lib (param (seen A m) len) is [] []) as [(st, o')|e]; destruct q as [o|e']; cbn in R |- *; try contradiction; split; auto.
  Qed.

  (** ** The destinations *)
  Lemma outs_contents m o o' : outs m o o' -> contents cast rnd user m o = o'.
  Proof. induction 1 as [|(g, r) (g', v) o o' (E1 & _ & E2) H IH]; auto. cbn [fst snd] in *. subst g' v. cbn [contents map fst snd]. f_equal. exact IH. Qed.
  Lemma outs_find m o o' g : outs m o o' ->
    match ref_find g o, dest_find g o' with Some r, Some v => stands m r v | None, None => True | _, _ => False end.
  Proof.
    induction 1 as [|(a, r) (b, v) s t (E1 & E2)]; cbn in *; auto. subst b. destruct (tree_eq_dec g a); auto.
  Qed.

  (** A new array, written into at will. *)
  Lemma write_new m x v : mwrite (m ++ [x]) (RArr (List.length m)) v = m ++ [v].
  Proof. cbn. rewrite upd_app, Nat.sub_diag by lia. auto. Qed.
  Lemma flat_fuse t a b : map2 (flat_elem t) a b = map2 add_elem (map (mul_elem t) a) b.
  Proof.
    revert b. induction a as [|x a IH]; intros [|y b]; cbn; auto. rewrite IH. f_equal. destruct x, y; auto.
  Qed.
  Definition slots_ref (m : memory) (d : option ref) (c : option col) : Prop :=
    match d, c with Some r, Some c => stands m r (VIdx c) | None, None => True | _, _ => False end.
  Lemma flat_loop_ok m axes axes' : Forall2 (fun a b => fst a = fst b /\ slots_ref m (snd a) (snd b)) axes axes' ->
    forall acc m', m' = m ++ [VIdx acc] ->
    let (m2, e) := flat_loop_m cast rnd user (RArr (List.length m)) axes m' in
    ext m m2 /\ match flat_loop acc axes', e with
                | Ok r, None => m2 = m ++ [VIdx r]
                | Err e, Some e' => e = e'
                | _, _ => False end.
  Proof.
    induction 1 as [|(t, d) (t', c) axes axes' (E1 & E2) H IH]; intros acc m' ->; cbn [flat_loop_m flat_loop].
    { split; [apply ext_alloc|auto]. }
    cbn in E1, E2. subst t'. unfold flat_step. rewrite mread_alloc, write_new.
    destruct d as [d|], c as [c|]; cbn in E2; try contradiction.
    2: { cbn. split; [apply ext_alloc|auto]. }
    rewrite mread_alloc. destruct E2 as (F & R). rewrite (mread_ext m); auto using ext_alloc. rewrite R, map_length.
    destruct (Nat.eqb (List.length acc) (List.length c)); [|cbn; split; [apply ext_alloc|auto]].
    rewrite write_new. rewrite flat_fuse. apply IH. auto.
  Qed.
  Lemma flat_indexes_ok m axes axes' : Forall2 (fun a b => fst a = fst b /\ slots_ref m (snd a) (snd b)) axes axes' ->
    let (m1, r) := flat_indexes_m cast rnd user axes m in
    ext m m1 /\ same (slots_ref m1) r (flat_indexes axes').
  Proof.
    intros H. inversion H as [|(t, d) (t', c) rest rest' (E1 & E2) H']; subst; [cbn; split; [apply ext_refl|auto]|].
    cbn in E1, E2. subst t'. inversion H' as [|a b rest2 rest2' E3 H'']; subst; [cbn; split; [apply ext_refl|auto]|].
    cbn [flat_indexes_m flat_indexes]. destruct d as [d|], c as [c|]; cbn in E2; try contradiction; [|cbn; split; [apply ext_refl|auto]].
    destruct E2 as (F & R). unfold alloc. rewrite R.
    assert (L := flat_loop_ok m _ _ H' c _ eq_refl). destruct (flat_loop_m cast rnd user (RArr (List.length m)) (a :: rest2) (m ++ [VIdx c])) as (m2, e).
    destruct L as (E & L). destruct (flat_loop c (b :: rest2')) as [r|e1]; destruct e as [e|]; try contradiction; cbn; split; auto.
    - subst m2. apply stands_alloc.
  Qed.

  (** ** Weights *)
  Lemma as_nums_zero l x : mapM val_num l = Ok x ->
    mapM val_num (map2 (fun (b : bool) y => if b then VNum nzero else y) (map isnan x) l) = Ok (map (fun y => if isnan y then nzero else y) x).
  Proof.
    revert x. induction l as [|v l IH]; intros x H; cbn in H.
    - injection H as <-. auto.
    - destruct (val_num v) as [y|] eqn:E; [|discriminate]. cbn in H. destruct (mapM val_num l) as [ys|] eqn:M; [|discriminate]. cbn in H. injection H as <-.
      cbn. destruct (isnan y); cbn; rewrite ?E; cbn; rewrite (IH ys eq_refl); auto.
  Qed.
  Lemma as_nums_zero2 l x sel : mapM val_num l = Ok x ->
    mapM val_num (map2 (fun (b : bool) y => if b then VNum nzero else y) sel l) = Ok (map2 (fun b y => if b : bool then nzero else y) sel x).
  Proof.
    revert x sel. induction l as [|v l IH]; intros x sel H; cbn in H.
    - injection H as <-. destruct sel; auto.
    - destruct (val_num v) as [y|] eqn:E; [|discriminate]. cbn in H. destruct (mapM val_num l) as [ys|] eqn:M; [|discriminate]. cbn in H. injection H as <-.
      destruct sel as [|b sel]; cbn; auto. destruct b; cbn; rewrite ?E; cbn; rewrite (IH ys sel eq_refl); auto.
  Qed.
  Lemma map2_map {A B C D} (f : A -> B -> C) (g : D -> A) l l' : map2 f (map g l) l' = map2 (fun a b => f (g a) b) l l'.
  Proof. revert l'. induction l as [|x l IH]; intros [|y l']; cbn; congruence. Qed.
  Lemma no_nan (x : list Num) : existsb (fun b => b) (map isnan x) = false ->
    map (fun y => if isnan y then nzero else y) x = x.
  Proof. induction x as [|y x IH]; cbn; auto. intros H. apply orb_false_iff in H. destruct H as (-> & H). f_equal; auto. Qed.
  Lemma no_nan2 (x x2 : list Num) : existsb (fun b => b) (map isnan x) = false -> List.length x = List.length x2 ->
    map2 (fun y z => if isnan y then nzero else z) x x2 = x2.
  Proof.
    revert x2. induction x as [|y x IH]; intros [|z x2] H L; cbn in *; try discriminate; auto. apply orb_false_iff in H. destruct H as (-> & H). f_equal; auto.
  Qed.

  (** All the columns of one fill have the same length. *)
  Definition okv (len : nat) (v : V) : Prop := match v with VCol l => List.length l = len | _ => True end.
  Lemma mapM_len {A B} (f : A -> res B) l r : mapM f l = Ok r -> List.length r = List.length l.
  Proof.
    revert r. induction l as [|x l IH]; intros r H; cbn in H; [injection H as <-; auto|].
    destruct (f x); [|discriminate]. cbn in H. destruct (mapM f l) as [ys|]; [|discriminate]. cbn in H. injection H as <-. cbn. f_equal. auto.
  Qed.
  Lemma col_length_ok len vs n : Forall (okv len) vs -> col_length vs = Some n -> n = len.
  Proof. induction 1 as [|v vs H Hs IH]; cbn; [discriminate|]. destruct v; auto. intros E. injection E as <-. auto. Qed.
  Lemma lib_okv len f vs v : Forall (okv len) vs -> lib f vs = Ok v -> okv len v.
  Proof.
    intros H. unfold HistFill.lib. destruct (lib_find f axis_library) as [mk|].
    - destruct vs as [|[c|l|l|u i] vs]; try discriminate. destruct (mapM literal vs) as [cs|]; [|discriminate]. cbn [bind]. destruct (mk cs) as [ax|]; [|discriminate].
      destruct (is_group ax).
      + destruct (mapM (key_of rnd ax) l) as [ks|]; [|discriminate]. cbn [bind]. destruct (group_col ks). intros E; injection E as <-. exact I.
      + destruct (mapM (slot_of cast rnd ax) l) as [ks|]; [|discriminate]. cbn. intros E; injection E as <-. exact I.
    - unfold elementwise. destruct (col_length vs) as [n|] eqn:C; [|discriminate]. destruct (existsb _ vs); [discriminate|].
      destruct (mapM _ (seq 0 n)) as [r|] eqn:M; [|discriminate]. cbn. intros E; injection E as <-. cbn. rewrite (mapM_len _ _ _ M), seq_length.
      eapply col_length_ok; eauto.
  Qed.
  Lemma lookup_okv len n t v : Forall (fun p => okv len (snd p)) t -> lookup V n t = Some v -> okv len v.
  Proof. induction 1 as [|(a, x) t H Hs IH]; cbn; [discriminate|]. destruct (Nat.eqb n a); auto. intros E; injection E as <-; auto. Qed.
  Lemma calc_okv len t e : forall v, Forall (fun p => okv len (snd p)) t -> calculate V VCst lib t e = Ok v -> okv len v.
  Proof.
    induction e as [c|n|f args IH] using rtree_ind'; intros v F; cbn [calculate].
    - intros E; injection E as <-. exact I.
    - destruct (lookup V n t) eqn:L; [|discriminate]. intros E; injection E as <-. eapply lookup_okv; eauto.
    - set (go := fix go (l : list rtree) : res (list V) := _).
      assert (G : forall vs, go args = Ok vs -> Forall (okv len) vs).
      { induction args as [|a args IHa]; intros vs; cbn [go]; [intros E; injection E as <-; auto|].
        inversion IH as [|? ? I1 I2]; subst. destruct (calculate V VCst lib t a) as [x|] eqn:C; [|discriminate]. cbn [bind]. fold go.
        destruct (go args) as [xs|]; [|discriminate]. cbn [bind]. intros E; injection E as <-. constructor; auto. }
      destruct (go args) as [vs|]; [|discriminate]. cbn [bind]. apply lib_okv. auto.
  Qed.
  Lemma param_okv A len x v : param A len x = Ok v -> okv len v.
  Proof.
    destruct x as [c|s|s b|c|f args]; cbn [param]; try discriminate.
    3: { destruct (arg_val (AC c)) as [y|]; [|discriminate]. cbn. intros E; injection E as <-. apply repeat_length. }
    all: destruct (A s) as [[y|l]|]; [intros E; injection E as <-; apply repeat_length| |destruct (lib_find s maybeconstants); [|discriminate]; intros E; injection E as <-; apply repeat_length];
      destruct (Nat.eqb_spec len (List.length l)); [|discriminate]; intros E; injection E as <-; cbn; auto.
  Qed.
  Lemma remove_okv len n t : Forall (fun p => okv len (snd p)) t -> Forall (fun p => okv len (snd p)) (remove V n t).
  Proof. unfold remove. induction 1 as [|(a, x) t H Hs IH]; cbn; auto. destruct (Nat.eqb n a); cbn; auto. Qed.
  Lemma run_okv A len is : forall t o r, Forall (fun p => okv len (snd p)) t -> Forall (fun p => okv len (snd p)) o ->
    run V VCst lib (param A len) is t o = Ok r -> Forall (fun p => okv len (snd p)) (snd r).
  Proof.
    induction is as [|i is IH]; intros t o r T O; [cbn; intros E; injection E as <-; auto|].
    destruct i as [n x|n e|n g|n]; cbn [run].
    - destruct (param A len x) as [v|] eqn:P; [|discriminate]. cbn [bind]. apply IH; auto. constructor; auto. eapply param_okv; eauto.
    - destruct (calculate V VCst lib t e) as [v|] eqn:C; [|discriminate]. cbn [bind]. apply IH; auto. constructor; auto. eapply calc_okv; eauto.
    - destruct (lookup V n t) as [v|] eqn:L; [|discriminate]. apply IH; auto. constructor; auto. eapply lookup_okv; eauto.
    - destruct (lookup V n t); [|discriminate]. apply IH; auto. apply remove_okv; auto.
  Qed.
  Lemma fill_arrays_okv A is len o : fill_arrays cast rnd user A is = Ok (len, o) -> Forall (fun p => okv len (snd p)) o.
  Proof.
    unfold fill_arrays. destruct (scan_length A is) as [n|]; [|discriminate]. cbn [bind]. destruct (run V VCst lib (param A n) is [] []) as [r|] eqn:R; [|discriminate]. cbn [bind].
    intros E; injection E as <- <-. eapply run_okv; eauto.
  Qed.

  (** ** _postfill *)
  Lemma find_okv len g o v : Forall (fun p => okv len (snd p)) o -> dest_find g o = Some v -> okv len v.
  Proof. induction 1 as [|(a, x) o H Hs IH]; cbn; [discriminate|]. destruct (tree_eq_dec g a); auto. intros E; injection E as <-; auto. Qed.

  Lemma as_nums_ok v x : as_nums (Some v) = Ok x -> exists l, v = VCol l /\ mapM val_num l = Ok x.
  Proof. destruct v; try discriminate. cbn. eauto. Qed.

  Lemma clean_ok len w w2 m v v2 x x2 : stands m w v -> stands m w2 v2 -> okv len v -> okv len v2 ->
    as_nums (Some v) = Ok x -> as_nums (Some v2) = Ok x2 ->
    exists m1 w' w2', clean_weights cast rnd user w w2 m = (m1, Ok (w', w2')) /\ ext m m1 /\
      as_nums (Some (mread m1 w')) = Ok (fst (zero_nan (x, x2))) /\ as_nums (Some (mread m1 w2')) = Ok (snd (zero_nan (x, x2))).
  Proof.
    intros (F & R) (F2 & R2) K K2 N N2. unfold clean_weights. rewrite R, N.
    destruct (existsb (fun b => b) (map isnan x)) eqn:X.
    - destruct (as_nums_ok _ _ N) as (l & -> & Ml). destruct (as_nums_ok _ _ N2) as (l2 & -> & Ml2).
      unfold alloc. set (m1 := m ++ [VCol l]). assert (E1 : ext m m1) by apply ext_alloc.
      rewrite (mread_ext m m1 w2 E1 F2), R2. set (m2 := m1 ++ [VCol l2]). assert (E2 : ext m1 m2) by apply ext_alloc.
      assert (B1 : mread m2 (RArr (List.length m)) = VCol l).
      { rewrite (mread_ext m1 m2 (RArr (List.length m)) E2); [apply mread_alloc|]. cbn. unfold m1. rewrite app_length. cbn. lia. }
      rewrite B1.
      assert (W : mwrite m2 (RArr (List.length m)) (zero_at (map isnan x) (VCol l)) = (m ++ [zero_at (map isnan x) (VCol l)]) ++ [VCol l2]).
      { unfold m2, m1. rewrite <- !app_assoc. cbn [mwrite app]. rewrite upd_app, Nat.sub_diag by lia. reflexivity. }
      rewrite W. set (m3 := m ++ [zero_at (map isnan x) (VCol l)]).
      assert (L : List.length m1 = List.length m3) by (unfold m1, m3; rewrite !app_length; auto). rewrite L, mread_alloc, write_new.
      eexists _, _, _. split; [reflexivity|]. split; [|split].
      + unfold m3. eapply ext_trans; apply ext_alloc.
      + rewrite (mread_ext m3); [|apply ext_alloc|cbn; unfold m3; rewrite app_length; cbn; lia]. unfold m3. rewrite mread_alloc. cbn [zero_at as_nums zero_nan fst].
        apply as_nums_zero; auto.
      + rewrite mread_alloc. cbn [zero_at as_nums zero_nan snd]. rewrite (as_nums_zero2 _ x2); auto. rewrite map2_map. auto.
    - eexists m, w, w2. split; [reflexivity|]. split; [apply ext_refl|]. rewrite R, R2. cbn [zero_nan fst snd].
      destruct (as_nums_ok _ _ N) as (l & -> & Ml). destruct (as_nums_ok _ _ N2) as (l2 & -> & Ml2). cbn in K, K2.
      rewrite no_nan, no_nan2; auto. apply mapM_len in Ml, Ml2. congruence.
  Qed.
End MemP.
