(** Proofs about whole fills: the instructions deliver the columns that row-wise evaluation
    predicts, and a faulty argument leaves the content alone. *)
From Coq Require Import String Permutation.
From Verif Require Import Num NumFacts Base Tree Instr InstrSpec InstrProofs Axis Calc Content Fill FillSpec Elem HistFill HistSpec.

(** * mapM *)
Lemma mapM_ok {A B} (f : A -> res B) l ys : mapM f l = Ok ys <-> Forall2 (fun x y => f x = Ok y) l ys.
Proof.
  revert ys. induction l as [|x l IH]; simpl; intros ys.
  - split; [injection 1 as <-; constructor|inversion 1; auto].
  - split.
    + destruct (f x) as [y|] eqn:E; simpl; [|discriminate].
      destruct (mapM f l) as [zs|]; simpl; [|discriminate]. injection 1 as <-.
      constructor; auto. apply IH; auto.
    + inversion 1; subst. rewrite H2. simpl. rewrite (proj2 (IH l') H4). reflexivity.
Qed.
Lemma mapM_err {A B} (f : A -> res B) l e : mapM f l = Err e -> exists x, In x l /\ f x = Err e.
Proof.
  induction l as [|x l IH]; simpl; [discriminate|]. destruct (f x) as [y|e'] eqn:E; simpl.
  - destruct (mapM f l) as [ys|]; simpl; [discriminate|]. injection 1 as ->.
    destruct IH as (z & H1 & H2); auto. exists z; auto.
  - injection 1 as ->. exists x; auto.
Qed.
Lemma mapM_err_in {A B} (f : A -> res B) l x e : In x l -> f x = Err e -> exists e', mapM f l = Err e'.
Proof.
  intros Hx E. destruct (mapM f l) as [ys|e'] eqn:M; [|eauto].
  apply mapM_ok in M. exfalso. revert Hx. induction M; simpl; intros []; subst; auto; congruence.
Qed.
Lemma mapM_ext {A B} (f g : A -> res B) l : (forall x, In x l -> f x = g x) -> mapM f l = mapM g l.
Proof.
  induction l as [|x l IH]; simpl; intros H; auto. rewrite (H x) by auto. rewrite IH by auto. reflexivity.
Qed.
Lemma mapM_nth {A B} (f : A -> res B) (g : nat -> B) l :
  (forall j x, nth_error l j = Some x -> f x = Ok (g j)) -> mapM f l = Ok (map g (seq 0 (length l))).
Proof.
  intros H. apply mapM_ok. revert g H. induction l as [|x l IH]; simpl; intros g H; constructor.
  - apply (H 0); reflexivity.
  - rewrite <- seq_shift, map_map. apply IH. intros j y Hj. apply (H (S j)); auto.
Qed.
Lemma Forall2_len {A B} (P : A -> B -> Prop) l m : Forall2 P l m -> length l = length m.
Proof. induction 1; simpl; auto. Qed.
Lemma Forall2_nth {A B} (P : A -> B -> Prop) l m i x :
  Forall2 P l m -> nth_error l i = Some x -> exists y, nth_error m i = Some y /\ P x y.
Proof.
  intros H. revert i. induction H; intros [|i]; simpl; intros E; try discriminate.
  - injection E as <-. eauto.
  - apply IHForall2; auto.
Qed.
Lemma bind_ok {A B} (r : res A) (f : A -> res B) y : (do x <- r; f x) = Ok y -> exists x, r = Ok x /\ f x = Ok y.
Proof. destruct r; simpl; [eauto|discriminate]. Qed.

(** * Evaluation of one row *)
Lemma reval_call user field f args :
  reval user field (TCall f args) = do vs <- mapM (reval user field) args; rmap AV (efun user f vs).
Proof.
  cbn [reval]. f_equal. induction args as [|a args IH]; simpl; auto. rewrite IH. reflexivity.
Qed.
Lemma reval_sub user field t y e :
  subtree y t -> is_const y = false -> reval user field y = Err e -> exists e', reval user field t = Err e'.
Proof.
  intros S Hc E. induction S as [|f args a Ha Hs IH]; eauto.
  destruct IH as [e' IH]. rewrite reval_call. destruct (mapM_err_in _ _ _ _ Ha IH) as [e'' ->]. simpl. eauto.
Qed.

Section Fill.
  Variable cast : Num -> Z.
  Variable rnd : Qc -> Num.
  Variable user : string -> list arg -> res val.

  Notation lib := (lib cast rnd user).
  Notation tev := (fun A len => teval V VCst lib (param A len)).

  (** ** Element-wise functions against row evaluation. *)
  Section Columns.
    Variable A : arrays.
    Variable len : nat.
    Notation ev := (teval V VCst lib (param A len)).
    Notation row i := (reval user (field_at A i)).

    Definition usable (t : tree) : Prop :=
      forall s, mentions s t -> available A s /\ right_length A len s.

    (** [v] is the column of values that [f] gives row by row. *)
    Definition col_is (f : nat -> res arg) (v : V) : Prop :=
      exists l, v = VCol l /\ length l = len /\ forall i x, nth_error l i = Some x -> f i = Ok (AV x).

    Definition agrees (f : nat -> res arg) (r : res V) : Prop :=
      match r with
      | Ok v => col_is f v
      | Err _ => exists i e, i < len /\ f i = Err e
      end.

    Lemma repeat_col v f : (forall i, f i = Ok (AV v)) -> col_is f (VCol (repeat v len)).
    Proof.
      intros H. exists (repeat v len). split; auto. split; [apply repeat_length|].
      intros i x E. apply nth_error_In, repeat_spec in E. subst. apply H.
    Qed.

    Lemma agrees_field s t : field_name t = Some s ->
      available A s -> right_length A len s -> agrees (fun i => rmap AV (field_at A i s)) (param A len t).
    Proof.
      intros Ht Ha Hl.
      assert (E : param A len t = match A s with
        | Some (ISc v) => Ok (VCol (repeat v len))
        | Some (IAr l) => if Nat.eqb len (List.length l) then Ok (VCol l) else Err ValueError
        | None => match lib_find s maybeconstants with
                  | Some v => Ok (VCol (repeat v len))
                  | None => Err ValueError
                  end
        end) by (destruct t; simpl in Ht; try discriminate; injection Ht as ->; reflexivity).
      rewrite E. unfold field_at. destruct (A s) as [[v|l]|] eqn:EA.
      - simpl. apply repeat_col. reflexivity.
      - rewrite (proj2 (Nat.eqb_eq _ _)) by (symmetry; apply Hl; auto).
        simpl. exists l. split; auto. split; [apply Hl; auto|]. intros i x ->. reflexivity.
      - destruct (lib_find s maybeconstants) eqn:EC.
        + apply repeat_col. reflexivity.
        + destruct Ha; congruence.
    Qed.

    Lemma elementwise_agrees f args vs :
      (exists a, In a args /\ is_const a = false) ->
      Forall2 (fun a v => match a with
                          | TConst c => v = VCst c
                          | _ => col_is (fun i => row i a) v
                          end) args vs ->
      agrees (fun i => row i (TCall f args)) (elementwise user f vs).
    Proof.
      intros He HF.
      assert (Hlen : col_length vs = Some len).
      { clear - He HF. induction HF as [|a v args vs H HF IH]; [destruct He as (? & [] & _)|].
        destruct (is_const a) eqn:Ec.
        - destruct a; try discriminate. subst v. simpl. apply IH.
          destruct He as (b & [<-|Hb] & Hc); [discriminate|eauto].
        - assert (Hcol : col_is (fun i => row i a) v) by (destruct a; try discriminate; exact H).
          destruct Hcol as (l & -> & Hl & _). simpl. rewrite Hl. reflexivity. }
      assert (Hrow : forall i, i < len -> mapM (elem_at i) vs = mapM (fun a => row i a) args).
      { intros i Hi. clear He Hlen. induction HF as [|a v args vs H HF IH]; simpl; auto.
        rewrite IH. destruct (is_const a) eqn:Ec.
        - destruct a; try discriminate. subst v. reflexivity.
        - assert (Hcol : col_is (fun i => row i a) v) by (destruct a; try discriminate; exact H).
          destruct Hcol as (l & -> & Hl & Hv). simpl.
          destruct (nth_error l i) as [x|] eqn:En.
          + rewrite (Hv _ _ En). reflexivity.
          + apply nth_error_None in En. lia. }
      unfold elementwise. rewrite Hlen.
      replace (existsb _ vs) with false.
      2:{ symmetry. apply not_true_iff_false. intros Hx. apply existsb_exists in Hx.
          destruct Hx as (v & Hv & Hn). destruct v as [|l| |]; try discriminate.
          clear - HF Hv Hn. induction HF as [|a v args vs H HF IH]; [destruct Hv|].
          destruct Hv as [->|Hv]; [|auto].
          assert (Hcol : col_is (fun i => row i a) (VCol l)) by (destruct a; try discriminate; exact H).
          destruct Hcol as (l' & E & Hl & _). injection E as ->. rewrite Hl, Nat.eqb_refl in Hn. discriminate. }
      destruct (mapM _ (seq 0 len)) as [l|e] eqn:E; unfold agrees; cbn [rmap].
      - apply mapM_ok in E. exists l. split; auto.
        split; [rewrite <- (Forall2_len _ _ _ E), seq_length; auto|].
        intros i x Hx. assert (Hi : i < len).
        { apply Forall2_len in E. rewrite seq_length in E. rewrite E. apply nth_error_Some. congruence. }
        destruct (Forall2_nth _ _ _ i i E) as (y & Hy & P).
        { rewrite nth_error_nth' with (d := 0) by (rewrite seq_length; auto). f_equal. rewrite seq_nth; auto. }
        rewrite Hy in Hx. injection Hx as ->. cbv beta in P. rewrite Hrow in P by auto.
        rewrite reval_call. destruct (mapM (fun a => row i a) args) as [ws|] eqn:EM; [|discriminate].
        replace (mapM (row i) args) with (Ok ws). simpl in *. rewrite P. reflexivity.
      - apply mapM_err in E. destruct E as (i & Hi & P). apply in_seq in Hi.
        exists i. cbv beta. rewrite Hrow in P by lia. setoid_rewrite reval_call.
        change (mapM (fun a => row i a) args) with (mapM (row i) args) in P.
        destruct (mapM (row i) args) as [ws|e']; simpl in *.
        + rewrite P. simpl. exists e. split; [lia|auto].
        + exists e'. split; [lia|auto].
    Qed.

    Lemma ev_agrees t : data_driven t -> plain t -> usable t -> agrees (fun i => row i t) (ev t).
    Proof.
      induction t as [c|s|s b|c|f args IH] using tree_ind'; intros D P U.
      - inversion D.
      - simpl. destruct (U s) as [U1 U2]; [constructor|]. apply (agrees_field s (TName s)); auto.
      - simpl. destruct (U s) as [U1 U2]; [constructor|]. apply (agrees_field s (TPred s b)); auto.
      - inversion P; subst. simpl. destruct (scal_val s) as [v|] eqn:E; [|congruence]. simpl.
        apply repeat_col. reflexivity.
      - rewrite teval_call. inversion D as [| | |? ? He Ha]; subst. inversion P as [| | | |? ? Hf Hp]; subst.
        rewrite Forall_forall in IH.
        destruct (mapM ev args) as [vs|e] eqn:EM.
        + simpl. unfold HistFill.lib. rewrite Hf. apply elementwise_agrees; auto.
          apply mapM_ok in EM. clear - EM IH Ha Hp U.
          assert (IH' : forall a v, In a args -> ev a = Ok v ->
            match a with TConst c => v = VCst c | _ => col_is (fun i => row i a) v end).
          { intros a v Hin Ev.
            assert (is_const a = true \/ is_const a = false) as [Hc|Hc] by (destruct (is_const a); auto).
            - destruct a; try discriminate. simpl in Ev. congruence.
            - assert (G : agrees (fun i => row i a) (ev a)).
              { apply IH; auto. intros s Hs. apply U. econstructor; eauto. }
              rewrite Ev in G. destruct a; try discriminate; exact G. }
          clear - EM IH'. induction EM; constructor; auto.
          * apply IH'; simpl; auto.
          * apply IHEM. intros; apply IH'; simpl; auto.
        + unfold agrees; cbn [bind]. apply mapM_err in EM. destruct EM as (a & Hin & Ea).
          assert (Hc : is_const a = false) by (destruct a; auto; discriminate).
          assert (G : agrees (fun i => row i a) (ev a)).
          { apply IH; auto. intros s Hs. apply U. econstructor; eauto. }
          rewrite Ea in G. simpl in G. destruct G as (i & e' & Hi & G).
          destruct (mapM_err_in (row i) _ _ _ Hin G) as (e'' & EE).
          exists i, e''. split; auto. rewrite reval_call, EE. reflexivity.
    Qed.
  End Columns.

  (** ** Binning functions *)
  Lemma qfloor_qz z : qfloor (qz z) = z.
  Proof.
    unfold qfloor, qz. rewrite (Qfloor_comp _ (inject_Z z)); [apply Qfloor_Z|].
    apply Qred_correct.
  Qed.
  Lemma to_nat_nnat n : to_nat (nnat n) = n.
  Proof. unfold to_nat, nnat, nz. rewrite qfloor_qz. apply Nat2Z.id. Qed.
  Lemma to_z_nz z : to_z (nz z) = z.
  Proof. unfold to_z, nz. apply qfloor_qz. Qed.

  Definition anon (ax : axis) : axis :=
    match ax with
    | AGroupby _ => AGroupby ""
    | AGroupbin _ w o nf cl => AGroupbin "" w o nf cl
    | ABin _ n l h u o nf cl => ABin "" n l h u o nf cl
    | AIntbin _ mn mx u o => AIntbin "" mn mx u o
    | ASplit _ es u o nf cl => ASplit "" es u o nf cl
    | ACut _ => ACut ""
    | _ => ax
    end.
  Lemma library_finds ax : (is_group ax = true \/ is_fixed ax = true) -> ax <> ANull ->
    exists mk, lib_find (axis_fcn ax) axis_library = Some mk /\ mk (axis_args ax) = Some (anon ax).
  Proof.
    intros H N. destruct ax as [e|e w o nf cl|e n l h u o nf cl|e mn mx u o|e es u o nf cl|e| |e];
      try congruence; try (destruct H; discriminate).
    - eexists. split; reflexivity.
    - destruct nf, cl; (eexists; split; [reflexivity|reflexivity]).
    - destruct u, o, nf, cl; (eexists; split; [reflexivity|]; cbv beta iota delta [axis_args anon knum]; rewrite to_nat_nnat; reflexivity).
    - destruct u, o; (eexists; split; [reflexivity|]; cbv beta iota delta [axis_args anon knum]; rewrite !to_z_nz; reflexivity).
    - destruct u, o, nf, cl; (eexists; split; [reflexivity|reflexivity]).
    - eexists. split; reflexivity.
  Qed.

  Lemma lits cs : mapM literal (map VCst cs) = Ok cs.
  Proof. induction cs; simpl; auto. rewrite IHcs. reflexivity. Qed.
  Lemma tev_lits A len cs : mapM (tev A len) (map TConst cs) = Ok (map VCst cs).
  Proof. induction cs; simpl; auto. rewrite IHcs. reflexivity. Qed.
  Lemma slot_anon ax v : slot_of cast rnd (anon ax) v = slot_of cast rnd ax v.
  Proof. destruct ax; reflexivity. Qed.
  Lemma key_anon ax v : key_of rnd (anon ax) v = key_of rnd ax v.
  Proof. destruct ax; reflexivity. Qed.
  Lemma group_anon ax : is_group (anon ax) = is_group ax.
  Proof. destruct ax; reflexivity. Qed.

  Lemma axis_goal_value A len p l :
    (is_group (fst p) = true \/ is_fixed (fst p) = true) -> fst p <> ANull ->
    tev A len (snd p) = Ok (VCol l) ->
    tev A len (axis_goal p) =
      if is_group (fst p)
      then do ks <- mapM (key_of rnd (fst p)) l; (let (u, inv) := group_col ks in Ok (VGrp u inv))
      else rmap VIdx (mapM (slot_of cast rnd (fst p)) l).
  Proof.
    intros H N E. unfold axis_goal. rewrite teval_call.
    destruct (library_finds _ H N) as (mk & L1 & L2).
    assert (EM : mapM (tev A len) (snd p :: map TConst (axis_args (fst p)))
                 = Ok (VCol l :: map VCst (axis_args (fst p)))).
    { cbn [mapM]. rewrite E. cbn [bind]. rewrite tev_lits. reflexivity. }
    rewrite EM. cbn [bind]. unfold HistFill.lib. rewrite L1, lits. cbn [bind]. rewrite L2, group_anon.
    rewrite (mapM_ext _ (key_of rnd (fst p))) by (intros; apply key_anon).
    rewrite (mapM_ext (slot_of cast rnd (anon (fst p))) (slot_of cast rnd (fst p))) by (intros; apply slot_anon).
    reflexivity.
  Qed.

  (** ** The destinations *)
  Lemma dest_find_in ex g v : NoDup (map fst ex) -> In (g, v) ex -> dest_find g ex = Some v.
  Proof.
    induction ex as [|(u, w) ex IH]; simpl; [tauto|]. intros N [E|H].
    - injection E as -> ->. destruct (tree_eq_dec g g); congruence.
    - inversion N; subst. destruct (tree_eq_dec g u) as [->|]; [|auto].
      exfalso. apply H2. apply in_map_iff. exists (u, v); auto.
  Qed.

  (** ** Parameters of the instructions *)
  Lemma emit_params goals nodes : forall k names live is,
    emit goals nodes k names live = Ok is ->
    forall t, (exists n, In (Param n t) is) <-> In t nodes /\ is_field t = true.
  Proof.
    induction nodes as [|x nodes IH]; simpl; intros k names live is E t.
    - injection E as <-. split; [intros (n & [])|intros ([] & _)].
    - apply bind_ok in E. destruct E as (first & E1 & E2).
      apply bind_ok in E2. destruct E2 as (rest & E2 & E3). injection E3 as <-.
      specialize (IH _ _ _ _ E2 t).
      assert (F : forall n, In (Param n t) ((first :: (if mem x goals then [Export k x] else []) ++
           map Delete (dead nodes (live ++ [(k, x)])) ++ rest)) <-> first = Param n t \/ In (Param n t) rest).
      { intros n. simpl. rewrite !in_app_iff.
        assert (~ In (Param n t) (if mem x goals then [Export k x] else [])).
        { destruct (mem x goals); simpl; intuition discriminate. }
        assert (~ In (Param n t) (map Delete (dead nodes (live ++ [(k, x)])))).
        { intros H1. apply in_map_iff in H1. destruct H1 as (? & ? & _). discriminate. }
        tauto. }
      assert (G : (exists n, first = Param n t) <-> x = t /\ is_field t = true).
      { destruct x as [c|s|s b|c|f args]; try discriminate E1;
          try (injection E1 as <-; split;
            [intros (n & E); injection E as _ <-; auto|intros (<- & _); eauto]).
        apply bind_ok in E1. destruct E1 as (r & _ & E1). injection E1 as <-.
        split; [intros (n & E); discriminate|intros (<- & H); discriminate]. }
      split.
      + intros (n & Hn). apply F in Hn. destruct Hn as [Hn|Hn].
        * destruct (proj1 G) as (-> & ?); eauto.
        * destruct (proj1 IH); eauto.
      + intros ([->|Hn] & Hf).
        * destruct (proj2 G) as (n & Hn); auto. exists n. apply F. auto.
        * destruct (proj2 IH) as (n & Hn'); auto. exists n. apply F. auto.
  Qed.

  Lemma instructions_params order srcs goals is :
    is_order order -> Permutation srcs (sources goals) -> instructions order srcs goals = Ok is ->
    forall t, (exists n, In (Param n t) is) <-> In t (sources goals).
  Proof.
    intros Ho Hp E t. rewrite (emit_params _ _ _ _ _ _ E).
    destruct (walkdown_spec order goals srcs Ho Hp) as (_ & _ & W). rewrite W. split.
    - intros ((H1 & _) & H2). apply table_fields_sources; auto.
    - intros H. assert (Hf := sources_field _ _ H). split; auto. split; [apply sources_table; auto|].
      destruct t; try discriminate; constructor.
  Qed.

  Lemma sources_mentions goals s :
    (exists t, In t (sources goals) /\ field_name t = Some s) <-> exists g, In g goals /\ mentions s g.
  Proof.
    split.
    - intros (t & Ht & E). apply nodup_In, in_flat_map in Ht. destruct Ht as (g & Hg & Ht).
      exists g. split; auto. apply sources1_mentions. exists t. split; auto.
      destruct t; try discriminate; injection E as ->; eauto.
    - intros (g & Hg & M). apply sources1_mentions in M. destruct M as (t & Ht & E).
      exists t. split; [apply nodup_In, in_flat_map; eauto|]. destruct E as [->|(b & ->)]; reflexivity.
  Qed.

  Lemma mentions_square s t : mentions s (square t) <-> mentions s t.
  Proof.
    split; [|intros H; econstructor; [left; reflexivity|auto]].
    inversion 1; subst. destruct H2 as [<-|[<-|[]]]; auto.
  Qed.
  Lemma mentions_axis s p : mentions s (axis_goal p) <-> mentions s (snd p).
  Proof.
    split; [|intros H; econstructor; [left; reflexivity|auto]].
    inversion 1; subst. destruct H2 as [<-|H2]; auto.
    apply in_map_iff in H2. destruct H2 as (c & <- & _). inversion H3.
  Qed.
  Lemma mentions_const s c : ~ mentions s (TConst c).
  Proof. inversion 1. Qed.

  Lemma goals_mention h s : (exists g, In g (hist_goals h) /\ mentions s g) <-> hist_mentions h s.
  Proof.
    unfold hist_goals, hist_mentions, hist_exprs. split.
    - intros (g & Hg & M). rewrite !in_app_iff in Hg. destruct Hg as [Hg|[Hg|[Hg|Hg]]].
      + apply in_map_iff in Hg. destruct Hg as (p & <- & Hp). apply mentions_axis in M.
        exists (snd p). split; auto. rewrite !in_app_iff. left. apply in_map; auto.
      + apply in_map_iff in Hg. destruct Hg as (p & <- & Hp). apply mentions_axis in M.
        exists (snd p). split; auto. rewrite !in_app_iff. right; left. apply in_map; auto.
      + apply in_flat_map in Hg. destruct Hg as (t & Ht & Hg). exists t. rewrite !in_app_iff.
        split; auto. destruct Hg as [<-|[<-|[]]]; auto. apply mentions_square; auto.
      + destruct (h_weight h) as [[v|t]|]; [| |destruct Hg].
        * destruct Hg as [<-|[<-|[]]]; [|rewrite mentions_square in M]; destruct (mentions_const _ _ M).
        * exists t. rewrite !in_app_iff. split; [right; right; right; left; auto|].
          destruct Hg as [<-|[<-|[]]]; auto. apply mentions_square; auto.
    - intros (t & Ht & M). rewrite !in_app_iff in Ht. destruct Ht as [Ht|[Ht|[Ht|Ht]]].
      + apply in_map_iff in Ht. destruct Ht as (p & <- & Hp). exists (axis_goal p).
        split; [|apply mentions_axis; auto]. rewrite !in_app_iff. left. apply in_map; auto.
      + apply in_map_iff in Ht. destruct Ht as (p & <- & Hp). exists (axis_goal p).
        split; [|apply mentions_axis; auto]. rewrite !in_app_iff. right; left. apply in_map; auto.
      + exists t. split; auto. rewrite !in_app_iff. right; right; left. apply in_flat_map.
        exists t. split; simpl; auto.
      + destruct (h_weight h) as [[v|t']|]; [destruct Ht| |destruct Ht]. destruct Ht as [<-|[]].
        exists t'. split; auto. rewrite !in_app_iff. right; right; right. simpl. auto.
  Qed.

  (** ** The length *)
  Lemma scan_ok A len is :
    (forall n t s, In (Param n t) is -> field_name t = Some s -> available A s /\ right_length A len s) ->
    (exists n t s, In (Param n t) is /\ field_name t = Some s /\ is_array A s) \/ len = 1 ->
    scan_length A is = Ok len.
  Proof.
    induction is as [|i is IH]; intros U H; cbn [scan_length].
    - destruct H as [(n & t & s & [] & _)| ->]. reflexivity.
    - assert (U' : forall n t s, In (Param n t) is -> field_name t = Some s -> available A s /\ right_length A len s).
      { intros n t s Hi. apply U with (n := n). right; auto. }
      destruct i as [n t|n r|n g|n].
      + destruct (field_name t) as [s|] eqn:Ef.
        * destruct (U n t s) as (Ha & Hl); [left; auto|auto|].
          destruct (A s) as [[v|l]|] eqn:EA.
          -- apply IH; auto. destruct H as [(n' & t' & s' & [E|Hi] & E' & Har)|H]; auto.
             ++ injection E as <- <-. rewrite Ef in E'. injection E' as <-. destruct Har as (l & Hl'). congruence.
             ++ left. exists n', t', s'. auto.
          -- f_equal. apply Hl; auto.
          -- destruct (lib_find s maybeconstants) eqn:Ec; [|destruct Ha; congruence].
             apply IH; auto. destruct H as [(n' & t' & s' & [E|Hi] & E' & Har)|H]; auto.
             ++ injection E as <- <-. rewrite Ef in E'. injection E' as <-. destruct Har as (l & Hl'). congruence.
             ++ left. exists n', t', s'. auto.
        * apply IH; auto. destruct H as [(n' & t' & s' & [E|Hi] & E' & Har)|H]; auto.
          -- injection E as <- <-. congruence.
          -- left. exists n', t', s'. auto.
      + apply IH; auto. destruct H as [(n' & t' & s' & [E|Hi] & E' & Har)|H]; auto; [discriminate|].
        left. exists n', t', s'. auto.
      + apply IH; auto. destruct H as [(n' & t' & s' & [E|Hi] & E' & Har)|H]; auto; [discriminate|].
        left. exists n', t', s'. auto.
      + apply IH; auto. destruct H as [(n' & t' & s' & [E|Hi] & E' & Har)|H]; auto; [discriminate|].
        left. exists n', t', s'. auto.
  Qed.
End Fill.
