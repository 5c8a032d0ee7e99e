(** From written expressions to filled cells: proofs for C62. *)
From Coq Require Import String Permutation.
From Verif Require Import Num NumFacts Base Tree Instr InstrSpec Axis Calc AxisMain Content Fill FillSpec FillMain Elem HistFill HistSpec
  HistFillProofs HistFillMain HistFillMain2 HistFillMain3 HistFillMain4 Order Expr ExprSpec ExprGood ExprFacts ExprLower ExprAlg ExprLogic
  ExprMain ExprShape ExprNames ExprDefs HistNew HistNewSpec Props_Expr Props_Hist.
Open Scope string_scope.
Local Open Scope list_scope.

Notation newh := (new_hist py_sorted tree_sorted).
Notation lowers := (axis_tree tree_sorted).

(** ** What the constructor stores *)
Section Stored.
  Variable defs : string -> option expr.
  Notation parsedd := (parse_top py_sorted defs).
  Definition low (p : axis * src) (q : axis * tree) : Prop :=
    fst q = fst p /\ exists e, parsedd (snd p) = Ok e /\ lowers e = Ok (snd q).
  Lemma trees_low keep axes es g :
    mapM (fun p : axis * src => do e <- parsedd (snd p); Ok (fst p, e)) axes = Ok es ->
    trees tree_sorted keep es = Ok g -> Forall2 low (filter (fun p => keep (fst p)) axes) g.
  Proof.
    intros H. apply mapM_ok in H. revert g. induction H as [|[a s] x axes es X H IH]; intros g T.
    - injection T as <-. constructor.
    - cbn [fst snd] in X. apply bind_ok in X as (e & E & X). injection X as <-. unfold trees in *. cbn [filter fst] in *.
      destruct (keep a); auto. cbn [mapM] in T. apply bind_ok in T as (y & Y & T). apply bind_ok in T as (ys & Ys & T). injection T as <-.
      constructor; auto. cbn [fst snd] in Y. apply bind_ok in Y as (t & T & Y). injection Y as <-. split; auto. exists e. auto.
  Qed.
  Lemma new_inv axes weight filt h : newh defs axes weight filt = Ok h ->
    exists p fl, Forall2 low (filter (fun p => is_group (fst p)) axes) (h_group h) /\
      Forall2 low (filter (fun p => is_fixed (fst p)) axes) (h_fixed h) /\
      Forall2 low (filter (fun p => is_profile (fst p)) axes) p /\ h_prof h = map snd p /\
      match filt with
      | None => fl = None
      | Some s => exists e, parsedd s = Ok e /\ filter_type_ok e = true /\ fl = Some (s, e)
      end /\
      new_weight py_sorted tree_sorted defs weight fl = Ok (h_weight h).
  Proof.
    intros H. unfold new_hist in H. apply bind_ok in H as (es & Es & H). apply bind_ok in H as (g & G & H).
    apply bind_ok in H as (f & F & H). apply bind_ok in H as (p & P & H). apply bind_ok in H as (fl & Fl & H).
    apply bind_ok in H as (w & W & H). injection H as <-. exists p, fl.
    split; [eapply trees_low; eauto|]. split; [eapply trees_low; eauto|]. split; [eapply trees_low; eauto|]. split; auto. split; auto.
    destruct filt as [s|]; [|injection Fl as <-; auto]. apply bind_ok in Fl as (e & E & Fl). exists e.
    destruct (filter_type_ok e); [|discriminate]. injection Fl as <-. auto.
  Qed.
End Stored.

(** ** Rows *)
Section Rows.
  Variable cast : Num -> Z.
  Variable rnd : Qc -> Num.
  Variable user : string -> list arg -> res val.
  Hypothesis Hb : broadcasts user.
  Hypothesis Hp : powers user.
  Notation lowp := (low (fun _ => None)).

  Section Row.
  Variable field : string -> res val.
  Notation srcv := (src_value user field).
  Notation srcn := (src_number user field).
  Notation val_of := (value user field).
  Notation faith := (faithful user field).

  Lemma parsed_value s e v : faith s -> parsed s = Ok e -> srcv s = Ok v ->
    exists t, lowered e = Ok t /\ val_of t = Ok v.
  Proof.
    intros (PL & TY & TA & HN) P V. unfold src_value in V. apply bind_ok in V as (a & S & V).
    destruct (C22_expression_value user field s a e Hb Hp PL TY TA HN S P) as (t & a' & T1 & T2 & T3).
    exists t. split; auto. unfold value. rewrite T2. cbn [bind]. rewrite <- (same_arg_val _ _ T3). auto.
  Qed.
  Lemma low_value p q v : faith (snd p) -> lowp p q -> srcv (snd p) = Ok v -> val_of (snd q) = Ok v.
  Proof.
    intros F (_ & e & P & L) V. destruct (parsed_value _ _ _ F P V) as (t & T & E).
    unfold axis_tree in L. destruct e; try congruence. injection L as <-. injection T as <-.
    unfold value in *. cbn [reval bind] in *. rewrite E. reflexivity.
  Qed.
  Lemma many_low {X} (F : axis -> val -> res X) ps qs xs : Forall2 lowp ps qs -> (forall p, In p ps -> faith (snd p)) ->
    mapM (fun p => do v <- srcv (snd p); F (fst p) v) ps = Ok xs ->
    mapM (fun q => do v <- val_of (snd q); F (fst q) v) qs = Ok xs.
  Proof.
    intros H. revert xs. induction H as [|p q ps qs L H IH]; intros xs HF E; auto.
    cbn [mapM] in *. apply bind_ok in E as (x & X1 & E). apply bind_ok in E as (ys & Ys & E). injection E as <-.
    apply bind_ok in X1 as (v & V & X1). rewrite (low_value p q v); auto; [|apply HF; left; auto]. cbn [bind].
    rewrite (proj1 L), X1. cbn [bind]. rewrite (IH ys); auto. intros; apply HF; right; auto.
  Qed.

  Definition wnumber (x : wexpr) : res Num := match x with WxConst v => Ok v | WxTree t => number user field t end.
  Lemma weight_number s e x n : faith s -> parsed s = Ok e -> weight_of tree_sorted e = Ok x -> srcn s = Ok n -> wnumber x = Ok n.
  Proof.
    intros F P W S. unfold src_number in S. apply bind_ok in S as (v & V & S).
    destruct (parsed_value _ _ _ F P V) as (t & T & E).
    assert (G : (do t <- lowered e; Ok (WxTree t)) = Ok x -> wnumber x = Ok n).
    { rewrite T. cbn [bind]. intros K. injection K as <-. simpl. unfold number. rewrite E. auto. }
    destruct e; auto. injection T as <-. unfold value in E. cbn [reval bind] in E.
    destruct c as [[y|y|y|]| |]; try discriminate W.
    - simpl in E. injection E as <-. simpl in S. injection S as ->. simpl in W. destruct n; try discriminate W; injection W as <-; auto.
    - simpl in E. injection E as <-. discriminate S.
  Qed.
  Lemma weight_not_nan e v : weight_of tree_sorted e = Ok (WxConst v) -> isnan v = false.
  Proof.
    intros H. destruct e; try (apply bind_ok in H as (t' & _ & H); discriminate H).
    destruct c as [[[]|y|y|]| |]; try discriminate H; injection H as <-; try destruct y; reflexivity.
  Qed.

  (** The filter as a number. *)
  Lemma where_number f b : arg_truth f = Ok b -> efun user "where" [f; AC (KS (SNum (nz 1))); AC (KS (SNum (nz 0)))] = Ok (VNum (one_or_zero b)).
  Proof.
    intros E. unfold efun. cbn [String.eqb Ascii.eqb Bool.eqb]. rewrite E. cbn [bind]. destruct b; reflexivity.
  Qed.
  Lemma src_truth_arg f b : src_truth user field f = Ok b -> exists a, seval user field f = Ok a /\ arg_truth a = Ok b.
  Proof.
    unfold src_truth, src_value. intros H. apply bind_ok in H as (v & V & H). apply bind_ok in V as (a & S & V).
    exists a. split; auto. unfold arg_truth. rewrite V. auto.
  Qed.
  Lemma src_number_arg f x : srcn f = Ok x -> exists a, seval user field f = Ok a /\ arg_num a = Ok x.
  Proof.
    unfold src_number, src_value. intros H. apply bind_ok in H as (v & V & H). apply bind_ok in V as (a & S & V).
    exists a. split; auto. unfold arg_num. rewrite V. auto.
  Qed.
  Lemma filter_seval f b : src_truth user field f = Ok b ->
    seval user field (XCall "where" [f; s_num (nz 1); s_num (nz 0)]) = Ok (AV (VNum (one_or_zero b))).
  Proof.
    intros H. apply src_truth_arg in H as (a & S & T). cbn [seval s_num]. rewrite S. cbn [bind]. rewrite (where_number _ _ T). reflexivity.
  Qed.
  Lemma times_one q b : nmul (one_or_zero b) (Fin q) = if b then Fin q else nzero.
  Proof.
    destruct b; [apply nmul_1_l|]. unfold one_or_zero, nz, nzero. cbn [nmul]. f_equal. unfold qc0. qc_eq.
  Qed.
  Lemma product_faithful f w b q : faith f -> faith w -> src_truth user field f = Ok b -> srcn w = Ok (Fin q) ->
    separate (mark "where" :: numn w) (denn w) ->
    faith (weighted_filter f w) /\ srcn (weighted_filter f w) = Ok (if b then Fin q else nzero).
  Proof.
    intros (P1 & T1 & A1 & N1) (P2 & T2 & A2 & N2) F W SP.
    pose proof (filter_seval _ _ F) as SF. destruct (src_number_arg _ _ W) as (a & Sa & Na).
    assert (FF : finite user field (XCall "where" [f; s_num (nz 1); s_num (nz 0)])).
    { exists (if b then qz 1 else qz 0). eexists. split; [exact SF|]. destruct b; reflexivity. }
    assert (FW : finite user field w) by (exists q, a; auto).
    split.
    - split; [|split; [|split]].
      + simpl. repeat split; auto.
      + unfold weighted_filter. cbn [typed forallb]. rewrite T1, T2. reflexivity.
      + unfold weighted_filter. cbn [tame]. repeat split; auto.
      + intros n sg Hn. unfold weighted_filter in Hn. cbn [names_at flat_map s_num] in Hn. rewrite !app_nil_r in Hn.
        apply in_app_iff in Hn as [Hn|Hn]; auto.
    - unfold src_number, src_value, weighted_filter. cbn [seval]. change (seval user field (XCall "where" [f; s_num (nz 1); s_num (nz 0)])) with
        (seval user field (XCall "where" [f; s_num (nz 1); s_num (nz 0)])) in SF. cbn [seval] in SF. rewrite SF. cbn [bind]. rewrite Sa. cbn [bind].
      unfold operate, num2. change (arg_num (AV (VNum (one_or_zero b)))) with (Ok (one_or_zero b)). cbn [bind]. rewrite Na. cbn [bind rmap arg_val].
      cbn [val_num]. rewrite times_one. reflexivity.
  Qed.
  Lemma repr_faithful q : faith (repr_src (Fin q)) /\ srcn (repr_src (Fin q)) = Ok (Fin q).
  Proof.
    simpl. destruct (qltb q qc0).
    - split.
      + split; [exact I|]. split; [reflexivity|]. split; [|intros n sg []]. simpl. split; auto.
        eexists. eexists. split; reflexivity.
      + unfold src_number, src_value. simpl. do 2 f_equal. qc_eq.
    - split; [|reflexivity]. split; [exact I|]. split; [reflexivity|]. split; [exact I|intros n sg []].
  Qed.

  Lemma weight_row w h x fl :
    match w_filter w with
      | None => fl = None
      | Some s => exists e, parsed s = Ok e /\ filter_type_ok e = true /\ fl = Some (s, e)
    end ->
    new_weight py_sorted tree_sorted (fun _ => None) (w_weight w) fl = Ok (h_weight h) ->
    faithful_row user field w -> written_weight user field w = Ok x ->
    match h_weight h with None => Ok none1 | Some (WxConst v) => Ok v | Some (WxTree t) => number user field t end = Ok x.
  Proof.
    intros HF NW (FE & FW) WW. unfold written_weight in WW. apply bind_ok in WW as (g & G & WW). unfold faithful_weight in FW.
    unfold given_weight in *. unfold written_exprs in FE.
    destruct (w_weight w) as [[v|s]|].
    - (* a number *)
      destruct (w_filter w) as [f|].
      + destruct HF as (e & PF & _ & ->). injection G as <-. destruct FW as ((q & Q) & SP). injection Q as ->.
        apply bind_ok in WW as (b & B & WW). injection WW as <-. cbn [new_weight] in NW.
        apply bind_ok in NW as (e' & P & NW). apply bind_ok in NW as (x' & X & NW). injection NW as <-.
        destruct (repr_faithful q) as (R1 & R2).
        destruct (product_faithful f (repr_src (Fin q)) b q) as (PF1 & PF2); auto.
        { apply FE. rewrite !in_app_iff. right. right. left. auto. }
        pose proof (weight_number _ _ _ _ PF1 P X PF2) as N. destruct x'; exact N.
      + subst fl. injection G as <-. injection WW as <-. injection NW as <-. auto.
    - destruct (w_filter w) as [f|].
      + destruct HF as (e & PF & _ & ->). destruct FW as ((q & Q) & SP). rewrite G in Q. injection Q as ->.
        apply bind_ok in WW as (b & B & WW). injection WW as <-. cbn [new_weight wsrc_src] in NW.
        apply bind_ok in NW as (e' & P & NW). apply bind_ok in NW as (x' & X & NW). injection NW as <-.
        destruct (product_faithful f s b q) as (PF1 & PF2); auto.
        { apply FE. rewrite !in_app_iff. right. right. left. auto. }
        { apply FE. rewrite !in_app_iff. right. left. left. auto. }
        pose proof (weight_number _ _ _ _ PF1 P X PF2) as N. destruct x'; exact N.
      + subst fl. injection WW as <-. cbn [new_weight] in NW.
        apply bind_ok in NW as (e' & P & NW). apply bind_ok in NW as (x' & X & NW). injection NW as <-.
        assert (FS : faith s) by (apply FE; rewrite !in_app_iff; right; left; left; auto).
        pose proof (weight_number _ _ _ _ FS P X G) as N. destruct x'; exact N.
    - injection G as <-. destruct (w_filter w) as [f|].
      + destruct HF as (e & PF & TF & ->). apply bind_ok in WW as (b & B & WW). injection WW as <-. cbn [new_weight] in NW.
        apply bind_ok in NW as (t & T & NW). injection NW as <-.
        assert (FS : faith f) by (apply FE; rewrite !in_app_iff; right; right; left; auto).
        unfold src_truth in B. apply bind_ok in B as (v & V & B).
        destruct (parsed_value _ _ _ FS PF V) as (u & U & E).
        simpl in T. rewrite U in T. cbn [bind] in T. injection T as <-.
        unfold number, value in *. rewrite reval_call. cbn [mapM]. apply bind_ok in E as (a & A & E). rewrite A. cbn [bind reval].
        assert (AT : arg_truth a = Ok b) by (unfold arg_truth; rewrite E; auto).
        rewrite (where_number _ _ AT). cbn [bind rmap arg_val val_num]. destruct b; reflexivity.
      + subst fl. injection WW as <-. injection NW as <-. auto.
  Qed.
  End Row.

  (** ** The whole histogram *)
  Section Whole.
  Variable w : written.
  Variable h : hist.
  Hypothesis Hnew : newh (fun _ => None) (w_axes w) (w_weight w) (w_filter w) = Ok h.

  Lemma whole_inv : exists p fl, Forall2 lowp (axes_of is_group w) (h_group h) /\
      Forall2 lowp (axes_of is_fixed w) (h_fixed h) /\
      Forall2 lowp (axes_of is_profile w) p /\ h_prof h = map snd p /\
      match w_filter w with
      | None => fl = None
      | Some s => exists e, parsed s = Ok e /\ filter_type_ok e = true /\ fl = Some (s, e)
      end /\
      new_weight py_sorted tree_sorted (fun _ => None) (w_weight w) fl = Ok (h_weight h).
  Proof. exact (new_inv _ _ _ _ _ Hnew). Qed.

  Lemma low_fst ps qs : Forall2 lowp ps qs -> map fst qs = map fst ps.
  Proof. induction 1 as [|p q ps qs [L _] H IH]; simpl; congruence. Qed.
  Lemma low_in ps qs q : Forall2 lowp ps qs -> In q qs -> exists p, In p ps /\ lowp p q.
  Proof.
    induction 1 as [|p q' ps qs L H IH]; intros Hq; [destruct Hq|]. destruct Hq as [<-|Hq]; [exists p; simpl; auto|].
    destruct (IH Hq) as (p' & H1 & H2). exists p'. simpl; auto.
  Qed.
  Lemma weighted_iff : match h_weight h with None => false | Some _ => true end =
    match w_weight w, w_filter w with None, None => false | _, _ => true end.
  Proof.
    destruct whole_inv as (p & fl & _ & _ & _ & _ & HF & NW). destruct (w_weight w) as [[v|s]|], (w_filter w) as [f|];
      try (destruct HF as (e & _ & _ & ->)); try subst fl; cbn [new_weight] in NW;
      repeat match goal with H : (do x <- _; _) = Ok _ |- _ => apply bind_ok in H as (? & ? & H) end; injection NW as <-; auto.
  Qed.
  Lemma whole_layout : hist_layout h = written_layout w.
  Proof.
    pose proof weighted_iff as W. destruct whole_inv as (p & fl & _ & HF & HP & EP & _ & _).
    unfold hist_layout, written_layout. f_equal.
    - rewrite <- (map_map fst totbins), <- (map_map fst totbins). f_equal. apply low_fst; auto.
    - rewrite EP, map_length. clear - HP. induction HP; simpl; auto.
    - exact W.
  Qed.
  Lemma whole_ngroup : length (h_group h) = length (axes_of is_group w).
  Proof. destruct whole_inv as (p & fl & HG & _). clear - HG. induction HG; simpl; auto. Qed.

  Lemma axes_text keep p : In p (axes_of keep w) -> In (snd p) (map snd (w_axes w)) /\ In p (w_axes w) /\ keep (fst p) = true.
  Proof. intros H. apply filter_In in H as [H1 H2]. split; auto. apply in_map; auto. Qed.

  Lemma whole_row field r : faithful_row user field w -> written_row cast rnd user field w = Ok r ->
    row_of cast rnd user h field = Ok r.
  Proof.
    intros FR E. destruct whole_inv as (p & fl & HG & HF & HP & EP & HFl & NW). unfold written_row in E.
    apply bind_ok in E as (ks & K & E). apply bind_ok in E as (ss & S & E). apply bind_ok in E as (ps & P & E). apply bind_ok in E as (x & X & E).
    injection E as <-.
    assert (FA : forall keep p, In p (axes_of keep w) -> faithful user field (snd p)).
    { intros keep q Hq. apply FR. unfold written_exprs. apply in_app_iff. left. apply (axes_text keep); auto. }
    unfold row_of. rewrite (many_low field (fun a v => key_of rnd a v) _ _ _ HG (FA is_group) K). cbn [bind].
    rewrite (many_low field (fun a v => slot_of cast rnd a v) _ _ _ HF (FA is_fixed) S). cbn [bind].
    assert (Q : mapM (fun t => do x <- number user field t; Ok (x, nmul x x)) (h_prof h) = Ok ps).
    { rewrite EP. assert (P' : mapM (fun p => do v <- src_value user field (snd p); (fun (_ : axis) v => do x <- val_num v; Ok (x, nmul x x)) (fst p) v) (axes_of is_profile w) = Ok ps).
      { rewrite <- P. apply mapM_ext. intros q _. unfold src_number. destruct (src_value user field (snd q)); auto. }
      apply (many_low field) with (qs := p) in P'; auto; [|apply FA].
      apply mapM_ok in P'. apply mapM_ok. clear - P'. induction P' as [|q y qs ys Q P' IH]; cbn [map]; constructor; auto.
      unfold number. rewrite <- Q. destruct (value user field (snd q)); auto. }
    rewrite Q. cbn [bind]. rewrite (weight_row field w h x fl HFl NW FR X). reflexivity.
  Qed.

  Lemma whole_mode field r kd : faithful_row user field w -> written_row cast rnd user field w = Ok r ->
    row_adds (hist_mode h) kd r = row_adds (written_mode w) kd r.
  Proof.
    intros FR E. pose proof (whole_row field r FR E) as RO. apply row_of_inv in RO as (_ & _ & _ & RW & RW2).
    destruct whole_inv as (p & fl & _ & _ & _ & _ & HFl & NW).
    assert (G : match h_weight h with Some (WxConst v) => isnan v = false | Some (WxTree _) => True | None => False end ->
                row_adds (hist_mode h) kd r = row_adds ExprWeight kd r).
    { unfold hist_mode. destruct (h_weight h) as [[v|t]|]; [|auto|tauto]. injection RW as RW. intros NV.
      assert (H1 : row_weight (ConstWeight v) r = row_weight ExprWeight r) by (simpl; rewrite <- RW, NV; auto).
      assert (H2 : row_weight2 (ConstWeight v) r = row_weight2 ExprWeight r) by (simpl; rewrite RW2, <- RW, NV; auto).
      destruct kd; unfold row_adds; rewrite ?H1, ?H2; auto. }
    clear RW. unfold hist_mode in *. unfold written_mode. destruct (w_weight w) as [[v|s]|], (w_filter w) as [f|];
      try (destruct HFl as (e & _ & _ & ->)); try subst fl; cbn [new_weight] in NW;
      repeat match goal with H : (do x <- _; _) = Ok _ |- _ => apply bind_ok in H as (? & ? & H) end; injection NW as NW; rewrite <- NW in *; clear NW;
      try reflexivity;
      try (apply G; match goal with H : weight_of _ _ = Ok ?x |- _ => destruct x; auto; eapply weight_not_nan; eauto end); apply G; auto.
  Qed.

  (** ** Fields and functions *)
  Notation okn := (fun s => In s (written_reads w)).
  Notation okf := (fun f => lib_find f axis_library = None).
  Notation tn := (tnice okn okf).
  Lemma ops_ok : forall f, In f operators -> okf f.
  Proof. intros f H. simpl in H. repeat (destruct H as [<-|H]; [reflexivity|]). destruct H. Qed.
  Lemma tn_plain : forall t, tn t -> HistSpec.plain t.
  Proof.
    fix IH 2. intros t H. destruct H as [c|s _|s b _|f l Hf Hl]; constructor; auto.
    revert l Hl. fix IHl 2. intros l Hl a Ha. destruct Hl as [|x l Hx Hl]; [destruct Ha|].
    destruct Ha as [<-|Ha]; [apply IH; exact Hx|exact (IHl l Hl a Ha)].
  Qed.
  Lemma tn_mentions s : forall t, tn t -> mentions s t -> In s (written_reads w).
  Proof. intros t H M. induction M as [|b|f l a Ha M IH]; inversion H; subst; auto. rewrite Forall_forall in *. auto. Qed.

  Hypothesis Hcalls : forall f, In f (written_calls w) -> lib_find f axis_library = None.
  Lemma text_uses s : In s (written_texts w) -> uses okn okf s.
  Proof.
    intros H. split; intros n Hn; [|apply Hcalls]; apply in_flat_map; exists s; auto.
  Qed.
  Lemma no_defs : forall n e, (fun _ : string => @None expr) n = Some e -> nice okn okf e.
  Proof. discriminate. Qed.
  Lemma uses_nice s e : uses okn okf s -> parsed s = Ok e -> nice okn okf e.
  Proof. intros U P. exact (parse_nice py_sorted py_sorted_perm _ okn okf ops_ok no_defs s U true e P). Qed.
  Lemma nice_tn e t : nice okn okf e -> lowered e = Ok t -> tn t.
  Proof. apply totree_nice; [exact ops_ok|exact tree_sorted_perm]. Qed.
  Lemma low_nice p q : In (snd p) (written_texts w) -> lowp p q -> tn (snd q) \/ exists c, snd q = TBcast c.
  Proof.
    intros H (_ & e & P & L). pose proof (uses_nice _ _ (text_uses _ H) P) as N. unfold axis_tree in L.
    destruct e; try (left; eapply nice_tn; eauto; fail). injection L as <-. eauto.
  Qed.
  Lemma weight_nice e x t : nice okn okf e -> weight_of tree_sorted e = Ok x -> x = WxTree t -> tn t.
  Proof.
    intros N W ->.
    assert (G : (do t <- lowered e; Ok (WxTree t)) = Ok (WxTree t) -> tn t).
    { intros K. apply bind_ok in K as (t' & T & K). injection K as <-. eapply nice_tn; eauto. }
    destruct e; auto. destruct c as [[[]|y|y|]| |]; discriminate W.
  Qed.

  Lemma whole_nice t : In t (hist_exprs h) -> tn t \/ exists c, t = TBcast c.
  Proof.
    destruct whole_inv as (p & fl & HG & HF & HP & EP & HFl & NW). unfold hist_exprs. rewrite EP, !in_app_iff.
    assert (A : forall keep qs, Forall2 lowp (axes_of keep w) qs -> In t (map snd qs) -> tn t \/ exists c, t = TBcast c).
    { intros keep qs L H. apply in_map_iff in H as (q & <- & Hq). destruct (low_in _ _ _ L Hq) as (a & Ha & La).
      eapply low_nice; eauto. unfold written_texts. apply in_app_iff. left. apply (axes_text keep); auto. }
    intros [H|[H|[H|H]]]; [exact (A _ _ HG H)|exact (A _ _ HF H)|exact (A _ _ HP H)|]. left.
    assert (TW : forall x, w_weight w = Some x -> In (wsrc_src x) (written_texts w)).
    { intros x Ex. unfold written_texts. rewrite Ex, !in_app_iff. right. left. left. auto. }
    assert (TF : forall f, w_filter w = Some f -> In f (written_texts w)).
    { intros f Ef. unfold written_texts. rewrite Ef, !in_app_iff. right. right. left. auto. }
    assert (PR : forall f x, w_filter w = Some f -> w_weight w = Some x -> uses okn okf (weighted_filter f (wsrc_src x))).
    { intros f x Ef Ex. destruct (text_uses _ (TW _ Ex)) as [U1 U2], (text_uses _ (TF _ Ef)) as [V1 V2].
      unfold weighted_filter. split; intros n Hn; cbn [reads calls flat_map s_num app] in Hn; rewrite app_nil_r in Hn.
      - apply in_app_iff in Hn as [Hn|Hn]; auto.
      - destruct Hn as [<-|Hn]; [reflexivity|]. apply in_app_iff in Hn as [Hn|Hn]; auto. }
    destruct (h_weight h) as [[v|u]|] eqn:EW; try (destruct H; fail). destruct H as [->|[]].
    destruct (w_weight w) as [x|] eqn:Ew; [|destruct (w_filter w) as [f|] eqn:Ef].
    - destruct (w_filter w) as [f|] eqn:Ef.
      + destruct HFl as (e & P & _ & ->).
        assert (NW' : (do e <- parsed (weighted_filter f (wsrc_src x)); do y <- weight_of tree_sorted e; Ok (Some y)) = Ok (Some (WxTree t)))
          by (destruct x; exact NW).
        apply bind_ok in NW' as (e' & P' & NW'). apply bind_ok in NW' as (y & Y & NW'). injection NW' as ->.
        eapply weight_nice; [|exact Y|reflexivity]. eapply uses_nice; eauto.
      + subst fl. destruct x as [v|s]; [discriminate NW|]. cbn [new_weight] in NW.
        apply bind_ok in NW as (e' & P' & NW). apply bind_ok in NW as (y & Y & NW). injection NW as ->.
        eapply weight_nice; [|exact Y|reflexivity]. eapply uses_nice; [|exact P']. apply text_uses, (TW (WExpr s)); auto.
    - destruct HFl as (e & P & _ & ->). cbn [new_weight] in NW. apply bind_ok in NW as (u & U & NW). injection NW as <-.
      eapply nice_tn; [|exact U]. constructor; [reflexivity|]. constructor; [|repeat constructor].
      eapply uses_nice; [|exact P]. apply text_uses, TF; auto.
    - subst fl. discriminate NW.
  Qed.

  (** The fields that the histogram reads are among those that are written. *)
  Lemma whole_reads s : hist_mentions h s -> In s (written_reads w).
  Proof.
    intros (t & Ht & M). destruct (whole_nice t Ht) as [N|(c & ->)]; [eapply tn_mentions; eauto|inversion M].
  Qed.
  Lemma whole_wf : (forall p, In p (w_axes w) -> fst p <> ANull) -> (forall t, In t (hist_exprs h) -> data_driven t) -> no_bcast h -> hist_wf h.
  Proof.
    intros NN DD NB. destruct whole_inv as (p & fl & HG & HF & _). split; [|split].
    - intros q Hq. destruct (low_in _ _ _ HG Hq) as (a & Ha & La & _). rewrite La. apply axes_text in Ha. tauto.
    - intros q Hq. destruct (low_in _ _ _ HF Hq) as (a & Ha & La & _). rewrite La. apply axes_text in Ha. split; [tauto|]. apply NN. tauto.
    - intros t Ht. split; auto. destruct (whole_nice t Ht) as [N|(c & ->)]; [apply tn_plain; auto|]. exfalso. eapply NB; eauto. constructor.
  Qed.
  End Whole.

  (** ** The theorem *)
  Lemma written_is_ready w h A len rows c :
    newh (fun _ => None) (w_axes w) (w_weight w) (w_filter w) = Ok h -> driven h A len ->
    written_ready cast rnd user w A len rows c ->
    hist_wf h /\ no_bcast h /\ args_ok h A len /\ hist_ready cast rnd user h A len rows c /\
    forall r kd, In r rows -> row_adds (hist_mode h) kd r = row_adds (written_mode w) kd r.
  Proof.
    intros Hnew (DD & NB & AR) (NN & CL & RD & FR & RW & AV & CB & KO & LO & HO & MP).
    assert (WF : hist_wf h) by (eapply whole_wf; eauto).
    assert (AO : args_ok h A len) by (split; auto; intros s Hm; apply RD; eapply whole_reads; eauto).
    unfold written_rows in RW. apply mapM_ok in RW.
    assert (RO : rows_of cast rnd user h A len = Ok rows).
    { unfold rows_of. apply mapM_ok. assert (FR' : forall i, In i (seq 0 len) -> faithful_row user (field_at A i) w) by (intros i Hi; apply in_seq in Hi; apply FR; lia).
      clear - RW FR' Hnew Hb Hp. induction RW as [|i r is rows X RW IH]; constructor; auto.
      - eapply whole_row; eauto. apply FR'. left; auto.
      - apply IH. intros j Hj. apply FR'. right; auto. }
    assert (AD : forall r kd, In r rows -> row_adds (hist_mode h) kd r = row_adds (written_mode w) kd r).
    { intros r kd Hr. assert (FR' : forall i, In i (seq 0 len) -> faithful_row user (field_at A i) w) by (intros i Hi; apply in_seq in Hi; apply FR; lia).
      clear - RW FR' Hr Hnew Hb Hp. induction RW as [|i r' is rows X RW IH]; [destruct Hr|]. destruct Hr as [->|Hr].
      - eapply whole_mode; eauto. apply FR'. left; auto.
      - apply IH; auto. intros j Hj. apply FR'. right; auto. }
    pose proof (whole_layout w h Hnew) as EL.
    destruct (whole_inv w h Hnew) as (p & fl & HG & HF & _).
    assert (RDY : hist_ready cast rnd user h A len rows c).
    { split; auto. split.
      { intros q Hq. destruct (low_in _ _ _ HF Hq) as (a & Ha & La & _). rewrite La. auto. }
      split.
      { intros i Hi q e x Hq Eq V. destruct (low_in _ _ _ HF Hq) as (a & Ha & La).
        assert (Hr : exists r, written_row cast rnd user (field_at A i) w = Ok r).
        { clear - RW Hi. assert (I : In i (seq 0 len)) by (apply in_seq; lia). induction RW as [|j r js rows X RW IH]; [destruct I|].
          destruct I as [<-|I]; eauto. }
        destruct Hr as (r & Er). unfold written_row in Er. apply bind_ok in Er as (ks & _ & Er). apply bind_ok in Er as (ss & S & _).
        apply mapM_ok in S. assert (SV : exists v, src_value user (field_at A i) (snd a) = Ok v).
        { clear - S Ha. induction S as [|b y l ss Y S IH]; [destruct Ha|]. destruct Ha as [->|Ha]; auto. apply bind_ok in Y as (v & V & _). eauto. }
        destruct SV as (v & SV).
        assert (FA : faithful user (field_at A i) (snd a)).
        { apply (FR i Hi). unfold written_exprs. apply in_app_iff. left. apply (axes_text w is_fixed); auto. }
        pose proof (low_value _ _ _ _ FA La SV) as V'. rewrite V in V'. injection V' as <-.
        eapply (CB i a e x); eauto. rewrite <- (proj1 La). auto. }
      split; auto. rewrite EL. split; auto. split; auto. rewrite (whole_ngroup w h Hnew). auto. }
    auto.
  Qed.

  Theorem written_fill order w h srcs A len rows c :
    is_order order -> newh (fun _ => None) (w_axes w) (w_weight w) (w_filter w) = Ok h ->
    Permutation srcs (sources (hist_goals h)) -> driven h A len ->
    written_ready cast rnd user w A len rows c ->
    exists c', hist_fill cast rnd user order srcs h A c = (c', None) /\
      forall ks ss kd, in_shape (written_layout w) ss -> has_column (written_layout w) kd ->
        cell (written_layout w) c' ks ss (column_of (written_layout w) kd) =
        nadd (cell (written_layout w) c ks ss (column_of (written_layout w) kd))
             (nsum (map (row_adds (written_mode w) kd) (filter (in_cell ks ss) rows))).
  Proof.
    intros Ho Hnew Hs HD HR. destruct (written_is_ready w h A len rows c Hnew HD HR) as (WF & NB & AO & RDY & AD).
    pose proof (whole_layout w h Hnew) as EL.
    destruct (Props_Hist.C10_fill_end_to_end cast rnd user order h srcs A len rows c Ho Hs WF NB AO RDY) as (c' & E & V).
    exists c'. split; auto. rewrite EL in V. intros ks ss kd HS HC. rewrite (V ks ss kd HS HC). do 2 f_equal.
    apply map_ext_in. intros r Hr. apply filter_In in Hr. apply AD. tauto.
  Qed.
End Rows.
