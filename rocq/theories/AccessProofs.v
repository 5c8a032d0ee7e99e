(** Proofs about looking things up. *)
From Coq Require Import String.
From Verif Require Import Num NumFacts Base Axis Calc CompareProofs Content Fill FillSpec FillProofs FillProofs2 FillProofs3 FillMain HistFillProofs Order Expr ExprFacts Access AccessSpec.
Local Open Scope list_scope.

(** * first_axis *)
Lemma first_axis_some {A} (p : A -> bool) l : forall i j x, first_axis p i l = Some (j, x) ->
  exists n, j = i + n /\ nth_error l n = Some x /\ p x = true /\ forall n' y, n' < n -> nth_error l n' = Some y -> p y = false.
Proof.
  induction l as [|a l IH]; intros i j x E; cbn [first_axis] in E; [discriminate|]. destruct (p a) eqn:P.
  - injection E as <- <-. exists 0. split; [lia|]. split; auto. split; auto. intros; lia.
  - apply IH in E. destruct E as (n & -> & N & Px & F). exists (S n). split; [lia|]. split; auto. split; auto.
    intros [|n'] y Hn Ny; simpl in Ny; [congruence|]. apply (F n'); auto. lia.
Qed.
Lemma first_axis_none {A} (p : A -> bool) l : forall i, first_axis p i l = None -> forall x, In x l -> p x = false.
Proof.
  induction l as [|a l IH]; intros i E x Hx; [destruct Hx|]. cbn [first_axis] in E. destruct (p a) eqn:P; [discriminate|].
  destruct Hx as [<-|Hx]; eauto.
Qed.
Lemma first_axis_hit {A} (p : A -> bool) l x : In x l -> p x = true -> forall i, exists j y, first_axis p i l = Some (j, y).
Proof.
  induction l as [|a l IH]; intros Hx P i; [destruct Hx|]. cbn [first_axis]. destruct (p a) eqn:Pa; eauto.
  destruct Hx as [->|Hx]; [congruence|]. apply IH; auto.
Qed.

(** * Levels *)
Fixpoint has_at (j : nat) (c : content) (k : gkey) : Prop :=
  match c with
  | CDict l => match j with
               | 0 => In k (map fst l)
               | S j' => exists kv, In kv l /\ has_at j' (snd kv) k
               end
  | _ => False
  end.
Lemma level_ok L n : forall j c, content_ok L n c -> j < n ->
  exists l, level j c = Ok l /\ forall k, In k l <-> has_at j c k.
Proof.
  induction n as [|n IH]; intros j c Hc Hj; [lia|]. destruct c as [| |l]; try contradiction.
  destruct Hc as (Hc & _ & _). destruct j as [|j].
  - exists (map fst l). split; auto. intros k. reflexivity.
  - cbn [level has_at]. assert (G : exists ls, mapM (level j) (map snd l) = Ok ls /\
        forall k, In k (concat ls) <-> exists kv, In kv l /\ has_at j (snd kv) k).
    { clear - IH Hc Hj. induction l as [|[g c] l IHl]; cbn [map mapM].
      - exists []. split; auto. intros k. split; [intros []|intros (kv & [] & _)].
      - inversion Hc as [|? ? Hx Hc']; subst. destruct (IH j c Hx ltac:(lia)) as (x & Ex & Hxk).
        destruct (IHl Hc') as (ls & El & Hl). cbn [snd]. rewrite Ex. cbn [bind]. rewrite El. cbn [bind].
        exists (x :: ls). split; auto. intros k. cbn [concat]. rewrite in_app_iff, Hxk, Hl. split.
        + intros [H|(kv & H1 & H2)]; [exists (g, c); split; [left; auto|auto]|exists kv; split; [right; auto|auto]].
        + intros (kv & [<-|H1] & H2); [left; auto|right; exists kv; auto]. }
    destruct G as (ls & -> & G). exists (concat ls). split; auto.
Qed.
Lemma has_at_ok L n : forall j c k, content_ok L n c -> has_at j c k -> j < n /\ key_ok k.
Proof.
  induction n as [|n IH]; intros j c k Hc H; destruct c as [|d|l]; try contradiction; try (destruct j; contradiction).
  - simpl in Hc. destruct Hc as (Hc & _ & Hk). destruct j as [|j]; simpl in H.
    + split; [lia|]. rewrite Forall_forall in Hk. auto.
    + destruct H as (kv & H1 & H2). rewrite Forall_forall in Hc. apply (IH j (snd kv)) in H2; [|apply Hc; auto]. split; [lia|tauto].
Qed.

(** * filldict *)
Lemma dict_loop_inv sub fresh u : forall i d d', dict_loop sub fresh i u d = (d', None) -> NoDup u -> Forall key_ok u ->
  (forall k, ~ In k u -> assoc k d' = assoc k d) /\
  (forall j k, nth_error u j = Some k -> exists new, assoc k d' = Some new /\
     sub (i + j) (match assoc k d with Some c => c | None => fresh end) = (new, None)).
Proof.
  induction u as [|x u IH]; intros i d d' E Hn Ho; cbn [dict_loop] in E.
  - injection E as <-. split; auto. intros [|j] k; discriminate.
  - inversion Hn as [|? ? Hx Hn']; subst. inversion Ho as [|? ? Hxo Ho']; subst.
    destruct (sub i (match assoc x d with Some c => c | None => fresh end)) as [new [e|]] eqn:E1; [discriminate|].
    destruct (IH _ _ _ E Hn' Ho') as (S1 & S2). split.
    + intros k Hk. simpl in Hk. rewrite S1 by tauto. destruct (key_ok_dec k) as [Kk|Kk].
      * apply assoc_set_other; auto. apply gkey_eqb_neq; auto; intros ->; tauto.
      * rewrite !assoc_not_ok; auto.
    + intros [|j] k Hj; simpl in Hj.
      * injection Hj as <-. exists new. rewrite S1, assoc_set_same, Nat.add_0_r by auto. auto.
      * destruct (S2 j k Hj) as (nw & A1 & A2). exists nw. split; auto.
        assert (Hku : In k u) by (eapply nth_error_In; eauto).
        rewrite assoc_set_other in A2; auto; [replace (i + S j) with (S i + j) by lia; exact A2|].
        apply gkey_eqb_neq; [rewrite Forall_forall in Ho'; auto|intros ->; auto].
Qed.

Lemma dict_keys {A} (l : list (gkey * A)) k : key_ok k -> In k (map fst l) <-> assoc k l <> None.
Proof. intros Hk. pose proof (assoc_none k l Hk). destruct (assoc k l) eqn:E; [|tauto]. split; [discriminate|]. intros _.
  apply assoc_in in E. apply (in_map fst) in E. exact E. Qed.

Definition col_keys (groups : list (list gkey * list Z)) (j : nat) : list gkey := nth j (map fst groups) [].
Lemma filldict_levels L len groups : forall c idx profs ws all c',
  filldict L len groups c idx profs ws all = (c', None) ->
  Forall (fun g => NoDup (fst g) /\ Forall key_ok (fst g)) groups ->
  content_ok L (length groups) c -> content_ok L (length groups) c' ->
  forall j k, has_at j c' k <-> has_at j c k \/ (In k (col_keys groups j) /\ forall i, i < j -> col_keys groups i <> []).
Proof.
  induction groups as [|[u inv] groups IH]; intros c idx profs ws all c' E Hg Hc Hc' j k.
  - destruct c as [|d|]; try contradiction. cbn [filldict] in E.
    destruct (fillblock L len d idx ws profs) as [d' e]. injection E as <- _.
    unfold col_keys. destruct j; cbn; tauto.
  - destruct c as [| |items]; try contradiction. cbn [filldict] in E.
    match type of E with context [dict_loop ?s ?fr] => set (sub := s) in E; set (fresh := fr) in E end.
    destruct (dict_loop sub fresh 0 u items) as [items' e] eqn:EL. injection E as <- ->.
    inversion Hg as [|? ? (Hnu & Hku) Hg']; subst. cbn [fst] in *.
    destruct (dict_loop_inv _ _ _ _ _ _ EL Hnu Hku) as (S1 & S2).
    destruct Hc as (Hc & Hn & Hk). destruct Hc' as (Hc' & Hn' & Hk').
    assert (Fresh : forall j k, ~ has_at j fresh k).
    { intros j' k' H. unfold fresh in H. destruct groups; destruct j'; simpl in H; auto. destruct H as (? & [] & _). }
    assert (FreshOk : content_ok L (length groups) fresh) by (unfold fresh; destruct groups; [simpl; apply repeat_length|simpl; repeat split; constructor]).
    rewrite Forall_forall in Hc, Hc', Hk, Hk'.
    assert (Kin : forall x, In x u \/ ~ In x u) by (intros x; destruct (in_dec gkey_dec x u); auto).
    destruct j as [|j]; unfold col_keys; cbn [map fst nth has_at].
    + destruct (key_ok_dec k) as [Kk|Kk].
      * rewrite !dict_keys by auto. destruct (Kin k) as [I|I].
        -- apply In_nth_error in I as (n & N). destruct (S2 n k N) as (nw & A1 & _). rewrite A1.
           split; [intros _; right; split; [eapply nth_error_In; eauto|intros; lia]|discriminate].
        -- rewrite (S1 k I). split; [auto|intros [H|(H & _)]; [auto|tauto]].
      * split; intros H; exfalso.
        -- apply Kk. rewrite Forall_forall in Hku. auto.
        -- destruct H as [H|(H & _)]; apply Kk; auto. rewrite Forall_forall in Hku. auto.
    + assert (Sub : forall g nw n, nth_error u n = Some g -> assoc g items' = Some nw ->
        forall k, has_at j nw k <-> has_at j (match assoc g items with Some c => c | None => fresh end) k \/
          (In k (col_keys groups j) /\ forall i, i < j -> col_keys groups i <> [])).
      { intros g nw n N A. destruct (S2 n g N) as (nw' & A1 & A2). rewrite A in A1. injection A1 as <-.
        intros k'. unfold sub in A2. eapply IH; [exact A2|auto| |].
        - destruct (assoc g items) as [c0|] eqn:A0; auto. apply assoc_in in A0. apply (Hc _ A0).
        - apply assoc_in in A. apply (Hc' _ A). }
      split.
      * intros ((g & c0) & I & H). cbn [snd] in H.
        assert (Kg : key_ok g) by (apply Hk'; apply (in_map fst) in I; exact I).
        pose proof (assoc_of_in _ _ _ Hn' Kg I) as A. destruct (Kin g) as [U|U].
        -- apply In_nth_error in U as (n & N). apply (Sub g c0 n N A) in H. destruct H as [H|(H1 & H2)].
           ++ destruct (assoc g items) as [c1|] eqn:A0; [|destruct (Fresh _ _ H)].
              left. exists (g, c1). split; [apply assoc_in; auto|auto].
           ++ right. split; auto. intros [|i] Hi; simpl; [intros E0; subst u; destruct n; discriminate|apply H2; lia].
        -- left. rewrite (S1 g U) in A. exists (g, c0). split; [apply assoc_in; auto|auto].
      * intros [((g & c0) & I & H)|(H1 & H2)].
        -- cbn [snd] in H. assert (Kg : key_ok g) by (apply Hk; apply (in_map fst) in I; exact I).
           pose proof (assoc_of_in _ _ _ Hn Kg I) as A. destruct (Kin g) as [U|U].
           ++ apply In_nth_error in U as (n & N). destruct (S2 n g N) as (nw & A1 & _).
              exists (g, nw). split; [apply assoc_in; auto|]. cbn [snd]. apply (Sub g nw n N A1). left. rewrite A. auto.
           ++ exists (g, c0). split; auto. apply assoc_in. rewrite (S1 g U). auto.
        -- assert (U : exists g, nth_error u 0 = Some g).
           { specialize (H2 0 ltac:(lia)). simpl in H2. destruct u; [congruence|]. eexists; reflexivity. }
           destruct U as (g & N). destruct (S2 0 g N) as (nw & A1 & _).
           exists (g, nw). split; [apply assoc_in; auto|]. cbn [snd]. apply (Sub g nw 0 N A1). right. split; auto.
           intros i Hi. apply (H2 (S i)). lia.
Qed.

(** One fill *)
Lemma fill_levels L ng m rows c c' : fill_pre L ng m rows c -> fill_rows L ng m rows c = (c', None) ->
  content_ok L ng c' /\
  forall j k, has_at j c' k <-> has_at j c k \/ (j < ng /\ (exists r, In r rows /\ row_has j k r) /\ reached j rows).
Proof.
  intros H E. destruct (fill_ok _ _ _ _ _ H) as (c'' & E' & Hc' & _). rewrite E in E'. injection E' as <-.
  split; auto. destruct H as (_ & _ & Hr & Hc & _). rewrite Forall_forall in Hr.
  assert (Hp : content_ok L ng (prefill L ng c)).
  { destruct Hc as [->|Hc]; [|destruct c; auto; destruct ng; contradiction]. unfold prefill.
    destruct ng; simpl; [apply repeat_length|repeat split; constructor]. }
  assert (Hpl : forall j k, has_at j (prefill L ng c) k <-> has_at j c k).
  { intros j k. destruct c; try reflexivity. simpl. destruct ng; simpl; destruct j; simpl; try tauto.
    split; [intros (? & [] & _)|intros []]. }
  unfold fill_rows, postfill in E. destruct (flat_indexes _) as [idx|]; [|discriminate].
  set (groups := d_group (dest_of L ng m rows)) in *.
  assert (Lg : length groups = ng) by (unfold groups; simpl; rewrite map_length, seq_length; auto).
  assert (Kf : forall j, j < ng -> kf_ok rows (fun r => nth j (r_keys r) None)).
  { intros j Hj r k Hrr Ek. destruct (Hr r Hrr) as (Hl & Hk & _). apply Hk. rewrite <- Ek. apply nth_In. lia. }
  assert (Hgr : Forall (fun g => NoDup (fst g) /\ Forall key_ok (fst g)) groups).
  { apply Forall_forall. intros g Hg. unfold groups in Hg. simpl in Hg. apply in_map_iff in Hg as (j & <- & Hj). apply in_seq in Hj.
    unfold column. rewrite (group_col_eq (fun r => nth j (r_keys r) None) rows). cbn [fst]. split; [apply kuniques_nodup|apply kuniques_ok]; apply Kf; lia. }
  assert (Ck : forall j k, In k (col_keys groups j) <-> j < ng /\ exists r, In r rows /\ row_has j k r).
  { intros j k. unfold col_keys. destruct (Nat.lt_ge_cases j ng) as [Hj|Hj].
    - replace (nth j (map fst groups) []) with (kuniques (fun r => nth j (r_keys r) None) rows).
      + rewrite (kuniques_in _ _ _ (Kf j Hj)). unfold row_has. tauto.
      + unfold groups. cbn [dest_of d_group]. rewrite map_map.
        rewrite nth_indep with (d' := fst (group_col (column r_keys None 0 rows))) by (rewrite map_length, seq_length; auto).
        rewrite (map_nth (fun j => fst (group_col (column r_keys None j rows)))), seq_nth by auto.
        unfold column. rewrite (group_col_eq (fun r => nth (0 + j) (r_keys r) None) rows). reflexivity.
    - rewrite nth_overflow by (rewrite map_length; lia). split; [intros []|lia]. }
  intros j k. rewrite (filldict_levels L (length rows) groups _ _ _ _ _ _ E Hgr) by (rewrite Lg; auto).
  rewrite Hpl, Ck. apply or_iff_compat_l. split.
  - intros ((H1 & H2) & H3). split; auto. split; auto. intros i Hi. specialize (H3 i Hi).
    destruct (col_keys groups i) as [|k0 l] eqn:E0; [congruence|]. assert (I : In k0 (col_keys groups i)) by (rewrite E0; left; auto).
    apply Ck in I. destruct I as (_ & r & I1 & I2). eauto.
  - intros (H1 & H2 & H3). split; auto. intros i Hi E0. destruct (H3 i Hi) as (r & k0 & I1 & I2).
    assert (I : In k0 (col_keys groups i)) by (apply Ck; split; [lia|eauto]). rewrite E0 in I. destruct I.
Qed.

(** A history of fills *)
Lemma fills_levels L ng m chunks : forall c c', fill_pre L ng m (concat chunks) c -> fill_all L ng m chunks c = (c', None) ->
  hist_ok L ng c' /\ (chunks <> [] -> content_ok L ng c') /\
  forall j k, has_at j c' k <-> has_at j c k \/
    (j < ng /\ exists rows, In rows chunks /\ (exists r, In r rows /\ row_has j k r) /\ reached j rows).
Proof.
  induction chunks as [|a rest IH]; intros c c' H E; cbn [concat fill_all] in *.
  - injection E as <-. destruct H as (_ & _ & _ & Hc & _). split; auto. split; [congruence|].
    intros j k. split; auto. intros [H|(_ & rows & [] & _)]; auto.
  - destruct (proj1 (pre_app _ _ _ _ _ _) H) as [Ha Hb].
    destruct (fill_rows L ng m a c) as [c1 [e|]] eqn:E1; [discriminate|].
    destruct (fill_levels _ _ _ _ _ _ Ha E1) as (Hc1 & H1).
    destruct (IH c1 c' (pre_content _ _ _ _ _ _ Hb Hc1) E) as (K1 & K2 & K3).
    split; auto. split.
    { intros _. destruct rest; [simpl in E; injection E as <-; auto|apply K2; discriminate]. }
    intros j k. rewrite K3, H1. split.
    + intros [[?|(Hj & Hx & Hy)]|(Hj & rows & Hr & Hx)]; auto; right; split; auto; [exists a; split; [left; auto|auto]|exists rows; split; [right; auto|auto]].
    + intros [?|(Hj & rows & [<-|Hr] & Hx & Hy)]; auto; right; split; eauto.
Qed.

Lemma nodup_keys_spec l : Forall key_ok l -> NoDup (nodup_keys l) /\ forall k, In k (nodup_keys l) <-> In k l.
Proof. intros H. split; [apply nodup_keys_nodup; auto|intros k; apply nodup_keys_in; auto]. Qed.

(** * Indexing *)
Lemma means_index_iff n z i : norm_index n z = Some i <-> means_index n z i.
Proof.
  unfold norm_index, means_index. destruct ((0 <=? z) && (z <? Z.of_nat n))%Z eqn:E1.
  - apply andb_prop in E1 as (A & B). apply Z.leb_le in A. apply Z.ltb_lt in B. split.
    + intros H. injection H as <-. split; [lia|left; lia].
    + intros (H1 & [->| ->]); [rewrite Nat2Z.id; auto|lia].
  - destruct ((- Z.of_nat n <=? z) && (z <? 0))%Z eqn:E2.
    + apply andb_prop in E2 as (A & B). apply Z.leb_le in A. apply Z.ltb_lt in B. split.
      * intros H. injection H as <-. split; [lia|right; lia].
      * intros (H1 & [->| ->]); [lia|]. f_equal. lia.
    + split; [discriminate|]. intros (H1 & [->| ->]); exfalso; apply andb_false_iff in E1; apply andb_false_iff in E2;
        rewrite ?Z.leb_gt, ?Z.ltb_ge in *; lia.
Qed.

Lemma prod_app a b : fold_right Nat.mul 1 (a ++ b) = fold_right Nat.mul 1 a * fold_right Nat.mul 1 b.
Proof. induction a; simpl; [lia|]. rewrite IHa. lia. Qed.
Lemma get_array L sh : forall d zs is_ , length d = fold_right Nat.mul 1 sh -> Forall2 (fun n zi => means_index n (fst zi) (snd zi)) sh (combine zs is_) ->
  length zs = length is_ ->
  get_all L (Arr sh d) (map AtInt zs) = Ok (Arr [] [nth (ravel sh is_) d nzero]).
Proof.
  induction sh as [|n sh IH]; intros d zs is_ Hd HF HL.
  - destruct zs as [|z zs], is_ as [|i is_]; try discriminate; [|inversion HF]. simpl.
    destruct d as [|x [|? ?]]; try discriminate. reflexivity.
  - destruct zs as [|z zs], is_ as [|i is_]; try discriminate; [inversion HF|]. inversion HF as [|? ? ? ? Hm HF']; subst. cbn [fst snd] in Hm.
    cbn [map get_all get1]. rewrite (proj2 (means_index_iff n z i) Hm). cbn [bind]. unfold row_at.
    set (m := fold_right Nat.mul 1 sh) in *. destruct Hm as (Hi & _).
    assert (Hdm : length d = n * m) by exact Hd.
    assert (Hle : i * m + m <= n * m) by nia.
    assert (HL' : length (firstn m (skipn (i * m) d)) = m) by (rewrite firstn_length, skipn_length; lia).
    rewrite (IH _ zs is_); auto. do 3 f_equal. cbn [ravel]. fold m.
    assert (Hr : ravel sh is_ < m).
    { unfold m. injection HL as HL. clear - HF' HL. revert zs is_ HF' HL. induction sh as [|n sh IH]; intros zs is_ HF HL; [simpl; destruct is_; simpl; lia|].
      destruct zs as [|z zs], is_ as [|i is_]; try discriminate; [inversion HF|]. inversion HF as [|? ? ? ? (Hi & _) HF']; subst. cbn [snd] in Hi.
      cbn [ravel fold_right]. specialize (IH zs is_ HF' ltac:(simpl in HL; lia)). set (p := fold_right Nat.mul 1 sh) in *. nia. }
    clear - Hr Hdm Hle.
    assert (G : forall k (l : list Num) q, q < k -> nth q (firstn k l) nzero = nth q l nzero).
    { induction k; intros l q Hq; [lia|]. destruct l; [destruct q; reflexivity|]. destruct q; simpl; auto. apply IHk. lia. }
    rewrite G by auto.
    assert (G2 : forall k (l : list Num) q, nth q (skipn k l) nzero = nth (k + q) l nzero).
    { induction k; intros l q; [reflexivity|]. destruct l; [destruct q; reflexivity|]. simpl. apply IHk. }
    rewrite G2. reflexivity.
Qed.

Lemma get_all_app L a : forall o b, get_all L o (a ++ b) = (do o' <- get_all L o a; get_all L o' b).
Proof. induction a as [|i a IH]; intros o b; [reflexivity|]. cbn [app get_all]. destruct (get1 L o i); [apply IH|reflexivity]. Qed.

Lemma writes_key_is i k : writes_key i k -> item_key i = Some k /\ key_ok k.
Proof. intros []; split; try reflexivity; unfold key_ok; try discriminate. congruence. Qed.

Lemma ravel_app a : forall is_ b js, length is_ = length a -> ravel (a ++ b) (is_ ++ js) = ravel a is_ * fold_right Nat.mul 1 b + ravel b js.
Proof.
  induction a as [|n a IH]; intros is_ b js H; destruct is_ as [|i is_]; try discriminate; [reflexivity|].
  cbn [app ravel]. rewrite IH by (simpl in H; lia). rewrite prod_app. nia.
Qed.

Lemma get_cell L n : forall c its ks zs ss z col, content_ok L n c -> length ks = n ->
  Forall2 writes_key its ks -> Forall2 (fun n zi => means_index n (fst zi) (snd zi)) (l_tots L) (combine zs ss) -> length zs = length ss ->
  means_index (l_last L) z col ->
  get_all L (enter L c) (its ++ map AtInt (zs ++ [z])) =
  match block c ks with Some _ => Ok (Arr [] [cell L c ks ss col]) | None => Err KeyError end.
Proof.
  induction n as [|n IH]; intros c its ks zs ss z col Hc Hk Hw Hz HL Hm; destruct c as [|d|l]; try contradiction.
  - destruct ks; try discriminate. inversion Hw; subst. cbn [app enter block].
    rewrite (get_array L (l_tots L ++ [l_last L]) d (zs ++ [z]) (ss ++ [col])).
    + unfold cell. cbn [block]. rewrite ravel_app.
      * cbn [ravel fold_right]. do 4 f_equal. lia.
      * clear - Hz HL. revert ss HL Hz. generalize (l_tots L). induction zs as [|a zs IH]; intros t [|s ss] HL Hz; try discriminate; cbn [combine] in Hz; inversion Hz; subst; auto.
        simpl. f_equal. apply (IH l); auto.
    + rewrite prod_app. cbn [fold_right]. rewrite Nat.mul_1_r. exact Hc.
    + clear - Hz HL Hm. revert ss HL Hz. generalize (l_tots L). induction zs as [|a zs IH]; intros t [|s ss] HL Hz; try discriminate; cbn [combine] in Hz; inversion Hz; subst.
      * simpl. constructor; auto.
      * cbn [app combine]. constructor; auto.
    + rewrite !app_length. simpl. lia.
  - destruct ks as [|k ks]; try discriminate. inversion Hw as [|i ? its' ? Wi Hw']; subst. destruct (writes_key_is i k Wi) as (Ei & Ki).
    cbn [app get_all enter get1]. rewrite Ei. unfold cell. cbn [block]. destruct (assoc k l) as [c|] eqn:A; cbn [bind]; [|reflexivity].
    destruct Hc as (Hc & _). rewrite Forall_forall in Hc. apply assoc_in in A. specialize (Hc _ A). cbn [snd] in Hc.
    rewrite (IH c its' ks zs ss z col); auto.
Qed.
