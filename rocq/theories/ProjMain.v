(** Projection of contents: the projected content is an ordinary content whose cells are sums. *)
From Coq Require Import String.
From Verif Require Import Base Num NumFacts Axis Calc Content Fill FillSpec FillProofs FillProofs2 FillProofs3 FillMain
  HistAlg AlgSpec HistAlgProofs HistAlgMain Nd NdProofs Proj ProjSpec ProjProofs.
Local Open Scope list_scope.

Definition adds_up (L : layout) (cs : list content) (c : content) : Prop :=
  (forall ks pos, at_ (block c ks) pos = nsum (map (fun x => at_ (block x ks) pos) cs)) /\
  (forall ks, block c ks <> None <-> Exists (fun x => block x ks <> None) cs).

Lemma pow2_pos k : 1 <= 2 ^ k.
Proof. induction k; cbn [Nat.pow]; lia. Qed.
Lemma pow2_gt k : S k <= 2 ^ k.
Proof. induction k; cbn [Nat.pow]; [lia|]. pose proof (pow2_pos k). lia. Qed.
Lemma nsum_app2 {A} (f : A -> Num) l m : nsum (map f (l ++ m)) = nadd (nsum (map f l)) (nsum (map f m)).
Proof. rewrite map_app. apply nsum_app. Qed.

Lemma add_two L n a b : content_ok L n a -> content_ok L n b ->
  exists c, addany (embed L a) (embed L b) = Ok (embed L c) /\ content_ok L n c /\
    forall ks, block c ks = join (block a ks) (block b ks).
Proof.
  intros Ha Hb. destruct (content_add_ok L 0 n a b Ha Hb) as (c & E & Hc & B). exists c.
  split; [eapply addany_embed; eauto|]. auto.
Qed.
Lemma join_some x y : join x y <> None <-> x <> None \/ y <> None.
Proof. destruct x, y; cbn [join]; intuition congruence. Qed.
Lemma add_lists L n c1 c2 l1 l2 c : content_ok L n c1 -> content_ok L n c2 -> adds_up L l1 c1 -> adds_up L l2 c2 ->
  (forall ks, block c ks = join (block c1 ks) (block c2 ks)) -> adds_up L (l1 ++ l2) c.
Proof.
  intros O1 O2 (S1 & N1) (S2 & N2) B. split.
  - intros ks pos. rewrite B, at_join, S1, S2, nsum_app2; auto.
    intros d e Hd He. rewrite (block_length L n c1 ks d), (block_length L n c2 ks e); auto.
  - intros ks. rewrite B, join_some, N1, N2, Exists_app. reflexivity.
Qed.
Lemma adds_one L c : adds_up L [c] c.
Proof.
  split.
  - intros ks pos. cbn [map]. rewrite nsum_cons. cbn [nsum fold_right]. rewrite nadd_0_r. reflexivity.
  - intros ks. split; [intros H; constructor; auto|]. intros H. inversion H as [? ? H1|? ? H1]; subst; auto. inversion H1.
Qed.

Lemma addall_fuel_embed L n k : forall f cs, S k <= f -> length cs = 2 ^ S k -> Forall (content_ok L n) cs ->
  exists c, addall_fuel f (map (embed L) cs) = Ok (embed L c) /\ content_ok L n c /\ adds_up L cs c.
Proof.
  induction k as [|k IH]; intros f cs Hf Hl Ho; destruct f as [|f]; try lia.
  - cbn [Nat.pow Nat.mul Nat.add] in Hl. destruct cs as [|a [|b [|? ?]]]; cbn [length] in Hl; try lia.
    inversion Ho as [|? ? Ha Ho']; subst. inversion Ho' as [|? ? Hb _]; subst.
    cbn [map addall_fuel]. destruct (add_two L n a b Ha Hb) as (c & E & Hc & B). exists c. split; auto. split; auto.
    apply (add_lists L n a b [a] [b]); auto using adds_one.
  - set (h := 2 ^ S k) in *. assert (Hh : length cs = h + h) by (subst h; rewrite Hl; cbn [Nat.pow]; lia).
    assert (Hg : 2 <= h) by (subst h; cbn [Nat.pow]; pose proof (pow2_pos k); lia).
    destruct cs as [|x0 [|x1 [|x2 cs']]] eqn:Ec; cbn [length] in Hh; try lia. rewrite <- Ec in *. clear Hl.
    assert (Hh' : length cs = h + h) by (rewrite Ec; cbn [length]; lia).
    assert (Em : addall_fuel (S f) (map (embed L) cs) =
      (do l <- addall_fuel f (firstn (length (map (embed L) cs) / 2) (map (embed L) cs));
       do r <- addall_fuel f (skipn (length (map (embed L) cs) / 2) (map (embed L) cs)); addany l r)) by (rewrite Ec; reflexivity).
    rewrite Em. clear Em. rewrite map_length, Hh'. replace ((h + h) / 2) with h by (replace (h + h) with (h * 2) by lia; symmetry; apply Nat.div_mul; lia).
    rewrite firstn_map, skipn_map.
    destruct (IH f (firstn h cs)) as (c1 & E1 & O1 & S1); [lia|rewrite firstn_length; lia|apply Forall_forall; intros x Hx; rewrite Forall_forall in Ho; apply Ho; rewrite <- (firstn_skipn h); apply in_or_app; auto|].
    destruct (IH f (skipn h cs)) as (c2 & E2 & O2 & S2); [lia|rewrite skipn_length; lia|apply Forall_forall; intros x Hx; rewrite Forall_forall in Ho; apply Ho; rewrite <- (firstn_skipn h); apply in_or_app; auto|].
    rewrite E1. cbn [bind]. rewrite E2. cbn [bind].
    destruct (add_two L n c1 c2 O1 O2) as (c & E & Hc & B). exists c. split; auto. split; auto.
    rewrite <- (firstn_skipn h cs). apply (add_lists L n c1 c2); auto.
Qed.
Lemma addall_embed L n k cs : length cs = 2 ^ S k -> Forall (content_ok L n) cs ->
  exists c, addall (map (embed L) cs) = Ok (embed L c) /\ content_ok L n c /\ adds_up L cs c.
Proof. intros H Ho. unfold addall. rewrite map_length. apply (addall_fuel_embed L n k); auto. rewrite H. cbn [Nat.pow]. pose proof (pow2_gt k). lia. Qed.

(** ** The whole content *)
Definition proj_block (keepf : list bool) (L : layout) (o : option (list Num)) : option (list Num) := option_map (proj_data keepf L) o.
Definition trues (l : list bool) : nat := length (filter (fun b : bool => b) l).

Lemma nsum_paths (F : list gkey -> Num) P (pp : gkey * content -> list (list gkey)) l :
  nsum (map F (filter P (flat_map (fun kv => map (cons (fst kv)) (pp kv)) l)))
  = nsum (map (fun kv => nsum (map (fun p => F (fst kv :: p)) (filter (fun p => P (fst kv :: p)) (pp kv)))) l).
Proof.
  rewrite nsum_filter, map_flat_map, nsum_flat_map. f_equal. apply map_ext. intros kv. rewrite map_map, nsum_filter. reflexivity.
Qed.
Lemma nsum_assoc {A} (F : gkey * A -> Num) (G : A -> Num) k l : NoDup (map fst l) -> Forall key_ok (map fst l) ->
  (forall kv, In kv l -> F kv = if gkey_eqb (fst kv) k then G (snd kv) else nzero) ->
  nsum (map F l) = match assoc k l with Some v => G v | None => nzero end.
Proof.
  intros N K H. induction l as [|[k' v] l IH]; auto. cbn [map fst] in *. inversion N; subst. inversion K; subst.
  rewrite nsum_cons, (H (k', v)) by (left; auto). cbn [fst snd assoc].
  rewrite (gkey_eqb_sym k k'). destruct (gkey_eqb k' k) eqn:E.
  - apply gkey_eqb_eq in E. subst k'. rewrite nsum_zero; [apply nadd_0_r|]. intros x Hx. apply in_map_iff in Hx.
    destruct Hx as ([k2 v2] & <- & Hin). rewrite H by (right; auto). cbn [fst snd]. destruct (gkey_eqb k2 k) eqn:E2; auto.
    apply gkey_eqb_eq in E2. subst. exfalso. apply H2. apply in_map_iff. exists (k, v2). auto.
  - rewrite nadd_0_l. apply IH; auto. intros kv Hin. apply H. right; auto.
Qed.


Definition projected (keepg keepf : list bool) (L : layout) (n : nat) (x y : content) : Prop :=
  content_ok (layout_keep keepf L) (trues keepg) y /\
  (forall ks pos, at_ (block y ks) pos = nsum (map (fun p => at_ (proj_block keepf L (block x p)) pos) (keys_over keepg (paths n x) ks))) /\
  (forall ks, block y ks <> None <-> exists p, In p (keys_over keepg (paths n x) ks)).

Lemma proj_items_ok f L L' (R : content -> content -> Prop) l :
  Forall (fun kv => exists y, f (embed L (snd kv)) = Ok (embed L' y) /\ R (snd kv) y) l ->
  exists l', proj_items f (map (fun kv => (fst kv, embed L (snd kv))) l) = Ok (map (fun kv => (fst kv, embed L' (snd kv))) l') /\
    Forall2 (fun a b : gkey * content => fst a = fst b /\ R (snd a) (snd b)) l l'.
Proof.
  induction 1 as [|[k x] l (y & E & HR) Hl (l' & E' & F)].
  - exists []. split; auto.
  - exists ((k, y) :: l'). cbn [map proj_items fst snd] in *. rewrite E. cbn [bind]. fold (proj_items f). rewrite E'. cbn [bind].
    split; auto.
Qed.
Lemma pair_keys (R : content -> content -> Prop) l l' :
  Forall2 (fun a b : gkey * content => fst a = fst b /\ R (snd a) (snd b)) l l' -> map fst l = map fst l'.
Proof. induction 1 as [|? ? ? ? (E & _)]; cbn [map]; congruence. Qed.
Lemma pair_assoc (R : content -> content -> Prop) l l' k :
  Forall2 (fun a b : gkey * content => fst a = fst b /\ R (snd a) (snd b)) l l' ->
  match assoc k l, assoc k l' with Some x, Some y => R x y | None, None => True | _, _ => False end.
Proof.
  induction 1 as [|[k1 x] [k2 y] l l' (E & HR) F IH]; cbn [assoc]; auto. cbn [fst snd] in *. subst k2.
  destruct (gkey_eqb k k1); auto.
Qed.

Lemma in_keys_over keepg P ks p : In p (keys_over keepg P ks) <-> In p P /\ keys_same (select keepg p) ks = true.
Proof. unfold keys_over. rewrite filter_In. reflexivity. Qed.
Lemma in_paths_dict n l p : In p (paths (S n) (CDict l)) <-> exists kv q, In kv l /\ In q (paths n (snd kv)) /\ p = fst kv :: q.
Proof.
  cbn [paths]. rewrite in_flat_map. split.
  - intros (kv & Hi & Hm). apply in_map_iff in Hm. destruct Hm as (q & <- & Hq). eauto.
  - intros (kv & q & Hi & Hq & ->). exists kv. split; auto. apply in_map; auto.
Qed.

Lemma projcontent_embed keepf L : length keepf = length (l_tots L) ->
  forall keepg c, content_ok L (length keepg) c -> power_groups keepg c ->
  exists y, projcontent keepg keepf (embed L c) = Ok (embed (layout_keep keepf L) y) /\ projected keepg keepf L (length keepg) c y.
Proof.
  intros Hf. induction keepg as [|g gs IH]; intros c Hc Hp; destruct c as [|d|l]; try contradiction.
  - cbn [length content_ok] in Hc. exists (CArr (proj_data keepf L d)). split.
    + cbn [projcontent embed]. rewrite projarray_embed by auto. reflexivity.
    + split; [|split].
      * cbn [content_ok trues filter length]. apply proj_data_length; auto.
      * intros ks pos. cbn [length paths]. destruct ks as [|k ks]; cbn [block at_ keys_over filter select keys_same map proj_block option_map].
        -- rewrite nsum_cons. cbn [nsum fold_right]. rewrite nadd_0_r. reflexivity.
        -- reflexivity.
      * intros ks. cbn [length paths]. destruct ks as [|k ks]; cbn [block keys_over filter select keys_same].
        -- split; [intros _; exists []; left; auto|congruence].
        -- split; [congruence|intros (p & []) ].
  - cbn [length content_ok] in Hc. destruct Hc as (Hc & Hn & Hk). destruct Hp as (Hg & Hp).
    rewrite embed_dict. cbn [projcontent length].
    destruct (proj_items_ok (projcontent gs keepf) L (layout_keep keepf L) (projected gs keepf L (length gs)) l) as (l' & E & F).
    { apply Forall_forall. intros kv Hi. rewrite Forall_forall in Hc, Hp. apply IH; auto. }
    rewrite E. cbn [bind]. pose proof (pair_keys _ _ _ F) as Hkeys.
    assert (Hkv : forall kv, In kv l -> assoc (fst kv) l = Some (snd kv)).
    { intros [k x] Hi. apply assoc_of_in; auto. rewrite Forall_forall in Hk. apply Hk. apply in_map_iff. exists (k, x); auto. }
    assert (Ok' : Forall (fun kv => content_ok (layout_keep keepf L) (trues gs) (snd kv)) l').
    { clear - F. induction F as [|? ? ? ? (_ & H & _)]; constructor; auto. }
    destruct g.
    + exists (CDict l'). split; [rewrite embed_dict; reflexivity|]. split; [|split].
      * unfold trues. cbn [filter length content_ok]. rewrite <- Hkeys. auto.
      * intros ks pos. unfold keys_over. cbn [paths].
        rewrite nsum_paths. destruct ks as [|k ks].
        -- cbn [block at_]. rewrite nsum_zero; auto. intros x Hx. apply in_map_iff in Hx. destruct Hx as (kv & <- & _).
           rewrite nsum_filter. apply nsum_zero. intros y Hy. apply in_map_iff in Hy. destruct Hy as (p & <- & _). reflexivity.
        -- rewrite (nsum_assoc _ (fun x => nsum (map (fun p => at_ (proj_block keepf L (block x p)) pos) (keys_over gs (paths (length gs) x) ks))) k); auto.
           ++ cbn [block]. pose proof (pair_assoc _ _ _ k F) as Ha. destruct (assoc k l) as [x|], (assoc k l') as [y|]; try contradiction; auto.
              destruct Ha as (_ & Ha & _). apply Ha.
           ++ intros kv Hi. cbn [select]. unfold keys_over. rewrite nsum_filter.
              destruct (gkey_eqb (fst kv) k) eqn:Ek.
              ** rewrite nsum_filter. f_equal. apply map_ext. intros p. cbn [keys_same block]. rewrite Ek, (Hkv kv Hi). reflexivity.
              ** apply nsum_zero. intros y Hy. apply in_map_iff in Hy. destruct Hy as (p & <- & _). cbn [keys_same]. rewrite Ek. reflexivity.
      * intros [|k ks].
        -- cbn [block]. split; [congruence|]. intros (p & Hin). apply in_keys_over in Hin. destruct Hin as (Hin & Hs).
           apply in_paths_dict in Hin. destruct Hin as (kv & q & _ & _ & ->). discriminate Hs.
        -- cbn [block]. pose proof (pair_assoc _ _ _ k F) as Ha. split.
           ++ destruct (assoc k l') as [y|]; [|congruence]. destruct (assoc k l) as [x|] eqn:Ex; [|contradiction].
              destruct Ha as (_ & _ & Ha). intros H. apply Ha in H. destruct H as (q & Hq). apply in_keys_over in Hq. destruct Hq as (Hq & Hs).
              exists (k :: q). apply in_keys_over. split; [apply in_paths_dict; exists (k, x), q; split; auto using assoc_in|].
              cbn [select keys_same]. rewrite gkey_eqb_refl, Hs; auto. rewrite Forall_forall in Hk. apply Hk. apply in_map_iff.
              exists (k, x). split; auto using assoc_in.
           ++ intros (p & Hin). apply in_keys_over in Hin. destruct Hin as (Hin & Hs). apply in_paths_dict in Hin.
              destruct Hin as (kv & q & Hi & Hq & ->). cbn [select keys_same] in Hs. apply andb_prop in Hs. destruct Hs as (Hs1 & Hs2).
              apply gkey_eqb_eq in Hs1. subst k. rewrite (Hkv kv Hi) in Ha. destruct (assoc (fst kv) l') as [y|]; [|contradiction].
              apply Ha. exists q. apply in_keys_over. auto.
    + destruct Hg as [Hg|(k & Hl)]; [discriminate|].
      destruct (addall_embed (layout_keep keepf L) (trues gs) k (map snd l')) as (y & Ey & Oy & (Sy & Ny)).
      { rewrite map_length. rewrite <- (Forall2_length _ _ _ F); auto. }
      { apply Forall_map; auto. }
      exists y. split; [rewrite map_map; rewrite map_map in Ey; exact Ey|]. split; [exact Oy|]. split.
      * intros ks pos. rewrite Sy. unfold keys_over. cbn [paths]. rewrite nsum_paths. rewrite map_map. f_equal.
        clear E Ey Oy Sy Ny Ok' Hkeys. 
        assert (G : forall m m', (forall kv, In kv m -> assoc (fst kv) l = Some (snd kv)) ->
          Forall2 (fun a b : gkey * content => fst a = fst b /\ projected gs keepf L (length gs) (snd a) (snd b)) m m' ->
          map (fun x => at_ (block (snd x) ks) pos) m' =
          map (fun kv => nsum (map (fun p => at_ (proj_block keepf L (block (CDict l) (fst kv :: p))) pos)
             (filter (fun p => keys_same (select (false :: gs) (fst kv :: p)) ks) (paths (length gs) (snd kv))))) m).
        { intros m m' Hm. induction 1 as [|a b m m' (_ & _ & Hab & _) F2 IH2]; auto. cbn [map]. f_equal.
          - rewrite Hab. f_equal. cbn [select block]. rewrite (Hm a) by (left; auto). reflexivity.
          - apply IH2. intros kv Hi. apply Hm. right; auto. }
        apply G; auto.
      * intros ks. rewrite Ny. rewrite Exists_exists. split.
        -- intros (y' & Hi & Hb). apply in_map_iff in Hi. destruct Hi as (kv' & <- & Hi).
           assert (G : exists kv, In kv l /\ projected gs keepf L (length gs) (snd kv) (snd kv')).
           { clear - F Hi. induction F as [|a b m m' (E & H) F IH]; [contradiction|]. destruct Hi as [->|Hi]; [exists a; split; [left|]; auto|].
             destruct (IH Hi) as (kv & ? & ?). exists kv. split; [right|]; auto. }
           destruct G as (kv & Hkvl & (_ & _ & Hb')). apply Hb' in Hb. destruct Hb as (q & Hq). apply in_keys_over in Hq. destruct Hq as (Hq & Hs).
           exists (fst kv :: q). apply in_keys_over. split; auto. apply in_paths_dict. eauto.
        -- intros (p & Hin). apply in_keys_over in Hin. destruct Hin as (Hin & Hs). apply in_paths_dict in Hin.
           destruct Hin as (kv & q & Hi & Hq & ->). cbn [select] in Hs.
           assert (G : exists kv', In kv' l' /\ projected gs keepf L (length gs) (snd kv) (snd kv')).
           { clear - F Hi. induction F as [|a b m m' (E & H) F IH]; [contradiction|]. destruct Hi as [->|Hi]; [exists b; split; [left|]; auto|].
             destruct (IH Hi) as (kv' & ? & ?). exists kv'. split; [right|]; auto. }
           destruct G as (kv' & Hkv' & (_ & _ & Hb)). exists (snd kv'). split; [apply in_map; auto|]. apply Hb. exists q. apply in_keys_over. auto.
Qed.
