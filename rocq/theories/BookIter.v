(** Invariants of the store, and iteration over all the entries of a book. *)
From Coq Require Import String Ascii Sorted.
From Verif Require Import Base Glob Book BookSpec BookProofs BookPaths.
Local Open Scope string_scope.
Local Open Scope list_scope.

(** ** Every store that programs build is well formed *)
Lemma nodup_dset k x l : NoDup (map fst l) -> NoDup (map fst (dset k x l)).
Proof.
  intros N. rewrite dset_keys. destruct (dget k l) eqn:E; auto. apply dget_none in E.
  induction (map fst l) as [|a m IH]; cbn [app]; [constructor; [tauto|constructor]|].
  inversion N; subst. constructor.
  - rewrite in_app_iff. cbn [In]. intros [H|[H|[]]]; auto. subst. apply E. left. auto.
  - apply IH; auto. intros H. apply E. right. auto.
Qed.
Lemma placed_ok B B' i k rest v : valid B -> keys_ok B -> exists_in B v -> cut_slash k = None ->
  (forall r, In r rest -> cut_slash r = None) -> placed B B' i k rest v -> valid B' /\ keys_ok B'.
Proof.
  intros Hv K Ev Hk Hr [L O (l & H1 & H2 & H3) C].
  assert (Cases : forall j l', content_of B' j = Some l' -> j = i \/ (j <> i /\ content_of B j = Some l') \/
            exists m r, nth_error rest m = Some r /\ l' = [(r, if Nat.eqb (S m) (length rest) then v else EBook (length B + S m))]).
  { intros j l' E. destruct (Nat.eq_dec j i); auto. right. destruct (Nat.lt_ge_cases j (length B)) as [Lj|Lj].
    - left. rewrite O in E; auto.
    - right. assert (Lj' : j < length B') by (apply content_some; eauto). rewrite L in Lj'.
      destruct (nth_error rest (j - length B)) as [r|] eqn:Er; [|apply nth_error_None in Er; lia].
      exists (j - length B), r. split; auto. specialize (C _ _ Er). replace (length B + (j - length B)) with j in C by lia. congruence. }
  split.
  - intros j l' k' c E I. destruct (Cases j l' E) as [->|[(_ & E')|(m & r & Er & ->)]].
    + rewrite H3 in E. inversion E; subst l'. apply in_dset in I. destruct I as [(_ & I)|I].
      * destruct rest as [|r rest]; [subst v; cbn in Ev; lia|]. inversion I. subst c. rewrite L. cbn [length]. lia.
      * assert (c < length B) by (eapply Hv; eauto). lia.
    + assert (c < length B) by (eapply Hv; eauto). lia.
    + destruct I as [I|[]]. assert (Lm : m < length rest) by (apply nth_error_Some; congruence).
      destruct (Nat.eqb (S m) (length rest)) eqn:Em.
      * inversion I; subst. cbn in Ev. lia.
      * apply Nat.eqb_neq in Em. inversion I; subst. lia.
  - intros j l' E. destruct (Cases j l' E) as [->|[(_ & E')|(m & r & Er & ->)]].
    + rewrite H3 in E. inversion E; subst l'. destruct (K _ _ H1) as (N & S). split; [apply nodup_dset; auto|].
      intros k' I. rewrite dset_keys in I. destruct (dget k l); auto. apply in_app_or in I. destruct I as [I|[<-|[]]]; auto.
    + apply (K _ _ E').
    + split; [repeat constructor; tauto|]. intros k' [<-|[]]. apply Hr. apply nth_error_In in Er. auto.
Qed.
Lemma removed_ok B B' i k : valid B -> keys_ok B -> removed B B' i k -> valid B' /\ keys_ok B'.
Proof.
  intros Hv K [L O (l & x & H1 & H2 & H3)]. split.
  - intros j l' k' c E I. rewrite L. destruct (Nat.eq_dec j i) as [->|N].
    + rewrite H3 in E. inversion E; subst l'. apply in_ddel in I. eapply Hv; eauto.
    + rewrite O in E by auto. eapply Hv; eauto.
  - intros j l' E. destruct (Nat.eq_dec j i) as [->|N].
    + rewrite H3 in E. inversion E; subst l'. destruct (K _ _ H1) as (Nd & S). split; [apply ddel_nodup; auto|].
      intros k' I. apply S. apply in_map_iff in I. destruct I as ((k0, y) & E0 & I). cbn in E0. subst k0. apply in_ddel in I. apply (in_map fst) in I. auto.
    + rewrite O in E by auto. apply (K _ _ E).
Qed.
Lemma contents_ok B C : length C = length B -> (forall j, content_of C j = content_of B j) -> valid B -> keys_ok B -> valid C /\ keys_ok C.
Proof.
  intros L E Hv K. split.
  - intros j l k c Ec I. rewrite E in Ec. rewrite L. eapply Hv; eauto.
  - intros j l Ec. rewrite E in Ec. apply (K _ _ Ec).
Qed.
Lemma set_n_out n B b name v : length B <= b -> set_n n B b name v = (B, Some NameError).
Proof. intros L. apply nth_error_None in L. destruct n; cbn [set_n]; rewrite L; auto. Qed.
Lemma del_n_out n B b name : length B <= b -> del_n n B b name = (B, Some NameError).
Proof. intros L. apply nth_error_None in L. destruct n; cbn [del_n]; rewrite L; auto. Qed.
Lemma setitem_ok B b name v : valid B -> keys_ok B -> exists_in B v -> valid (fst (setitem B b name v)) /\ keys_ok (fst (setitem B b name v)).
Proof.
  intros Hv K Ev. unfold setitem. destruct (Nat.lt_ge_cases b (length B)) as [L|L]; [|rewrite set_n_out; auto].
  destruct (set_n (String.length name) B b name v) as [B' e] eqn:E. cbn [fst].
  destruct (set_n_placed _ B b name v B' e Hv L (le_n _) E) as [(-> & d & k & rest & i & Ec & Ei & P)|(_ & -> & _)]; auto.
  assert (S := components_slashless name). rewrite Ec in S. apply (placed_ok B B' i k rest v); auto.
  - apply S. apply in_or_app. right. left. auto.
  - intros r Ir. apply S. apply in_or_app. right. right. auto.
Qed.
Lemma del_ok B b name : valid B -> keys_ok B -> valid (fst (del_ B b name)) /\ keys_ok (fst (del_ B b name)).
Proof.
  intros Hv K. unfold del_. destruct (Nat.lt_ge_cases b (length B)) as [L|L]; [|rewrite del_n_out; auto].
  destruct (del_n (String.length name) B b name) as [B' e] eqn:E. cbn [fst].
  destruct (del_n_removed _ B b name B' e Hv K L (le_n _) E) as [(-> & d & k & i & Ec & Ei & R)|(_ & -> & _)]; auto.
  eapply removed_ok; eauto.
Qed.
Lemma del_all_ok names : forall B b, valid B -> keys_ok B -> valid (fst (del_all B b names)) /\ keys_ok (fst (del_all B b names)).
Proof.
  induction names as [|n names IH]; intros B b Hv K; cbn [del_all]; auto. destruct (del_ok B b n Hv K) as (V1 & K1).
  destruct (del_ B b n) as [B1 [e|]]; cbn [fst] in *; auto.
Qed.
Lemma built_ok B : built B -> valid B /\ keys_ok B.
Proof.
  induction 1 as [|B H IH|B b name v H IH Ev|B limit b name H IH|B b o c H IH Eo].
  - split; intros j l; unfold content_of; destruct j; discriminate.
  - destruct IH as (Hv & K). cbn [fst new_book]. split.
    + intros j l k c. rewrite content_app. destruct (Nat.eqb j (length B)); [intros E; inversion E; subst; intros []|].
      intros E I. assert (c < length B) by (eapply Hv; eauto). rewrite app_length. lia.
    + intros j l. rewrite content_app. destruct (Nat.eqb j (length B)); [intros E; inversion E; subst; split; [constructor|intros k []]|]. apply K.
  - destruct IH. apply setitem_ok; auto.
  - destruct IH as (Hv & K). unfold delitem. destruct (wild name); [|apply del_ok; auto].
    destruct (keys limit true false B b); [apply del_all_ok; auto|cbn [fst]; auto].
  - destruct IH as (Hv & K). assert (L : b < length B) by (apply nth_error_Some; congruence).
    apply (contents_ok B); auto; [apply put_length|]. intros j. rewrite content_put by auto. destruct (Nat.eqb j b) eqn:E; auto.
    apply Nat.eqb_eq in E. subst j. unfold content_of. rewrite Eo. auto.
Qed.

(** ** Iteration *)
(** The same walk with lists of names instead of names with slashes. *)
Fixpoint walk (limit : nat) (B : books) (b : nat) : res (list (list string * entry)) :=
  match limit with
  | O => Err RecursionError
  | S m =>
    match content_of B b with
    | None => Err NameError
    | Some l =>
      (fix go (l : list (string * entry)) : res (list (list string * entry)) :=
         match l with
         | [] => Ok []
         | (n, x) :: l =>
           do deep <- match x with EBook c => walk m B c | EHist _ => Ok [] end;
           do rest <- go l;
           Ok ((([n], x) :: map (fun px => (n :: fst px, snd px)) deep) ++ rest)
         end) l
    end
  end.
Definition walk_items (m : nat) (B : books) : list (string * entry) -> res (list (list string * entry)) :=
  fix go l := match l with
              | [] => Ok []
              | (n, x) :: l =>
                do deep <- match x with EBook c => walk m B c | EHist _ => Ok [] end;
                do rest <- go l;
                Ok ((([n], x) :: map (fun px => (n :: fst px, snd px)) deep) ++ rest)
              end.
Lemma walk_S m B b : walk (S m) B b = match content_of B b with None => Err NameError | Some l => walk_items m B l end.
Proof. reflexivity. Qed.
Definition iter_items (m : nat) (recursive onlyhist : bool) (B : books) (path : option string) : list (string * entry) -> res (list (string * entry)) :=
  fix go l := match l with
              | [] => Ok []
              | (n, x) :: l =>
                let here := if negb onlyhist || is_hist x then [(under path n, x)] else [] in
                do deep <- match x with
                           | EBook c => if recursive then iteritems_ m recursive onlyhist B c (Some (under path n)) else Ok []
                           | EHist _ => Ok []
                           end;
                do rest <- go l;
                Ok (here ++ deep ++ rest)
              end.
Lemma iteritems_S m r oh B b path : iteritems_ (S m) r oh B b path = match content_of B b with None => Err NameError | Some l => iter_items m r oh B path l end.
Proof. unfold content_of. cbn [iteritems_]. destruct (nth_error B b); reflexivity. Qed.

Definition label (path : option string) (px : list string * entry) : string * entry := (under path (path_name (fst px)), snd px).
Definition pick (onlyhist : bool) (l : list (string * entry)) : list (string * entry) :=
  filter (fun nx => negb onlyhist || is_hist (snd nx)) l.
Lemma walk_nonempty m B b l : walk m B b = Ok l -> forall px, In px l -> fst px <> [].
Proof.
  destruct m as [|m]; [discriminate|]. rewrite walk_S. destruct (content_of B b) as [c|]; [|discriminate].
  revert l. induction c as [|(n, x) c IH]; cbn [walk_items]; intros l.
  - intros E. inversion E. intros px [].
  - destruct (match x with EBook c => walk m B c | EHist _ => Ok [] end) as [deep|]; cbn [bind]; [|discriminate].
    destruct (walk_items m B c) as [rest|] eqn:R; cbn [bind]; [|discriminate]. intros E. inversion E; subst l. intros px. cbn [In app]. rewrite in_app_iff.
    intros [<-|[H|H]]; [discriminate| |eapply IH; eauto]. apply in_map_iff in H. destruct H as (q & <- & _). discriminate.
Qed.
Lemma append_assoc' a b c : ((a ++ b) ++ c = a ++ (b ++ c))%string.
Proof. induction a as [|x a IH]; cbn [append]; auto. rewrite IH. auto. Qed.
Lemma iteritems_walk m : forall oh B b path,
  iteritems_ m true oh B b path = rmap (fun l => pick oh (map (label path) l)) (walk m B b).
Proof.
  induction m as [|m IH]; intros oh B b path; auto. rewrite iteritems_S, walk_S. destruct (content_of B b) as [l|]; auto.
  induction l as [|(n, x) l IHl]; cbn [iter_items walk_items]; auto. fold (iter_items m true oh B path). fold (walk_items m B).
  assert (D : match x with EBook c => iteritems_ m true oh B c (Some (under path n)) | EHist _ => Ok [] end =
              rmap (fun l => pick oh (map (label path) (map (fun px => (n :: fst px, snd px)) l)))
                   match x with EBook c => walk m B c | EHist _ => Ok [] end).
  { destruct x as [h|c]; auto. rewrite IH. destruct (walk m B c) as [deep|] eqn:W; auto. cbn [rmap]. do 2 f_equal. rewrite map_map. apply map_ext_in.
    intros (p, y) I. unfold label. cbn [fst snd]. f_equal. assert (N := walk_nonempty _ _ _ _ W _ I). cbn [fst] in N. destruct p as [|k p]; [congruence|].
    change (path_name (n :: k :: p)) with (n ++ "/" ++ path_name (k :: p))%string. destruct path as [q|]; cbn [under]; auto.
    rewrite !append_assoc'. auto. }
  rewrite D. destruct (match x with EBook c => walk m B c | EHist _ => Ok [] end) as [deep|]; cbn [rmap bind]; auto.
  rewrite IHl. destruct (walk_items m B l) as [rest|]; cbn [rmap bind]; auto. f_equal. unfold pick. rewrite map_app, filter_app. cbn [map filter app].
  rewrite app_assoc. f_equal. unfold label at 2. cbn [fst snd path_name]. destruct (negb oh || is_hist x); auto.
Qed.
Lemma items_walk limit oh B b : items limit true oh B b = rmap (fun l => pick oh (map (fun px => (path_name (fst px), snd px)) l)) (walk limit B b).
Proof. unfold items. rewrite iteritems_walk. reflexivity. Qed.
Lemma items_flat limit oh B b : items limit false oh B b = match limit with O => Err RecursionError | S _ =>
  match content_of B b with None => Err NameError | Some l => Ok (pick oh l) end end.
Proof.
  unfold items. destruct limit as [|m]; auto. rewrite iteritems_S. destruct (content_of B b) as [l|]; auto.
  induction l as [|(n, x) l IH]; auto. cbn [iter_items]. fold (iter_items m false oh B None). rewrite IH. destruct x; cbn [bind]; unfold pick; cbn [filter snd under].
  - rewrite orb_true_r. auto.
  - destruct (negb oh || is_hist (EBook b0)); auto.
Qed.

(** *** The walk lists the entries *)
Lemma sorted_app {A} (R : A -> A -> Prop) l m : StronglySorted R l -> StronglySorted R m -> (forall a c, In a l -> In c m -> R a c) -> StronglySorted R (l ++ m).
Proof.
  intros Sl Sm H. induction Sl as [|a l Sl IH F]; cbn [app]; auto. constructor.
  - apply IH. intros. apply H; auto. right. auto.
  - apply Forall_app. split; auto. apply Forall_forall. intros. apply H; auto. left. auto.
Qed.
Lemma sorted_map {A C} (R : A -> A -> Prop) (Q : C -> C -> Prop) (f : A -> C) l :
  (forall a b, In a l -> In b l -> R a b -> Q (f a) (f b)) -> StronglySorted R l -> StronglySorted Q (map f l).
Proof.
  intros H Sl. induction Sl as [|a l Sl IH F]; cbn [map]; constructor.
  - apply IH. intros; apply H; auto; right; auto.
  - apply Forall_forall. intros y I. apply in_map_iff in I. destruct I as (x & <- & I). rewrite Forall_forall in F. apply H; auto; [left|right]; auto.
Qed.
Lemma walk_lists m : forall B b L, keys_ok B -> walk m B b = Ok L -> lists B b L.
Proof.
  induction m as [|m IH]; intros B b L K; [discriminate|]. rewrite walk_S. destruct (content_of B b) as [l|] eqn:Ec; [|discriminate].
  destruct (K _ _ Ec) as (Nd & _).
  assert (G : forall l0 pre, l = pre ++ l0 -> forall L0, walk_items m B l0 = Ok L0 ->
     (forall p x, In (p, x) L0 <-> exists k t y, p = k :: t /\ In (k, y) l0 /\ follow B y t = Some x) /\
     StronglySorted (fun a c => fst a <> fst c /\ storage_order B b (fst a) (fst c)) L0).
  { intros l0. induction l0 as [|(n, x) l0 IHl]; intros pre Epre L0; cbn [walk_items].
    - intros E. inversion E. split; [|constructor]. intros p x. split; [intros []|]. intros (k & t & y & _ & [] & _).
    - fold (walk_items m B). destruct (match x with EBook c => walk m B c | EHist _ => Ok [] end) as [deep|] eqn:W; cbn [bind]; [|discriminate].
      destruct (walk_items m B l0) as [rest|] eqn:R; cbn [bind]; [|discriminate]. intros E. inversion E; subst L0. clear E.
      destruct (IHl (pre ++ [(n, x)])) with (L0 := rest) as (I1 & I2); [rewrite <- app_assoc; auto|auto|].
      assert (Deep : (forall p y, In (p, y) deep <-> p <> [] /\ follow B x p = Some y) /\
                     StronglySorted (fun a c => (n :: fst a) <> (n :: fst c) /\ storage_order B b (n :: fst a) (n :: fst c)) deep).
      { destruct x as [h|c].
        - inversion W. split; [|constructor]. intros p y. split; [intros []|]. intros (Np & F). destruct p; [congruence|discriminate].
        - destruct (IH B c deep K W) as (D1 & D2). split; auto.
          rewrite <- (map_id deep). eapply sorted_map; [|exact D2]. intros (p, y) (q, z) _ _ (Np & So). cbn [fst] in *. split; [congruence|].
          assert (A1 : at_path B b [n] = Some (EBook c)).
          { rewrite at_path_cons. unfold look. rewrite Ec. rewrite (in_dget n l (EBook c)); auto. subst l. apply in_or_app. right. left. auto. }
          destruct So as [(k & t & ->)|(cc & k & t & k' & t' & d & o & -> & -> & Ad & Eo & Cb)].
          + left. exists k, t. auto.
          + right. exists (n :: cc), k, t, k', t', d, o. repeat split; auto.
            change (n :: cc) with ([n] ++ cc). rewrite at_path_app, A1. auto. }
      destruct Deep as (D1 & D2).
      assert (M : forall p y, In (p, y) ((([n], x) :: map (fun px => (n :: fst px, snd px)) deep) ++ rest) <->
                  (exists t, p = n :: t /\ follow B x t = Some y) \/ (exists k t z, p = k :: t /\ In (k, z) l0 /\ follow B z t = Some y)).
      { intros p y. rewrite in_app_iff. rewrite I1. cbn [In]. rewrite in_map_iff. split.
        - intros [[H|((q, z) & H & I)]|H]; [inversion H; left; exists []; auto| |auto].
          cbn [fst snd] in H. inversion H; subst. apply D1 in I. left. exists q. tauto.
        - intros [(t & -> & F)|H]; [left|auto]. destruct t as [|a t]; [cbn in F; inversion F; auto|right].
          exists (a :: t, y). split; auto. apply D1. split; [discriminate|auto]. }
      split.
      { intros p y. rewrite M. split.
        - intros [(t & -> & F)|(k & t & z & -> & I & F)]; [exists n, t, x|exists k, t, z]; split; auto; split; auto; [left|right]; auto.
        - intros (k & t & z & -> & [I|I] & F); [inversion I; subst; left; eauto|right; eauto 6]. }
      rewrite app_comm_cons. apply sorted_app; auto.
      { constructor.
        - eapply sorted_map; [|exact D2]. cbn [fst]. auto.
        - apply Forall_forall. intros (q, z) I. apply in_map_iff in I. destruct I as ((p, y) & H & I). cbn [fst snd] in *. inversion H; subst.
          assert (Np : p <> []) by (apply D1 in I; tauto). destruct p as [|a p]; [congruence|]. split; [congruence|]. left. exists a, p. auto. }
      { intros (p, y) (q, z) Ip Iq. cbn [fst].
        assert (exists t, p = n :: t) as (t & ->).
        { cbn [In] in Ip. rewrite in_map_iff in Ip. destruct Ip as [Ip|((u, w) & H & _)]; [inversion Ip; eauto|]. cbn [fst] in H. inversion H. eauto. }
        apply I1 in Iq. destruct Iq as (k & t' & w & -> & I & _).
        assert (n <> k).
        { intros ->. subst l. rewrite map_app in Nd. cbn [map fst] in Nd. apply NoDup_remove_2 in Nd. apply Nd. apply in_or_app. right. apply (in_map fst) in I. auto. }
        split; [congruence|]. right. destruct (nth_error B b) as [o|] eqn:Eo; [|unfold content_of in Ec; rewrite Eo in Ec; discriminate].
        exists [], n, t, k, t', b, o. repeat split; auto. assert (b_content o = l) as -> by (unfold content_of in Ec; rewrite Eo in Ec; inversion Ec; auto).
        rewrite Epre. clear - I. induction pre as [|e pre IHp]; cbn [app]; [|apply before_later; auto]. apply before_here. apply (in_map fst) in I. auto. } }
  intros W. destruct (G l [] eq_refl L W) as (G1 & G2). split; auto. intros p x. rewrite G1. split.
  - intros (k & t & y & -> & I & F). split; [discriminate|]. rewrite at_path_cons. unfold look. rewrite Ec, (in_dget _ _ _ Nd I). auto.
  - intros (Np & A). destruct p as [|k t]; [congruence|]. rewrite at_path_cons in A. unfold look in A. rewrite Ec in A.
    destruct (dget k l) as [y|] eqn:D; [|discriminate]. apply dget_in in D. exists k, t, y. auto.
Qed.

(** *** It ends if nothing is shared *)
Lemma walk_mono m : forall m' B b L, m <= m' -> walk m B b = Ok L -> walk m' B b = Ok L.
Proof.
  induction m as [|m IH]; intros m' B b L Lm; [discriminate|]. destruct m' as [|m']; [lia|]. rewrite !walk_S.
  destruct (content_of B b) as [l|]; auto. revert L. induction l as [|(n, x) l IHl]; intros L; cbn [walk_items]; auto.
  fold (walk_items m B). fold (walk_items m' B).
  destruct (match x with EBook c => walk m B c | EHist _ => Ok [] end) as [deep|] eqn:W; cbn [bind]; [|discriminate].
  assert (match x with EBook c => walk m' B c | EHist _ => Ok [] end = Ok deep) as ->.
  { destruct x as [h|c]; auto. apply IH; auto. lia. }
  cbn [bind]. destruct (walk_items m B l) as [rest|] eqn:R; cbn [bind]; [|discriminate]. rewrite (IHl rest eq_refl). auto.
Qed.
(** The books on the way from [b] to [c] along [p]. *)
Lemma walk_ends : forall fuel seen B b0 p b, valid B -> keys_ok B -> unshared B b0 -> b0 < length B -> at_path B b0 p = Some (EBook b) ->
  NoDup seen -> (forall j, In j seen -> j < length B /\ exists q, prefix q p /\ q <> p /\ at_path B b0 q = Some (EBook j)) ->
  length B <= fuel + length seen -> exists L, walk fuel B b = Ok L.
Proof.
  induction fuel as [|fuel IH]; intros seen B b0 p b Hv K Hu Hb0 Hp Nd Hs Hl;
    assert (Lb : b < length B) by (eapply follow_valid with (x := EBook b0); eauto);
    assert (Nb : ~ In b seen) by (intros I; destruct (Hs b I) as (_ & q & _ & N & A); apply N; eapply Hu; eauto).
  - exfalso. assert (incl (b :: seen) (seq 0 (length B))).
    { intros j [<-|I]; apply in_seq; [|destruct (Hs j I)]; lia. }
    apply NoDup_incl_length in H; [|constructor; auto]. cbn [length] in H. rewrite seq_length in H. lia.
  - rewrite walk_S. destruct (proj1 (content_some B b) Lb) as (l & El). rewrite El.
    assert (G : forall l0, (forall k x, In (k, x) l0 -> exists k', look B b k' = Some x) -> exists L, walk_items fuel B l0 = Ok L).
    { induction l0 as [|(n, x) l0 IHl]; intros H; cbn [walk_items]; eauto. fold (walk_items fuel B).
      destruct IHl as (rest & ->); [intros k0 x0 I; apply (H k0); right; auto|].
      assert (exists deep, match x with EBook c => walk fuel B c | EHist _ => Ok [] end = Ok deep) as (deep & ->); [|cbn [bind]; eauto].
      destruct x as [h|c]; eauto. destruct (H n (EBook c) (or_introl eq_refl)) as (k' & Lk).
      apply (IH (b :: seen) B b0 (p ++ [k']) c); auto.
      - rewrite at_path_app, Hp, follow_cons, Lk. auto.
      - constructor; auto.
      - assert (Np : p <> p ++ [k']) by (intros E; apply (f_equal (@length _)) in E; rewrite app_length in E; cbn in E; lia).
        intros j [<-|I].
        + split; auto. exists p. split; [apply prefix_app|auto].
        + destruct (Hs j I) as (Lj & q & (t & Pq) & Nq & Aq). split; auto. exists q. split; [|split; auto].
          * exists (t ++ [k']). rewrite app_assoc, <- Pq. auto.
          * intros E. apply (f_equal (@length _)) in E. rewrite Pq, !app_length in E. cbn in E. lia.
      - cbn [length]. lia. }
    destruct (G l) as (L & ->); eauto. intros k x I.
    exists k. unfold look. rewrite El. apply in_dget; auto. apply (K _ _ El).
Qed.
Lemma walk_total B b limit : valid B -> keys_ok B -> unshared B b -> b < length B -> length B <= limit -> exists L, walk limit B b = Ok L.
Proof.
  intros Hv K Hu Hb Hl. apply (walk_ends limit [] B b [] b); auto.
  - constructor.
  - intros j [].
  - cbn [length]. lia.
Qed.

(** ** Nothing shared before, nothing shared afterwards *)
Lemma components_join a r : components (a ++ String "/" r) = components a ++ components r.
Proof.
  induction a as [|c a IH]; [reflexivity|]. cbn [append components]. rewrite IH.
  destruct (Ascii.eqb c "/"); auto. destruct (components_cons a) as (k & t & ->). auto.
Qed.
Lemma prefix_dec (p q : list string) : {prefix p q} + {~ prefix p q}.
Proof.
  destruct (list_eq_dec string_dec (firstn (length p) q) p) as [E|E].
  - left. exists (skipn (length p) q). rewrite <- E at 1. rewrite firstn_skipn. auto.
  - right. intros (t & ->). apply E. rewrite firstn_app, Nat.sub_diag, firstn_all. cbn [firstn]. apply app_nil_r.
Qed.
Lemma same_prefix (p q t u : list string) : p ++ t = q ++ u -> length p = length q -> p = q.
Proof.
  revert q. induction p as [|a p IH]; intros [|b q] E L; cbn in *; try lia; auto. inversion E; subst. f_equal. apply IH; auto.
Qed.
(** Books below [v] that are not below [b] keep their contents. *)
Lemma apart_follow B B' b i d k rest v : at_path B b d = Some (EBook i) -> placed B B' i k rest v -> valid B -> exists_in B v ->
  (forall p q c, at_path B b p = Some (EBook c) -> follow B v q <> Some (EBook c)) ->
  forall q, follow B' v q = follow B v q.
Proof.
  intros Hi P Hv Ev Ap q. assert (Oth := pl_other _ _ _ _ _ _ P).
  assert (G : forall q p x, follow B v p = Some x -> follow B' x q = follow B x q).
  { clear q. induction q as [|k0 q IH]; intros p x Ex; auto. rewrite !follow_cons. destruct x as [h|j]; auto.
    assert (Lj : j < length B) by (eapply (follow_valid B) with (x := v); eauto).
    assert (L : look B' j k0 = look B j k0).
    { unfold look. rewrite Oth; auto. intros ->. eapply Ap; eauto. }
    rewrite L. destruct (look B j k0) as [y|] eqn:E; auto. apply (IH (p ++ [k0])). rewrite follow_app, Ex, follow_cons, E. auto. }
  apply (G q [] v). auto.
Qed.
Lemma placed_unshared B B' b i d k rest v : unshared B b -> at_path B b d = Some (EBook i) -> placed B B' i k rest v -> valid B -> b < length B ->
  exists_in B v -> (forall c, v = EBook c -> unshared B c) ->
  (forall p q c, at_path B b p = Some (EBook c) -> follow B v q <> Some (EBook c)) ->
  unshared B' b.
Proof.
  intros Hu Hi P Hv Hb Ev Uv Ap.
  assert (F := apart_follow B B' b i d k rest v Hi P Hv Ev Ap).
  set (N := d ++ k :: rest).
  (* where a path of B' leads *)
  assert (Cls : forall p c, at_path B' b p = Some (EBook c) ->
     (exists t, p = N ++ t /\ follow B v t = Some (EBook c)) \/
     (at_path B b p = Some (EBook c)) \/
     (exists t, t <> [] /\ N = p ++ t /\ length d < length p /\ c = length B + (length p - S (length d)))).
  { intros p c A. destruct (prefix_dec N p) as [(t & ->)|N1].
    - left. exists t. split; auto. unfold N in A. rewrite (placed_at_all B B' b i d k rest v) in A by auto. rewrite <- F. auto.
    - right. destruct (prefix_dec p N) as [(t & Et)|N2].
      + assert (Ht : t <> []) by (intros ->; apply N1; exists []; rewrite app_nil_r in *; auto).
        assert (Ab := placed_above B B' b i d k rest v Hu Hi P Hv Hb p t Ht Et). destruct (at_path B b p) as [x|] eqn:Ep.
        * left. destruct Ab as (Ab & _). congruence.
        * right. exists t. split; auto. split; auto.
          (* inside the new chain *)
          destruct (pl_here _ _ _ _ _ _ P) as (l & E1 & Ed & E2).
          assert (Ld : length d < length p).
          { destruct (Nat.lt_ge_cases (length d) (length p)) as [?|Ge]; auto. exfalso.
            assert (Q : prefix p d).
            { exists (skipn (length p) d). rewrite <- (firstn_skipn (length p) d) at 1. f_equal.
              apply (same_prefix _ _ (skipn (length p) d ++ k :: rest) t); [|rewrite firstn_length; lia].
              rewrite app_assoc, firstn_skipn. auto. }
            destruct Q as (u & Q). rewrite Q, at_path_app, Ep in Hi. discriminate. }
          split; auto.
          assert (exists m, p = d ++ k :: firstn m rest /\ m < length rest /\ m = length p - S (length d)) as (m & Ep' & Lm & Em).
          { exists (length p - S (length d)). unfold N in Et. assert (Fn : firstn (length p) (d ++ k :: rest) = p) by (rewrite Et, firstn_app, Nat.sub_diag, firstn_all; cbn; apply app_nil_r).
            rewrite firstn_app, firstn_all2 in Fn by lia. replace (length p - length d) with (S (length p - S (length d))) in Fn by lia. cbn [firstn] in Fn.
            split; [auto|]. apply (f_equal (@length _)) in Et. rewrite !app_length in Et. cbn [length] in Et. destruct t; [congruence|]. cbn [length] in Et. lia. }
          assert (R : rest <> []) by (destruct rest; [cbn in Lm; lia|discriminate]).
          rewrite <- Em. rewrite Ep' in A. replace (d ++ k :: firstn m rest) with ((d ++ [k]) ++ firstn m rest ++ []) in A by (rewrite <- app_assoc, app_nil_r; auto).
          rewrite (below_here B B' b i d k) in A; auto.
          2:{ apply (pl_other _ _ _ _ _ _ P). }
          2:{ intros k' Nk. eapply placed_other; eauto. }
          unfold look in A. rewrite E2, dget_dset, String.eqb_refl in A. destruct rest as [|r rest'] eqn:Er; [congruence|]. rewrite <- Er in *.
          rewrite (chain B B' i k rest v P) in A by (auto; lia). replace (Nat.eqb m (length rest)) with false in A by (symmetry; apply Nat.eqb_neq; lia).
          cbn in A. inversion A. auto.
      + left. rewrite <- A. symmetry. apply (placed_unrelated B B' b i d k rest v); auto. split; auto. }
  assert (Vold : forall p c, at_path B b p = Some (EBook c) -> c < length B).
  { intros p c A. eapply (follow_valid B) with (x := EBook b); eauto. }
  assert (Vv : forall p c, follow B v p = Some (EBook c) -> c < length B).
  { intros p c A. eapply (follow_valid B) with (x := v); eauto. }
  intros p q c Ap1 Aq1.
  destruct (Cls p c Ap1) as [(t & -> & A1)|[A1|(t & Ht & En & Lp & Ec)]];
  destruct (Cls q c Aq1) as [(t' & -> & A2)|[A2|(t' & Ht' & En' & Lp' & Ec')]]; auto.
  - f_equal. destruct v as [h|w].
    + destruct t; cbn in A1; discriminate.
    + eapply (Uv w eq_refl); eauto.
  - exfalso. eapply Ap; eauto.
  - exfalso. specialize (Vv _ _ A1). lia.
  - exfalso. eapply Ap; eauto.
  - eapply Hu; eauto.
  - exfalso. specialize (Vold _ _ A1). lia.
  - exfalso. specialize (Vv _ _ A2). lia.
  - exfalso. specialize (Vold _ _ A2). lia.
  - apply (same_prefix p q t t'); [congruence|lia].
Qed.
Lemma removed_unshared B B' b i d k : unshared B b -> at_path B b d = Some (EBook i) -> removed B B' i k -> valid B -> keys_ok B -> b < length B ->
  unshared B' b.
Proof.
  intros Hu Hi R Hv K Hb p q c.
  assert (G : forall p, at_path B' b p = Some (EBook c) -> at_path B b p = Some (EBook c)).
  { clear p q. intros p A. destruct (prefix_dec (d ++ [k]) p) as [(t & ->)|N].
    - rewrite (removed_here B B' b i d k) in A by auto. discriminate.
    - rewrite (removed_elsewhere B B' b i d k) in A by auto. auto. }
  intros A1 A2. eapply Hu; eauto.
Qed.
