(** Definitions are substitutions: proofs for C55. *)
From Coq Require Import String.
From Verif Require Import Num Base Tree Order Expr ExprFacts.
Local Open Scope list_scope.

(** The written expression with the definitions put in place of the names they define. *)
Fixpoint substitute (D : string -> option src) (s : src) : src :=
  match s with
  | XLit c => XLit c
  | XSet l => XSet (map (substitute D) l)
  | XName n => match D n with Some d => d | None => XName n end
  | XCmp l r => XCmp (substitute D l) (map (fun p => (fst p, substitute D (snd p))) r)
  | XNot a => XNot (substitute D a)
  | XAnd l => XAnd (map (substitute D) l)
  | XOr l => XOr (map (substitute D) l)
  | XNeg a => XNeg (substitute D a)
  | XPos a => XPos (substitute D a)
  | XBin o a b => XBin o (substitute D a) (substitute D b)
  | XCall f l => XCall f (map (substitute D) l)
  end.

Section Defs.
  Variable srt : list expr -> list expr.
  Notation parse := (parse srt).
  Notation none := (fun _ : string => @None expr).

  Lemma parse_weaken s : forall defs e, parse defs false s = Ok e -> parse defs true s = Ok e.
  Proof. destruct s; simpl; intros defs e H; auto; discriminate H. Qed.

  Variable D : string -> option src.
  Variable defs : string -> option expr.
  Hypothesis parsed : forall n, match D n with Some d => exists e, parse none true d = Ok e /\ defs n = Some e | None => defs n = None end.

  Lemma parse_substitute s : forall rel e, parse none rel (substitute D s) = Ok e -> parse defs rel s = Ok e.
  Proof.
    induction s as [c|l IH|s|l r IHl IHr|a IH|l IH|l IH|a IH|a IH|o a b IHa IHb|f l IH] using src_ind'; intros rel e H; simpl in H |- *; auto.
    - apply bind_ok_iff in H as (es & H1 & H2). apply bind_ok_iff. exists es. split; auto. clear H2. revert es H1.
      induction IH as [|x l Hx Hl IHl]; intros es H1; simpl in *; auto.
      apply bind_ok_iff in H1 as (y & Y & H1). apply bind_ok_iff in H1 as (ys & YS & H1). rewrite (Hx _ _ Y). cbn [bind]. rewrite (IHl _ YS). auto.
    - pose proof (parsed s) as P. destruct (D s) as [d|].
      + destruct P as (e' & P & ->). assert (parse none true d = Ok e) by (destruct rel; [auto|apply parse_weaken; auto]). congruence.
      + rewrite P. auto.
    - destruct rel; [|discriminate]. apply bind_ok_iff in H as (x & X & H). rewrite (IHl _ _ X). cbn [bind].
      apply bind_ok_iff in H as (es & H1 & H2). apply bind_ok_iff. exists es. split; auto. clear H2. revert es H1.
      induction r as [|[c x'] r IH]; intros es H1; simpl in *; auto. inversion IHr as [|? ? Hx Hr]; subst.
      apply bind_ok_iff in H1 as (y & Y & H1). apply bind_ok_iff in H1 as (ys & YS & H1). rewrite (Hx _ _ Y). cbn [bind]. rewrite (IH Hr _ YS). auto.
    - destruct rel; [|discriminate]. apply bind_ok_iff in H as (x & X & H). rewrite (IH _ _ X). auto.
    - destruct rel; [|discriminate]. apply bind_ok_iff in H as (es & H1 & H2). apply bind_ok_iff. exists es. split; auto. clear H2. revert es H1.
      induction IH as [|x l Hx Hl IHl]; intros es H1; simpl in *; auto.
      apply bind_ok_iff in H1 as (y & Y & H1). apply bind_ok_iff in H1 as (ys & YS & H1). rewrite (Hx _ _ Y). cbn [bind]. rewrite (IHl _ YS). auto.
    - destruct rel; [|discriminate]. apply bind_ok_iff in H as (es & H1 & H2). apply bind_ok_iff. exists es. split; auto. clear H2. revert es H1.
      induction IH as [|x l Hx Hl IHl]; intros es H1; simpl in *; auto.
      apply bind_ok_iff in H1 as (y & Y & H1). apply bind_ok_iff in H1 as (ys & YS & H1). rewrite (Hx _ _ Y). cbn [bind]. rewrite (IHl _ YS). auto.
    - apply bind_ok_iff in H as (x & X & H). rewrite (IH _ _ X). auto.
    - apply bind_ok_iff in H as (x & X & H). apply bind_ok_iff in H as (y & Y & H). rewrite (IHa _ _ X), (IHb _ _ Y). auto.
    - apply bind_ok_iff in H as (es & H1 & H2). apply bind_ok_iff. exists es. split; auto. clear H2. revert es H1. generalize (String.eqb f "where").
      induction IH as [|x l Hx Hl IHl]; intros b es H1; simpl in *; auto.
      apply bind_ok_iff in H1 as (y & Y & H1). apply bind_ok_iff in H1 as (ys & YS & H1). rewrite (Hx _ _ Y). cbn [bind]. rewrite (IHl _ _ YS). auto.
  Qed.
End Defs.
