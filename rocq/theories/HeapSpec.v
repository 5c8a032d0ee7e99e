(** What programs over histogram variables should do if every histogram had its own content, and
    which operations touch shared arrays. *)
From Coq Require Import String.
From Verif Require Import Base Num Axis Calc Content Fill HistAlg Heap.
Local Open Scope list_scope.

(** ** Histograms as values: an operation changes only the histogram it is called on. *)
Definition on (vals : list hobj) (i : nat) (f : hobj -> hobj * option err) : list hobj * option err :=
  match nth_error vals i with
  | None => (vals, Some NameError)
  | Some h => let '(h', e) := f h in (set_nth vals i h', e)
  end.
Definition new (vals : list hobj) (r : res hobj) : list hobj * option err :=
  match r with Ok h => (vals ++ [h], None) | Err e => (vals, Some e) end.
Definition get_var (vals : list hobj) (i : nat) : res hobj :=
  match nth_error vals i with Some h => Ok h | None => Err NameError end.
(** the content without the groups whose key at group axis [p] is not kept *)
Fixpoint keep_groups (p : nat) (b : gkey -> bool) (c : content) : content :=
  match c with
  | CDict l => match p with
               | 0 => CDict (filter (fun kv => b (fst kv)) l)
               | S p' => CDict (map (fun kv => (fst kv, keep_groups p' b (snd kv))) l)
               end
  | _ => c
  end.
Definition value_step (vals : list hobj) (o : op) : list hobj * option err :=
  match o with
  | OFill i f => on vals i (fun h => let '(c, e) := f (o_content h) in (with_content h c, e))
  | OIAdd i j => match get_var vals j with
                 | Err e => (vals, Some e)
                 | Ok g => on vals i (fun h => hist_iadd h g)
                 end
  | OIMul i v => on vals i (fun h => hist_imul h v)
  | OClear i => on vals i (fun h => (hist_clear h, None))
  | OCopy i => new vals (rmap hist_copy (get_var vals i))
  | OCopyOnFill i => new vals (rmap hist_copy (get_var vals i))
  | OCleared i => new vals (rmap hist_cleared (get_var vals i))
  | OAdd i j => new vals (do h <- get_var vals i; do g <- get_var vals j; hist_add h g)
  | OMul i v => new vals (do h <- get_var vals i; hist_mul h v)
  | OGroup by_ hs => new vals (do l <- mapM (fun ni => do h <- get_var vals (snd ni); Ok (fst ni, h)) hs; group_hists by_ l)
  | OPart i f => on vals i (fun h => let '(c, e) := f (o_content h) in (with_content h c, e))
  | ODerive i f => new vals (do h <- get_var vals i; f h)
  | OSelGroup i p b => new vals (do h <- get_var vals i;
                                 if Nat.ltb p (ngroups h) then Ok (with_content h (keep_groups p b (o_content h))) else Err ValueError)
  end.
Fixpoint value_run (vals : list hobj) (os : list op) : list hobj * list (option err) :=
  match os with
  | [] => (vals, [])
  | o :: t => let '(v1, e) := value_step vals o in let '(v2, es) := value_run v1 t in (v2, e :: es)
  end.

(** ** What a fill may do: existing groups stay, in their order; new ones are added at the end. *)
Inductive extends : content -> content -> Prop :=
| ext_none c : extends CNone c
| ext_arr d d' : extends (CArr d) (CArr d')
| ext_dict l l1 l2 : Forall2 (fun a b => fst a = fst b /\ extends (snd a) (snd b)) l l1 -> extends (CDict l) (CDict (l1 ++ l2)).
(** at most [n] levels of dicts *)
Fixpoint depth_ok (n : nat) (c : content) : Prop :=
  match c with
  | CDict l => match n with O => False | S m => Forall (fun kv => depth_ok m (snd kv)) l end
  | _ => True
  end.
Definition is_filler (n : nat) (f : filler) : Prop :=
  forall c, depth_ok n c -> extends c (fst (f c)) /\ depth_ok n (fst (f c)).

(** What a function that derives a histogram may do: the axes of the result are in order, and its content
    has no more levels than it has group axes. *)
Definition well_made (h : hobj) : Prop :=
  (Forall (fun a => is_group a = true) (o_group h) /\ Forall (fun a => is_fixed a = true) (o_fixed h) /\
   Forall (fun a => is_profile a = true) (o_prof h)) /\
  depth_ok (ngroups h) (o_content h).
Definition is_deriver (f : hobj -> res hobj) : Prop := forall h g, well_made h -> f h = Ok g -> well_made g.

(** ** Sharing *)
(** What is known about each variable besides its value: whether the next fill copies first, and its
    sharing class.  Variables of different classes share no array and no dict; [None] is the class of
    those that h + g connected for good. *)
Record ghost : Type := { g_flags : list bool; g_classes : list (option nat) }.
Definition no_class (classes : list (option nat)) : nat :=
  S (fold_right (fun c m => match c with Some k => Nat.max k m | None => m end) 0 classes).
(** No other variable shares with variable [i]. *)
Definition alone (g : ghost) (i : nat) : Prop :=
  exists k, nth_error (g_classes g) i = Some (Some k) /\
    forall j, j <> i -> nth_error (g_classes g) j <> Some (Some k).
Definition unfilled (vals : list hobj) (i : nat) : Prop :=
  match nth_error vals i with Some h => o_content h = CNone | None => True end.

(** The groups of the two contents are the same, level by level. *)
Fixpoint same_groups (a b : content) {struct a} : bool :=
  match a, b with
  | CDict l, CDict m =>
      forallb (fun kv => has_key (fst kv) l) m &&
      eq_items same_groups m l
  | _, _ => true
  end.

(** The operation changes no array that another variable shares.  (An operation on a variable that
    does not exist does nothing.) *)
Definition allowed (vals : list hobj) (g : ghost) (o : op) : Prop :=
  match o with
  | OFill i f => match nth_error vals i with
                 | None => True
                 | Some h => is_filler (ngroups h) f /\ (nth_error (g_flags g) i = Some true \/ unfilled vals i \/ alone g i)
                 end
  | OPart i f => match nth_error vals i with
                 | None => True
                 | Some h => is_filler (ngroups h) f /\ (unfilled vals i \/ alone g i)
                 end
  | OIAdd i _ | OIMul i _ => i < length vals -> unfilled vals i \/ alone g i
  | ODerive _ f => is_deriver f
  | _ => True
  end.

Definition merge (classes : list (option nat)) (a b : option (option nat)) : list (option nat) :=
  map (fun c => match c with
                | Some k => if match a with Some (Some k') => Nat.eqb k k' | _ => false end ||
                               match b with Some (Some k') => Nat.eqb k k' | _ => false end
                            then None else Some k
                | None => None
                end) classes.
Definition ghost_step (vals : list hobj) (g : ghost) (o : op) : ghost :=
  let fresh := Some (no_class (g_classes g)) in
  let created flag class := if match snd (value_step vals o) with None => true | Some _ => false end
                            then {| g_flags := g_flags g ++ [flag]; g_classes := g_classes g ++ [class] |} else g in
  let flag i := nth i (g_flags g) false in
  match o with
  | OFill i _ => {| g_flags := set_nth (g_flags g) i false; g_classes := set_nth (g_classes g) i fresh |}
  | OIAdd i _ | OIMul i _ | OClear i | OPart i _ => {| g_flags := g_flags g; g_classes := set_nth (g_classes g) i fresh |}
  | OCopy _ | OCleared _ | OGroup _ _ | ODerive _ _ => created false fresh
  | OSelGroup i _ _ => match snd (value_step vals o) with
                       | None => {| g_flags := g_flags g ++ [false];
                                    g_classes := merge (g_classes g) (nth_error (g_classes g) i) (nth_error (g_classes g) i) ++ [None] |}
                       | Some _ => g
                       end
  | OMul i _ => created (flag i) fresh
  | OCopyOnFill i => created true (nth i (g_classes g) None)
  | OAdd i j =>
    match nth_error vals i, nth_error vals j with
    | Some h, Some k =>
      if same_groups (o_content h) (o_content k) then created (flag i) fresh
      else match snd (value_step vals o) with
           | None => {| g_flags := g_flags g ++ [flag i];
                        g_classes := merge (g_classes g) (nth_error (g_classes g) i) (nth_error (g_classes g) j) ++ [None] |}
           | Some _ => g
           end
    | _, _ => g
    end
  end.

(** A program each of whose operations is allowed when it is reached. *)
Fixpoint allowed_run (vals : list hobj) (g : ghost) (os : list op) : Prop :=
  match os with
  | [] => True
  | o :: t => allowed vals g o /\ allowed_run (fst (value_step vals o)) (ghost_step vals g o) t
  end.

(** ** Simple sufficient conditions *)
(** The program uses no copyonfill(), adds no two histograms with different groups, and selects only
    on fixed axes. *)
Definition separate (vals : list hobj) (o : op) : Prop :=
  match o with
  | OFill i f | OPart i f => match nth_error vals i with Some h => is_filler (ngroups h) f | None => True end
  | OCopyOnFill _ | OSelGroup _ _ _ => False
  | ODerive _ f => is_deriver f
  | OAdd i j => match nth_error vals i, nth_error vals j with
                | Some h, Some k => same_groups (o_content h) (o_content k) = true
                | _, _ => True
                end
  | _ => True
  end.
Fixpoint separate_run (vals : list hobj) (os : list op) : Prop :=
  match os with
  | [] => True
  | o :: t => separate vals o /\ separate_run (fst (value_step vals o)) t
  end.
(** Histograms as the constructor leaves them. *)
Definition fresh_state (hs : list hobj) : state :=
  {| s_heap := []; s_vars := map (fun h => {| v_obj := h; v_ref := RNone; v_flag := false |}) hs |}.
Definition fresh_ghost (hs : list hobj) : ghost :=
  {| g_flags := map (fun _ => false) hs; g_classes := map Some (seq 0 (length hs)) |}.
Definition fresh_hist (h : hobj) : Prop :=
  o_content h = CNone /\
  Forall (fun a => is_group a = true) (o_group h) /\ Forall (fun a => is_fixed a = true) (o_fixed h) /\
  Forall (fun a => is_profile a = true) (o_prof h).
(** What can be seen of a state: the value of every variable. *)
Definition values (s : state) : list hobj := map (var_value (s_heap s)) (s_vars s).

(** ** Parts of programs *)
(** the variable an operation changes in place *)
Definition target (o : op) : option nat :=
  match o with OFill i _ | OIAdd i _ | OIMul i _ | OClear i | OPart i _ => Some i | _ => None end.
Definition leaves (k : nat) (os : list op) : Prop := Forall (fun o => target o <> Some k) os.
Definition value_of (s : state) (k : nat) : option hobj := nth_error (values s) k.
(** Operations that make a new histogram, and operations that change one of the first [n] and read
    only these. *)
Definition creates (o : op) : bool := match target o with None => true | Some _ => false end.
Definition writes_within (hs : list hobj) (o : op) : Prop :=
  match o with
  | OFill i f | OPart i f => exists h, nth_error hs i = Some h /\ is_filler (ngroups h) f
  | OIAdd i j => i < length hs /\ j < length hs
  | OIMul i _ | OClear i => i < length hs
  | _ => False
  end.
(** A program that makes new histograms and changes existing ones, but only the first ones (the
    originals, with values [vals]), from which alone these changes read. *)
Fixpoint derivations (vals : list hobj) (os : list op) : Prop :=
  match os with
  | [] => True
  | o :: t => (creates o = true /\ derivations vals t) \/ (writes_within vals o /\ derivations (fst (value_step vals o)) t)
  end.
