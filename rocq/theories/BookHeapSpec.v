(** Which operations on books change what, and what copies and sums of books should contain. *)
From Coq Require Import String Ascii.
From Verif Require Import Base Num Axis Calc Content Fill HistAlg Heap HeapSpec Glob Book BookSpec BookFill BookHeap.
Local Open Scope list_scope.

(** Operations on histograms that do not make arrays shared: copyonfill() only of unfilled
    histograms, + only of histograms with the same groups, select only on fixed axes. *)
Definition safe_op (vals : list hobj) (o : op) : Prop :=
  match o with
  | OFill i f | OPart i f => match nth_error vals i with Some h => is_filler (ngroups h) f | None => True end
  | OCopyOnFill i => unfilled vals i
  | OSelGroup _ _ _ => False
  | ODerive _ f => is_deriver f
  | OAdd i j => match nth_error vals i, nth_error vals j with
                | Some h, Some k => same_groups (o_content h) (o_content k) = true
                | _, _ => True
                end
  | _ => True
  end.

(** Every name below [y] is a name below [x]; where [x] has a histogram, [y] has a new histogram whose
    value [f] gives from the old one; where [x] has a book, [y] has a new book; and nothing is at two
    places below [y]. *)
Definition derived_from (f : hobj -> res hobj) (vs vs' : list hobj) (B B' : books) (x y : entry) : Prop :=
  (forall p, match follow B x p with
             | None => follow B' y p = None
             | Some (EHist i) => exists k h h', follow B' y p = Some (EHist k) /\ length vs <= k < length vs' /\
                                   nth_error vs i = Some h /\ nth_error vs' k = Some h' /\ f h = Ok h'
             | Some (EBook _) => exists d, follow B' y p = Some (EBook d) /\ length B <= d < length B'
             end) /\
  (forall p q z, follow B' y p = Some z -> follow B' y q = Some z -> p = q).

(** ** Programs that do not make arrays shared *)
Definition hist_value (W : world) (i : nat) : option hobj := value_of (w_hists W) i.
Definition present (W : world) (x : entry) : Prop :=
  match x with EHist i => exists h, hist_value W i = Some h | EBook b => b < length (w_books W) end.
Definition all_unfilled (W : world) (x : entry) : Prop :=
  forall p i h, follow (w_books W) x p = Some (EHist i) -> hist_value W i = Some h -> o_content h = CNone.
Definition safe (W : world) (a : action) : Prop :=
  match a with
  | ASet b name x => present W x
  | ACopyOnFill b => all_unfilled W (EBook b)
  | AAdd a b => forall p i j h k, at_path (w_books W) a p = Some (EHist i) -> at_path (w_books W) b p = Some (EHist j) ->
                  hist_value W i = Some h -> hist_value W j = Some k -> same_groups (o_content h) (o_content k) = true
  | AFill b pre post => forall p i h, at_path (w_books W) b p = Some (EHist i) -> hist_value W i = Some h ->
                  is_filler (ngroups h) (pre i) /\ is_filler (ngroups h) (post i)
  | ASamples samples l => forall n x, In (n, x) l -> present W x /\ all_unfilled W x
  | AHist o => safe_op (HeapSpec.values (w_hists W)) o
  | _ => True
  end.
(** The worlds that such programs lead to, from histograms as the constructor leaves them. *)
Inductive reachable (limit : nat) : world -> Prop :=
| reach_start hs : Forall fresh_hist hs -> reachable limit (start hs)
| reach_act W a : reachable limit W -> safe W a -> reachable limit (fst (act limit W a)).
Fixpoint safe_all (limit : nat) (W : world) (l : list action) : Prop :=
  match l with
  | [] => True
  | a :: t => safe W a /\ safe_all limit (fst (act limit W a)) t
  end.

(** ** What a program uses *)
(** What an action is given to change or to store: not the books it only copies, and not the
    histograms it only reads. *)
Definition uses (a : action) : list entry :=
  match a with
  | ANew | ACopy _ | ACopyOnFill _ | ACleared _ | AMul _ _ => []
  | ASet b _ x => [EBook b; x]
  | ADel b _ | AIMul b _ | AClear b | AFill b _ _ | AView b _ => [EBook b]
  | AAdd a b | AIAdd a b => [EBook a; EBook b]
  | ASamples _ l => map snd l
  | AHist o => match target o with Some i => [EHist i] | None => [] end
  end.
Definition is_new (W : world) (x : entry) : Prop :=
  match x with EHist i => hist_value W i = None | EBook b => length (w_books W) <= b end.
Definition below (B : books) (y x : entry) : Prop := exists p, follow B y p = Some x.
(** The program uses only [y], what is below it, and what it makes itself. *)
Definition works_on (W : world) (y : entry) (l : list action) : Prop :=
  Forall (fun a => forall x, In x (uses a) -> below (w_books W) y x \/ is_new W x) l.
(** The program, run in [W'], uses only what there was in [W] already, and what it makes itself. *)
Definition works_on_old (W W' : world) (l : list action) : Prop :=
  Forall (fun a => forall x, In x (uses a) -> present W x \/ is_new W' x) l.
(** Below [x] there are the same things with the same values. *)
Definition unchanged (W W' : world) (x : entry) : Prop :=
  forall p, follow (w_books W') x p = follow (w_books W) x p /\
    forall i, follow (w_books W) x p = Some (EHist i) -> hist_value W' i = hist_value W i.

(** ** += *)
Definition same_value (W W' : world) (z : entry) : Prop := match z with EHist i => hist_value W' i = hist_value W i | EBook _ => True end.
(** [x] after [x += y]: where both have a histogram, the same histogram, with the other added in
    place; where both have a book, the same book; where only one of them has an entry, this entry. *)
Definition merged (W W' : world) (x y : entry) : Prop :=
  forall p, match follow (w_books W) x p, follow (w_books W) y p with
  | Some (EHist i), Some (EHist j) => follow (w_books W') x p = Some (EHist i) /\
      exists h k h', hist_value W i = Some h /\ hist_value W j = Some k /\ hist_iadd h k = (h', None) /\ hist_value W' i = Some h'
  | Some (EBook c), Some (EBook d) => follow (w_books W') x p = Some (EBook c)
  | Some z, None | None, Some z => follow (w_books W') x p = Some z /\ same_value W W' z
  | None, None => follow (w_books W') x p = None
  | _, _ => False
  end.
(** Nothing is at two places below [x]; nothing is both below [x] and below [y]. *)
Definition tree_like (B : books) (x : entry) : Prop := forall p q z, follow B x p = Some z -> follow B x q = Some z -> p = q.
Definition disjoint (B : books) (x y : entry) : Prop := forall p q z, follow B x p = Some z -> follow B y q = Some z -> False.

(** ** + *)
(** [z] is [x + y]: where both have a histogram, a new histogram with their sum; where both have a
    book, a new book; where only one of them has an entry, this entry. *)
Definition summed (W W' : world) (x y z : entry) : Prop :=
  forall p, match follow (w_books W) x p, follow (w_books W) y p with
  | Some (EHist i), Some (EHist j) => exists k h g s, follow (w_books W') z p = Some (EHist k) /\ is_new W (EHist k) /\
      hist_value W i = Some h /\ hist_value W j = Some g /\ hist_add h g = Ok s /\ hist_value W' k = Some s
  | Some (EBook _), Some (EBook _) => exists d, follow (w_books W') z p = Some (EBook d) /\ is_new W (EBook d)
  | Some e, None | None, Some e => follow (w_books W') z p = Some e
  | None, None => follow (w_books W') z p = None
  | _, _ => False
  end.
(** No name below [y] contains a wildcard character. *)
Definition no_wildcards (B : books) (y : entry) : Prop := forall p k z, follow B y (p ++ [k]) = Some z -> wild k = false.

(** ** Sample books *)
(** What is at a path in Book(l). *)
Definition given (W : world) (l : list (string * entry)) (p : list string) : option entry :=
  match p with [] => None | n :: p => match dget n l with Some x => follow (w_books W) x p | None => None end end.
(** Distinct names without slashes. *)
Definition plain_names (l : list string) : Prop := NoDup l /\ forall k, In k l -> ~ In "/"%char (list_ascii_of_string k).

(** [y] is a copy of book [b]: by copy, cleared, *, or by copyonfill of a book with no filled histogram. *)
Definition copied (limit : nat) (W : world) (b : nat) (W' : world) (y : entry) : Prop :=
  book_copy limit W b = (W', Ok y) \/ book_cleared limit W b = (W', Ok y) \/ (exists v, book_mul limit v W b = (W', Ok y)) \/
  (book_copyonfill limit W b = (W', Ok y) /\ all_unfilled W (EBook b)).
(** Nested less deep than Python's recursion limit. *)
Definition shallow (limit : nat) (B : books) (x : entry) : Prop := forall p c, follow B x p = Some (EBook c) -> length p < limit.
