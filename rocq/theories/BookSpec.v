(** What a path in a book leads to, which entries a book has, and what a shell pattern matches. *)
From Coq Require Import String Ascii Sorted.
From Verif Require Import Base Book.
Local Open Scope string_scope.
Local Open Scope list_scope.

(** ** Paths *)
(** The names between the slashes. *)
Fixpoint components (s : string) : list string :=
  match s with
  | EmptyString => [""]
  | String c s => if Ascii.eqb c "/" then "" :: components s
                  else match components s with
                       | [] => [String c ""]
                       | k :: t => String c k :: t
                       end
  end.
Definition prefix {A} (p q : list A) : Prop := exists t, q = p ++ t.
(** Neither path is at or below the other. *)
Definition unrelated {A} (p q : list A) : Prop := ~ prefix p q /\ ~ prefix q p.

(** From entry [x], follow the names in [p]. *)
Fixpoint follow (B : books) (x : entry) (p : list string) : option entry :=
  match p with
  | [] => Some x
  | k :: p => match x with
              | EHist _ => None
              | EBook b => match nth_error B b with
                           | None => None
                           | Some o => match dget k (b_content o) with
                                       | None => None
                                       | Some y => follow B y p
                                       end
                           end
              end
  end.
(** What is stored at a path of book [b]. *)
Definition at_path (B : books) (b : nat) (p : list string) : option entry := follow B (EBook b) p.

(** No book is stored at two places below [b] (in particular none contains itself). *)
Definition unshared (B : books) (b : nat) : Prop :=
  forall p q c, at_path B b p = Some (EBook c) -> at_path B b q = Some (EBook c) -> p = q.

(** ** Stores that programs can build *)
Definition exists_in (B : books) (x : entry) : Prop := match x with EHist _ => True | EBook c => c < length B end.
Inductive built : books -> Prop :=
| built_none : built []
| built_new B : built B -> built (fst (new_book B))
| built_set B b name v : built B -> exists_in B v -> built (fst (setitem B b name v))
| built_del B limit b name : built B -> built (fst (delitem limit B b name))
| built_cache B b o c : built B -> nth_error B b = Some o ->      (* book b computes its instructions *)
    built (put B b {| b_content := b_content o; b_cache := c |}).

(** ** The entries of a book in storage order *)
(** Of two entries of a book the one whose name was stored first comes first, with everything below
    it; a book comes before what it contains. *)
Inductive comes_before {A} : list (A * entry) -> A -> A -> Prop :=
| before_here k x l k' : In k' (map fst l) -> comes_before ((k, x) :: l) k k'
| before_later kx l k k' : comes_before l k k' -> comes_before (kx :: l) k k'.
Definition storage_order (B : books) (b : nat) (p q : list string) : Prop :=
  (exists k t, q = p ++ k :: t) \/
  (exists c k t k' t' d o, p = c ++ k :: t /\ q = c ++ k' :: t' /\
     at_path B b c = Some (EBook d) /\ nth_error B d = Some o /\ comes_before (b_content o) k k').
(** [l] lists all the entries below [b], each once, in storage order. *)
Definition lists (B : books) (b : nat) (l : list (list string * entry)) : Prop :=
  (forall p x, In (p, x) l <-> p <> [] /\ at_path B b p = Some x) /\
  StronglySorted (fun a c => fst a <> fst c /\ storage_order B b (fst a) (fst c)) l.
Fixpoint path_name (p : list string) : string :=
  match p with
  | [] => ""
  | [k] => k
  | k :: p => k ++ "/" ++ path_name p
  end.

(** ** Shell patterns *)
Definition between (c : ascii) (r : ascii * ascii) : Prop :=
  nat_of_ascii (fst r) <= nat_of_ascii c <= nat_of_ascii (snd r).
(** Characters of a set, single or as ranges x-y. *)
Inductive member (c : ascii) : list ascii -> Prop :=
| member_range x y t : between c (x, y) -> member c (x :: "-"%char :: y :: t)
| member_after_range x y t : member c t -> member c (x :: "-"%char :: y :: t)
| member_here t : (forall y u, t <> "-"%char :: y :: u) -> member c (c :: t)
| member_later x t : (forall y u, t <> "-"%char :: y :: u) -> member c t -> member c (x :: t).
(** [p] is [body] with the closing bracket and the rest after it: the body is not empty and only its
    first character may be a closing bracket. *)
Definition closed_set (p body rest : list ascii) : Prop :=
  p = body ++ "]"%char :: rest /\ exists c t, body = c :: t /\ ~ In "]"%char t.
(** The exclamation mark of [!...] does not count. *)
Definition unclosed (p : list ascii) : Prop :=
  forall body rest, (forall q, p = "!"%char :: q -> ~ closed_set q body rest) /\
                    ((forall q, p <> "!"%char :: q) -> ~ closed_set p body rest).

Inductive glob : list ascii -> list ascii -> Prop :=
| glob_end : glob [] []
| glob_star p s t : glob p t -> glob ("*"%char :: p) (s ++ t)
| glob_any p c t : glob p t -> glob ("?"%char :: p) (c :: t)
| glob_char c p t : c <> "*"%char -> c <> "?"%char -> c <> "["%char -> glob p t -> glob (c :: p) (c :: t)
| glob_bracket p t : unclosed p -> glob p t -> glob ("["%char :: p) ("["%char :: t)
| glob_set body rest p c t : closed_set p body rest -> (forall q, p <> "!"%char :: q) ->
    member c body -> glob rest t -> glob ("["%char :: p) (c :: t)
| glob_not body rest p c t : closed_set p body rest ->
    ~ member c body -> glob rest t -> glob ("["%char :: "!"%char :: p) (c :: t).
Definition matches_pattern (pattern name : string) : Prop :=
  glob (list_ascii_of_string pattern) (list_ascii_of_string name).
