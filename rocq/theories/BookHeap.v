(** Books with the histograms they refer to: copies, arithmetic, fills, sample books and views
    (book.py 424-483, 569-637).
    A histogram of a book is a variable of the state in Heap.v.
    Simplified: attachments are not modelled; the instructions of a book are computed for every fill
    (BookFill.v shows when the stored ones are the same); an iteration over a book that is changed
    meanwhile goes on over its old items. *)
From Coq Require Import String.
From Verif Require Import Base Num Axis Calc Content Fill HistAlg Heap Tree Instr Elem HistFill Glob Book BookFill.
Local Open Scope string_scope.
Local Open Scope list_scope.

Record world : Type := { w_books : books; w_hists : state }.
Definition with_books (W : world) (B : books) : world := {| w_books := B; w_hists := w_hists W |}.
Definition with_hists (W : world) (s : state) : world := {| w_books := w_books W; w_hists := s |}.
Definition content_or (B : books) (b : nat) : option (list (string * entry)) := option_map b_content (nth_error B b).

(** An operation that makes a new histogram. *)
Definition new_hist (W : world) (o : op) : world * res entry :=
  let '(s1, e) := step (w_hists W) o in
  (with_hists W s1, match e with None => Ok (EHist (List.length (s_vars (w_hists W)))) | Some e => Err e end).
Definition new_dict (W : world) (l : list (string * entry)) : world * res entry :=
  let '(B1, r) := fromdicts (w_books W) l in (with_books W B1, rmap EBook r).

(** copy, copyonfill, cleared and __mul__ (book.py 424-441, 472-476): a new book of the same class with the
    result of the same method of every entry. *)
Definition derive_items (f : world -> nat -> world * res entry) (mk : nat -> op) :
  world -> list (string * entry) -> world * res (list (string * entry)) :=
  fix go W l :=
    match l with
    | [] => (W, Ok [])
    | (n, x) :: t =>
      match (match x with EHist i => new_hist W (mk i) | EBook c => f W c end) with
      | (W1, Err e) => (W1, Err e)
      | (W1, Ok y) => match go W1 t with
                      | (W2, Err e) => (W2, Err e)
                      | (W2, Ok t') => (W2, Ok ((n, y) :: t'))
                      end
      end
    end.
Fixpoint derive (limit : nat) (mk : nat -> op) (W : world) (b : nat) : world * res entry :=
  match limit with
  | O => (W, Err RecursionError)
  | S m =>
    match content_or (w_books W) b with
    | None => (W, Err NameError)
    | Some l => match derive_items (derive m mk) mk W l with
                | (W1, Err e) => (W1, Err e)
                | (W1, Ok items) => new_dict W1 items
                end
    end
  end.
Definition book_copy limit := derive limit OCopy.
Definition book_copyonfill limit := derive limit OCopyOnFill.
Definition book_cleared limit := derive limit OCleared.
Definition book_mul limit (v : Num) := derive limit (fun i => OMul i v).

(** __add__ (book.py 443-459) *)
Definition add_items (limit : nat) (f : world -> nat -> nat -> world * res entry) (other : nat) :
  world -> list (string * entry) -> world * res (list (string * entry)) :=
  fix go W l :=
    match l with
    | [] => (W, Ok [])
    | (n, x) :: t =>
      match (match getitem limit (w_books W) other n with       (* if n in other: x + other[n] *)
             | Err KeyError => (W, Ok x)
             | Err e => (W, Err e)
             | Ok (Many _) => (W, Err TypeError)
             | Ok (One y) => match x, y with
                             | EHist i, EHist j => new_hist W (OAdd i j)
                             | EBook c, EBook d => f W c d
                             | _, _ => (W, Err TypeError)
                             end
             end) with
      | (W1, Err e) => (W1, Err e)
      | (W1, Ok y) => match go W1 t with
                      | (W2, Err e) => (W2, Err e)
                      | (W2, Ok t') => (W2, Ok ((n, y) :: t'))
                      end
      end
    end.
(** for n, x in other.iteritems(): if n not in self: content[n] = x *)
Fixpoint missing_items (limit : nat) (B : books) (self : nat) (l : list (string * entry)) : res (list (string * entry)) :=
  match l with
  | [] => Ok []
  | (n, x) :: t => do c <- contains limit B self n;
                   do r <- missing_items limit B self t;
                   Ok (if c then r else (n, x) :: r)
  end.
Fixpoint book_add (limit : nat) (W : world) (a b : nat) : world * res entry :=
  match limit with
  | O => (W, Err RecursionError)
  | S m =>
    match content_or (w_books W) a, content_or (w_books W) b with
    | Some l, Some k =>
      match add_items m (book_add m) b W l with
      | (W1, Err e) => (W1, Err e)
      | (W1, Ok items) =>
        match missing_items m (w_books W1) a k with
        | Err e => (W1, Err e)
        | Ok more => new_dict W1 (items ++ more)
        end
      end
    | _, _ => (W, Err NameError)
    end
  end.

(** __iadd__ (book.py 461-470). A name with wildcard characters gives a list, which += extends by the
    items of the other and which __setitem__ then refuses: TypeError here, though iterating over a
    histogram can raise another exception before. *)
Definition iadd_items (limit : nat) (f : world -> nat -> nat -> world * option err) (self : nat) :
  world -> list (string * entry) -> world * option err :=
  fix go W l :=
    match l with
    | [] => (W, None)
    | (n, x) :: t =>
      match (match getitem limit (w_books W) self n with
             | Err KeyError => let '(B1, e) := setitem (w_books W) self n x in (with_books W B1, e)
             | Err e => (W, Some e)
             | Ok (Many _) => (W, Some TypeError)
             | Ok (One y) =>
               match (match y, x with
                      | EHist i, EHist j => let '(s1, e) := step (w_hists W) (OIAdd i j) in (with_hists W s1, e)
                      | EBook c, EBook d => f W c d
                      | _, _ => (W, Some TypeError)
                      end) with
               | (W1, Some e) => (W1, Some e)
               | (W1, None) => let '(B1, e) := setitem (w_books W1) self n y in (with_books W1 B1, e)
               end
             end) with
      | (W1, Some e) => (W1, Some e)
      | (W1, None) => go W1 t
      end
    end.
Fixpoint book_iadd (limit : nat) (W : world) (a b : nat) : world * option err :=
  match limit with
  | O => (W, Some RecursionError)
  | S m =>
    match content_or (w_books W) b with
    | Some l => iadd_items m (book_iadd m) a W l
    | None => (W, Some NameError)
    end
  end.

(** operations one after another, up to the first error *)
Fixpoint run_until (s : state) (os : list op) : state * option err :=
  match os with
  | [] => (s, None)
  | o :: t => let '(s1, e) := step s o in
              match e with
              | None => run_until s1 t
              | Some e => (s1, Some e)
              end
  end.
Definition on_hists (limit : nat) (W : world) (b : nat) (os : list nat -> list op) : world * option err :=
  match book_hists limit (w_books W) b with
  | Err e => (W, Some e)
  | Ok ids => let '(s1, e) := run_until (w_hists W) (os ids) in (with_hists W s1, e)
  end.
(** __imul__ (book.py 481-483) calls itself for books: all the histograms in order.
    clear (book.py 432-435). *)
Definition book_imul limit W b (v : Num) := on_hists limit W b (map (fun i => OIMul i v)).
Definition book_clear limit W b := on_hists limit W b (map OClear).
(** fill (book.py 569-584): _prefill of all histograms, then _postfill of all.  [pre], [post]: what
    these do to the content of a histogram. *)
Definition book_fill_heap limit W b (pre post : nat -> filler) :=
  on_hists limit W b (fun ids => map (fun i => OPart i (pre i)) ids ++ map (fun i => OPart i (post i)) ids).

(** SamplesBook (book.py 630-636): for every sample Book(hists).copyonfill(). *)
Fixpoint add_samples (limit : nat) (W : world) (self : nat) (samples : list string) (l : list (string * entry)) : world * option err :=
  match samples with
  | [] => (W, None)
  | s :: samples =>
    match new_dict W l with
    | (W1, Ok (EBook b)) =>
      match book_copyonfill limit W1 b with
      | (W2, Ok y) => match setitem (w_books W2) self s y with
                      | (B3, None) => add_samples limit (with_books W2 B3) self samples l
                      | (B3, Some e) => (with_books W2 B3, Some e)
                      end
      | (W2, Err e) => (W2, Some e)
      end
    | (W1, Ok (EHist _)) => (W1, Some AssertionError)
    | (W1, Err e) => (W1, Some e)
    end
  end.
Definition samples_book (limit : nat) (W : world) (samples : list string) (l : list (string * entry)) : world * res nat :=
  let '(B1, b) := new_book (w_books W) in
  match add_samples limit (with_books W B1) b samples l with
  | (W1, None) => (W1, Ok b)
  | (W1, Some e) => (W1, Err e)
  end.

(** ViewableBook.view (book.py 588-613): a new book, nested as the old one, of the same histograms
    at matching paths; without the books that would be empty. *)
Definition view_items (f : books -> nat -> option string -> books * res (option nat)) (pattern : string) (path : option string) :
  books -> list (string * entry) -> books * res (list (string * entry)) :=
  fix go B l :=
    match l with
    | [] => (B, Ok [])
    | (n, x) :: t =>
      match (match x with
             | EHist h => (B, Ok (if fnmatchcase (under path n) pattern then [(n, x)] else []))
             | EBook c => let '(B1, r) := f B c (Some (under path n)) in
                          (B1, rmap (fun d => match d with Some d => [(n, EBook d)] | None => [] end) r)
             end) with
      | (B1, Err e) => (B1, Err e)
      | (B1, Ok here) => match go B1 t with
                         | (B2, Err e) => (B2, Err e)
                         | (B2, Ok t') => (B2, Ok (here ++ t'))
                         end
      end
    end.
Fixpoint view_ (limit : nat) (pattern : string) (B : books) (b : nat) (path : option string) : books * res (option nat) :=
  match limit with
  | O => (B, Err RecursionError)
  | S m =>
    match content_or B b with
    | None => (B, Err NameError)
    | Some l =>
      match view_items (view_ m pattern) pattern path B l with
      | (B1, Err e) => (B1, Err e)
      | (B1, Ok []) => (B1, Ok None)
      | (B1, Ok items) => let '(B2, r) := fromdicts B1 items in (B2, rmap Some r)
      end
    end
  end.
Definition book_view (limit : nat) (B : books) (b : nat) (pattern : string) : books * res nat :=
  match view_ limit pattern B b None with
  | (B1, Ok (Some d)) => (B1, Ok d)
  | (B1, Ok None) => (B1, Err ValueError)
  | (B1, Err e) => (B1, Err e)
  end.

(** ** Programs over books and histograms *)
Inductive action : Type :=
| ANew                                              (* Book() *)
| ASet (b : nat) (name : string) (x : entry)        (* b[name] = x *)
| ADel (b : nat) (name : string)                    (* del b[name] *)
| ACopy (b : nat) | ACopyOnFill (b : nat) | ACleared (b : nat) | AMul (b : nat) (v : Num)
| AAdd (a b : nat) | AIAdd (a b : nat)              (* a + b, a += b *)
| AIMul (b : nat) (v : Num) | AClear (b : nat)
| AFill (b : nat) (pre post : nat -> filler)
| ASamples (samples : list string) (l : list (string * entry))     (* SamplesBook(samples, l) *)
| AView (b : nat) (pattern : string)                (* b.view(pattern) *)
| AHist (o : op).                                   (* an operation on one histogram *)
Definition no_value {A} (x : world * res A) : world * option err :=
  (fst x, match snd x with Ok _ => None | Err e => Some e end).
Definition act (limit : nat) (W : world) (a : action) : world * option err :=
  match a with
  | ANew => (with_books W (fst (new_book (w_books W))), None)
  | ASet b name x => let '(B1, e) := setitem (w_books W) b name x in (with_books W B1, e)
  | ADel b name => let '(B1, e) := delitem limit (w_books W) b name in (with_books W B1, e)
  | ACopy b => no_value (book_copy limit W b)
  | ACopyOnFill b => no_value (book_copyonfill limit W b)
  | ACleared b => no_value (book_cleared limit W b)
  | AMul b v => no_value (book_mul limit v W b)
  | AAdd a b => no_value (book_add limit W a b)
  | AIAdd a b => book_iadd limit W a b
  | AIMul b v => book_imul limit W b v
  | AClear b => book_clear limit W b
  | AFill b pre post => book_fill_heap limit W b pre post
  | ASamples samples l => no_value (samples_book limit W samples l)
  | AView b pattern => let '(B1, r) := book_view limit (w_books W) b pattern in (with_books W B1, match r with Ok _ => None | Err e => Some e end)
  | AHist o => let '(s1, e) := step (w_hists W) o in (with_hists W s1, e)
  end.
Fixpoint act_all (limit : nat) (W : world) (l : list action) : world :=
  match l with
  | [] => W
  | a :: t => act_all limit (fst (act limit W a)) t
  end.
Definition start (hs : list hobj) : world :=
  {| w_books := []; w_hists := {| s_heap := []; s_vars := map (fun h => {| v_obj := h; v_ref := RNone; v_flag := false |}) hs |} |}.
