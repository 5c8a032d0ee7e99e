(** Books: named collections of histograms and of other books (book.py 50-420).
    Books are objects: a store of book objects, whose contents refer to histograms (by number, see
    Heap.v for the histograms themselves) and to other books of the store.
    Not modelled: attachments of books; the check that SystematicsBook makes after every change
    (book.py 639-642). *)
From Coq Require Import String Ascii.
From Verif Require Import Base Tree Instr Glob.
Local Open Scope string_scope.
Local Open Scope list_scope.

Inductive entry : Type :=
| EHist (h : nat)
| EBook (b : nat).
(** [b_cache]: what Fillable.fields leaves in [_fields], [_instructions] and [_destination]
    (fill.py 41-59, book.py 532-537): the instructions, and the histograms whose destinations they
    store into. *)
Record book : Type := { b_content : list (string * entry); b_cache : option (list instr * list nat) }.
Definition books := list book.

(** ** OrderedDict: an existing key keeps its place, a new one goes to the end *)
Fixpoint dget (k : string) (l : list (string * entry)) : option entry :=
  match l with
  | [] => None
  | (k', x) :: l => if String.eqb k k' then Some x else dget k l
  end.
Fixpoint dset (k : string) (x : entry) (l : list (string * entry)) : list (string * entry) :=
  match l with
  | [] => [(k, x)]
  | (k', y) :: l => if String.eqb k k' then (k', x) :: l else (k', y) :: dset k x l
  end.
Fixpoint ddel (k : string) (l : list (string * entry)) : list (string * entry) :=
  match l with
  | [] => []
  | (k', y) :: l => if String.eqb k k' then l else (k', y) :: ddel k l
  end.

(** ** The store *)
Fixpoint put (B : books) (b : nat) (o : book) : books :=
  match B, b with
  | [], _ => []
  | _ :: B, O => o :: B
  | p :: B, S b => p :: put B b o
  end.
Definition with_items (o : book) (l : list (string * entry)) : book := {| b_content := l; b_cache := b_cache o |}.
(** _changed (book.py 525-526) *)
Definition mark (B : books) (b : nat) : books :=
  match nth_error B b with
  | Some o => put B b {| b_content := b_content o; b_cache := None |}
  | None => B
  end.
Definition empty_book : book := {| b_content := []; b_cache := None |}.
(** Book() (book.py 59-87) *)
Definition new_book (B : books) : books * nat := (B ++ [empty_book], length B).

(** name.index("/"), name[:slash], name[slash + 1:] *)
Fixpoint cut_slash (s : string) : option (string * string) :=
  match s with
  | EmptyString => None
  | String c s => if Ascii.eqb c "/" then Some ("", s)
                  else match cut_slash s with Some (a, r) => Some (String c a, r) | None => None end
  end.

(** _get (book.py 210-223).  In [get_n], [set_n] and [del_n] the first argument bounds the
    recursion; every call is on a shorter name, so the length of the name is enough. *)
Fixpoint get_n (n : nat) (B : books) (b : nat) (name : string) : option entry :=
  match nth_error B b with
  | None => None
  | Some o =>
    match dget name (b_content o) with
    | Some x => Some x
    | None =>
      match cut_slash name with
      | None => None
      | Some (k, rest) =>
        match dget k (b_content o), n with
        | Some (EBook c), S m => get_n m B c rest
        | _, _ => None
        end
      end
    end
  end.

(** _set (book.py 225-239) *)
Fixpoint set_n (n : nat) (B : books) (b : nat) (name : string) (v : entry) : books * option err :=
  match nth_error B b with
  | None => (B, Some NameError)
  | Some o =>
    match cut_slash name with
    | None => (mark (put B b (with_items o (dset name v (b_content o)))) b, None)
    | Some (k, rest) =>
      match n with
      | O => (B, Some RecursionError)
      | S m =>
        let '(B1, attempt) :=
          match dget k (b_content o) with
          | None => let '(B1, c) := new_book B in
                    (put B1 b (with_items o (dset k (EBook c) (b_content o))), EBook c)
          | Some x => (B, x)
          end in
        match attempt with
        | EBook c => let '(B2, e) := set_n m B1 c rest v in
                     match e with
                     | None => (mark B2 b, None)
                     | Some e => (B2, Some e)
                     end
        | EHist _ => (B1, Some KeyError)
        end
      end
    end
  end.

(** _del (book.py 241-256) *)
Fixpoint del_n (n : nat) (B : books) (b : nat) (name : string) : books * option err :=
  match nth_error B b with
  | None => (B, Some NameError)
  | Some o =>
    match dget name (b_content o) with
    | Some _ => (mark (put B b (with_items o (ddel name (b_content o)))) b, None)
    | None =>
      match cut_slash name with
      | None => (B, Some KeyError)
      | Some (k, rest) =>
        match dget k (b_content o), n with
        | Some (EBook c), S m =>
            let '(B1, e) := del_n m B c rest in
            match e with
            | None => (mark B1 b, None)
            | Some e => (B1, Some e)
            end
        | _, _ => (B, Some KeyError)
        end
      end
    end
  end.
Definition get_ (B : books) (b : nat) (name : string) : option entry := get_n (String.length name) B b name.
Definition del_ (B : books) (b : nat) (name : string) : books * option err := del_n (String.length name) B b name.

(** _iteritems (book.py 289-296).  [limit] is Python's recursion limit. *)
Definition is_hist (x : entry) : bool := match x with EHist _ => true | EBook _ => false end.
Definition under (path : option string) (n : string) : string :=
  match path with None => n | Some p => p ++ "/" ++ n end.
Fixpoint iteritems_ (limit : nat) (recursive onlyhist : bool) (B : books) (b : nat) (path : option string)
  : res (list (string * entry)) :=
  match limit with
  | O => Err RecursionError
  | S m =>
    match nth_error B b with
    | None => Err NameError
    | Some o =>
      (fix go (l : list (string * entry)) : res (list (string * entry)) :=
         match l with
         | [] => Ok []
         | (n, x) :: l =>
           let here := if negb onlyhist || is_hist x then [(under path n, x)] else [] in
           do deep <- match x with
                      | EBook c => if recursive then iteritems_ m recursive onlyhist B c (Some (under path n)) else Ok []
                      | EHist _ => Ok []
                      end;
           do rest <- go l;
           Ok (here ++ deep ++ rest)
         end) (b_content o)
    end
  end.
(** items, keys, values and their "all" variants (book.py 298-420) *)
Definition items limit (recursive onlyhist : bool) (B : books) (b : nat) : res (list (string * entry)) :=
  iteritems_ limit recursive onlyhist B b None.
Definition keys limit recursive onlyhist B b : res (list string) := rmap (map fst) (items limit recursive onlyhist B b).
Definition values limit recursive onlyhist B b : res (list entry) := rmap (map snd) (items limit recursive onlyhist B b).

(** ** book[name], name in book, book[name] = x, del book[name], len(book) *)
Inductive found : Type := One (x : entry) | Many (l : list entry).
(** book.py 258-269 *)
Definition getitem (limit : nat) (B : books) (b : nat) (name : string) : res found :=
  if wild name then
    do l <- items limit true false B b;
    Ok (Many (map snd (filter (fun nx => fnmatchcase (fst nx) name) l)))
  else match get_ B b name with
       | Some x => Ok (One x)
       | None => Err KeyError
       end.
(** book.py 202-208 *)
Definition contains (limit : nat) (B : books) (b : nat) (name : string) : res bool :=
  match getitem limit B b name with
  | Ok _ => Ok true
  | Err KeyError => Ok false
  | Err e => Err e
  end.
(** book.py 271-277 *)
Definition setitem (B : books) (b : nat) (name : string) (v : entry) : books * option err :=
  set_n (String.length name) B b name v.
(** book.py 279-287 *)
Fixpoint del_all (B : books) (b : nat) (names : list string) : books * option err :=
  match names with
  | [] => (B, None)
  | n :: names => let '(B1, e) := del_ B b n in
                  match e with
                  | None => del_all B1 b names
                  | Some e => (B1, Some e)
                  end
  end.
Definition delitem (limit : nat) (B : books) (b : nat) (name : string) : books * option err :=
  if wild name then
    match keys limit true false B b with
    | Ok names => del_all B b names
    | Err e => (B, Some e)
    end
  else del_ B b name.
(** book.py 199-200 *)
Definition len (B : books) (b : nat) : nat :=
  match nth_error B b with Some o => length (b_content o) | None => 0 end.

(** Constructor from a dict, and fromdicts (book.py 59-103): the items are assigned one by one to a
    new book. *)
Fixpoint assign_all (B : books) (b : nat) (l : list (string * entry)) : books * option err :=
  match l with
  | [] => (B, None)
  | (n, x) :: l => let '(B1, e) := setitem B b n x in
                   match e with
                   | None => assign_all B1 b l
                   | Some e => (B1, Some e)
                   end
  end.
Definition fromdicts (B : books) (l : list (string * entry)) : books * res nat :=
  let '(B1, b) := new_book B in
  match assign_all B1 b l with
  | (B2, None) => (B2, Ok b)
  | (B2, Some e) => (B2, Err e)
  end.
