(** The methods that books inherit from collections.MutableMapping (book.py 50): pop, popitem,
    setdefault and update, as the standard library defines them in terms of self[key],
    self[key] = value, del self[key] and iter(self).  (get and clear are overridden: book.py 119, 430.) *)
From Coq Require Import String Ascii.
From Verif Require Import Base Book.
Local Open Scope string_scope.
Local Open Scope list_scope.

(** Iterating over a book yields pairs of a path and a histogram (book.py 418-420), which the inherited
    methods use as keys. *)
Inductive key : Type := KName (name : string) | KItem (nx : string * entry).

(** self[key] (book.py 258-269), del self[key] (279-287), self[key] = value (271-277) for any key; [None]
    is a value that is no histogram and no book. *)
Definition lookup (limit : nat) (B : books) (b : nat) (k : key) : res found :=
  match k with KName n => getitem limit B b n | KItem _ => Err TypeError end.
Definition remove (limit : nat) (B : books) (b : nat) (k : key) : books * option err :=
  match k with KName n => delitem limit B b n | KItem _ => (B, Some TypeError) end.
Definition store (B : books) (b : nat) (k : key) (v : option entry) : books * option err :=
  match k, v with
  | KName n, Some x => setitem B b n x
  | _, _ => (B, Some TypeError)
  end.

(** MutableMapping.pop:  try: value = self[key]
                         except KeyError: if default is missing: raise; return default
                         else: del self[key]; return value *)
Definition pop {D} (limit : nat) (B : books) (b : nat) (k : key) (default : option D) : books * res (found + D) :=
  match lookup limit B b k with
  | Ok v => match remove limit B b k with
            | (B', None) => (B', Ok (inl v))
            | (B', Some e) => (B', Err e)
            end
  | Err KeyError => (B, match default with Some d => Ok (inr d) | None => Err KeyError end)
  | Err e => (B, Err e)
  end.
(** MutableMapping.popitem:  key = next(iter(self)), KeyError if there is none;
                             value = self[key]; del self[key]; return key, value
    The iterator is run to its end here: the code asks it for one pair only, which makes a difference
    only for books that contain themselves. *)
Definition popitem (limit : nat) (B : books) (b : nat) : books * res (key * found) :=
  match items limit true true B b with
  | Err e => (B, Err e)
  | Ok [] => (B, Err KeyError)
  | Ok (nx :: _) =>
    match lookup limit B b (KItem nx) with
    | Err e => (B, Err e)
    | Ok v => match remove limit B b (KItem nx) with
              | (B', None) => (B', Ok (KItem nx, v))
              | (B', Some e) => (B', Err e)
              end
    end
  end.
(** MutableMapping.setdefault:  try: return self[key]
                                except KeyError: self[key] = default
                                return default *)
Definition setdefault (limit : nat) (B : books) (b : nat) (k : key) (default : option entry) : books * res (option found) :=
  match lookup limit B b k with
  | Ok v => (B, Ok (Some v))
  | Err KeyError => match store B b k default with
                    | (B', None) => (B', Ok (option_map One default))
                    | (B', Some e) => (B', Err e)
                    end
  | Err e => (B, Err e)
  end.
(** MutableMapping.update:  a mapping: for key in other: self[key] = other[key]
                            else: for key, value in other: self[key] = value
                            then: for key, value in kwds.items(): self[key] = value
    The keys of a dict are names, so a dict is like the list of its items. *)
Inductive source : Type := Pairs (l : list (string * entry)) | OfBook (c : nat).
Fixpoint update_keys (limit : nat) (B : books) (b c : nat) (ks : list key) : books * option err :=
  match ks with
  | [] => (B, None)
  | k :: ks =>
    match lookup limit B c k with
    | Err e => (B, Some e)
    | Ok v => match store B b k (match v with One x => Some x | Many _ => None end) with
              | (B', None) => update_keys limit B' b c ks
              | (B', Some e) => (B', Some e)
              end
    end
  end.
Definition update (limit : nat) (B : books) (b : nat) (other : source) (kwds : list (string * entry)) : books * option err :=
  let first := match other with
               | Pairs l => assign_all B b l
               | OfBook c => match items limit true true B c with
                             | Ok l => update_keys limit B b c (map KItem l)
                             | Err e => (B, Some e)
                             end
               end in
  match first with
  | (B', None) => assign_all B' b kwds
  | (B', Some e) => (B', Some e)
  end.
