(** Books with their classes and attachments, as trees: __eq__, compatible, assertcompatible, tojson,
    fromjson, fromdicts, group of GenericBook and the check of SystematicsBook
    (/repo/histbook/book.py 65-103, 143-196, 210-277, 482-511, 516-526, 626-630).

    Simplification: a book that is stored at two places is two equal trees (who shares what with whom
    is in Book.v and BookHeap.v; nothing here changes a book other than the one it is called on). *)
From Coq Require Import String.
From Verif Require Import Base Num Axis Calc Content Fill HistAlg Json Glob Book.
Local Open Scope string_scope.
Local Open Scope list_scope.

(** The classes of book.py: GenericBook, Book, ViewBook, ChannelsBook, SamplesBook, SystematicsBook
    (ViewableBook has no instances of its own here). *)
Inductive bclass : Type := KGeneric | KBook | KViewable | KView | KChannels | KSamples | KSystematics.
Definition class_name (c : bclass) : string :=
  match c with
  | KGeneric => "GenericBook" | KBook => "Book" | KViewable => "ViewableBook" | KView => "ViewBook"
  | KChannels => "ChannelsBook" | KSamples => "SamplesBook" | KSystematics => "SystematicsBook"
  end.
Definition class_eqb (c d : bclass) : bool := String.eqb (class_name c) (class_name d).

(** What an entry of a book is: [_content] is an OrderedDict, [_attachment] a dict of texts. *)
Inductive node : Type :=
| NHist (h : hobj)
| NBook (c : bclass) (content : list (string * node)) (attachment : list (string * string)).

(** isinstance(node, Hist) *)
Definition is_hist_node (x : node) : bool := match x with NHist _ => true | NBook _ _ _ => false end.

(** ** Comparison *)
(** set(self.iterkeys()) == set(other.iterkeys()) *)
Definition mem (n : string) (l : list string) : bool := existsb (String.eqb n) l.
Definition same_names (l m : list (string * node)) : bool :=
  forallb (fun kx => mem (fst kx) (map fst m)) l && forallb (fun kx => mem (fst kx) (map fst l)) m.

(** compatible (book.py 149-151).  [self[n]] is a list if [n] has wildcard characters (book.py 262-263),
    and neither a list nor a Hist or book of the other kind has what it needs: AttributeError. *)
Definition compatible_items (f : node -> node -> res bool) (m : list (string * node)) :
  list (string * node) -> res bool :=
  fix go l := match l with
              | [] => Ok true
              | (n, x) :: t =>
                if wild n then Err AttributeError else
                match sassoc n m with
                | None => Err KeyError
                | Some y => do b <- f x y; if b then go t else Ok false
                end
              end.
Fixpoint node_compatible (a b : node) {struct a} : res bool :=
  match a, b with
  | NHist h, NHist g => match hist_compatible h g with Some b => Ok b | None => Err AttributeError end
  | NBook _ l _, NBook _ m _ => if same_names l m then compatible_items node_compatible m l else Ok false
  | _, _ => Err AttributeError
  end.

(** the local function [recurse] of assertcompatible (book.py 155-170); a list is neither a book nor a
    Hist, so that a name with wildcard characters ends in the last branch *)
Definition assert_items (f : node -> node -> option err) (m : list (string * node)) :
  list (string * node) -> option err :=
  fix go l := match l with
              | [] => None
              | (n, x) :: t =>
                if wild n then Some ValueError else
                match sassoc n m with
                | None => Some KeyError
                | Some y => match f x y with Some e => Some e | None => go t end
                end
              end.
Fixpoint node_assert (a b : node) {struct a} : option err :=
  match a, b with
  | NBook c l _, NBook d m _ =>
      if class_eqb c d then if same_names l m then assert_items node_assert m l else Some ValueError
      else Some ValueError
  | NHist h, NHist g => match hist_compatible h g with
                        | Some true => None
                        | Some false => Some ValueError
                        | None => Some AttributeError
                        end
  | _, _ => Some ValueError
  end.
(** book.py 173-176: each entry with the next *)
Fixpoint assert_chain (l : list node) : option err :=
  match l with
  | x :: ((y :: _) as t) => match node_assert x y with Some e => Some e | None => assert_chain t end
  | _ => None
  end.
Definition assertcompatible (l : list (string * node)) : option err := assert_chain (map snd l).

Section Eq.
  Variable parsed_eqb : list (string * wsrc) * option wsrc * option wsrc ->
                        list (string * wsrc) * option wsrc * option wsrc -> bool.
  (** __eq__ (book.py 143-144): == of OrderedDicts compares the order of the keys too.
      Simplification: Python does not compare an object with itself; here NaN is never equal. *)
  Definition eqb_items (f : node -> node -> bool) : list (string * node) -> list (string * node) -> bool :=
    fix go l m := match l, m with
                  | [], [] => true
                  | (n, x) :: l, (k, y) :: m => String.eqb n k && f x y && go l m
                  | _, _ => false
                  end.
  Fixpoint node_eqb (a b : node) {struct a} : bool :=
    match a, b with
    | NHist h, NHist g => hist_eqb parsed_eqb h g
    | NBook c l x, NBook d m y => class_eqb c d && eqb_items node_eqb l m && dict_eqb String.eqb x y
    | _, _ => false
    end.
End Eq.

(** ** Assignment *)
(** x.has("systematic") for x in self.itervalues(recursive=True, onlyhist=True) (book.py 629) *)
Definition has (key : string) (h : hobj) : bool := mem key (map fst (o_attach h)).
Fixpoint hists_of (x : node) : list hobj :=
  match x with
  | NHist h => [h]
  | NBook _ l _ => flat_map (fun kx => hists_of (snd kx)) l
  end.
(** _changed (book.py 89-90, 525-526, 627-630): only the SystematicsBook looks at its contents *)
Definition changed (c : bclass) (l : list (string * node)) : option err :=
  match c with
  | KSystematics =>
      match assertcompatible l with
      | Some e => Some e
      | None => if forallb (has "systematic") (flat_map (fun kx => hists_of (snd kx)) l) then None else Some ValueError
      end
  | _ => None
  end.

(** _set (book.py 225-239) on the class and content of a book; an exception leaves the book as it was
    when it was raised. *)
Fixpoint tset_n (n : nat) (c : bclass) (l : list (string * node)) (name : string) (v : node)
  : list (string * node) * option err :=
  match cut_slash name with
  | None => let l' := sassoc_set name v l in (l', changed c l')
  | Some (k, rest) =>
    match n with
    | O => (l, Some RecursionError)
    | S n =>
      let attempt := match sassoc k l with None => NBook KBook [] [] | Some x => x end in
      let l1 := sassoc_set k attempt l in
      match attempt with
      | NHist _ => (l1, Some KeyError)
      | NBook d m x =>
          let '(m', e) := tset_n n d m rest v in
          let l2 := sassoc_set k (NBook d m' x) l1 in
          match e with
          | Some e => (l2, Some e)
          | None => (l2, changed c l2)
          end
      end
    end
  end.
(** __setitem__ (book.py 271-277) *)
Definition tsetitem (c : bclass) (l : list (string * node)) (name : string) (v : node) :=
  tset_n (String.length name) c l name v.

(** _del (book.py 241-256) and __delitem__ (279-287), for a name without wildcards *)
Fixpoint sdel {A} (k : string) (l : list (string * A)) : list (string * A) :=
  match l with [] => [] | (k', v) :: t => if String.eqb k k' then t else (k', v) :: sdel k t end.
Fixpoint tdel_n (n : nat) (c : bclass) (l : list (string * node)) (name : string)
  : list (string * node) * option err :=
  match sassoc name l with
  | Some _ => let l' := sdel name l in (l', changed c l')
  | None =>
    match cut_slash name, n with
    | Some (k, rest), S n =>
      match sassoc k l with
      | Some (NBook d m x) =>
          let '(m', e) := tdel_n n d m rest in
          let l2 := sassoc_set k (NBook d m' x) l in
          match e with
          | Some e => (l2, Some e)
          | None => (l2, changed c l2)
          end
      | _ => (l, Some KeyError)
      end
    | _, _ => (l, Some KeyError)
    end
  end.
Definition tdelitem (c : bclass) (l : list (string * node)) (name : string) := tdel_n (String.length name) c l name.

(** fromdicts (book.py 92-103), and the constructor from a dict (59-87), which has no attachment *)
Fixpoint set_all (c : bclass) (l : list (string * node)) (items : list (string * node)) : res (list (string * node)) :=
  match items with
  | [] => match changed c l with Some e => Err e | None => Ok l end
  | (n, x) :: t => match tsetitem c l n x with
                   | (l', None) => set_all c l' t
                   | (_, Some e) => Err e
                   end
  end.
Definition tfromdicts (c : bclass) (items : list (string * node)) (att : list (string * string)) : res node :=
  do l <- set_all c [] items; Ok (NBook c l att).

(** ** JSON *)
(** merge (book.py 179-181): node["name"] = name *)
Definition jset (name : string) (v : json) (j : json) : res json :=
  match j with
  | JObj l => Ok (JObj (if has_key (GStr name) l then map (fun kv => if gkey_eqb (fst kv) (GStr name) then (fst kv, v) else kv) l
                        else l ++ [(GStr name, v)]))
  | _ => Err TypeError
  end.
(** tojson (book.py 178-185) *)
Definition tojson_items (f : node -> res json) : list (string * node) -> res (list json) :=
  fix go l := match l with
              | [] => Ok []
              | (n, x) :: t => do j <- f x; do j <- jset "name" (JStr n) j; do js <- go t; Ok (j :: js)
              end.
Fixpoint node_tojson (x : node) : res json :=
  match x with
  | NHist h => hist_tojson h
  | NBook c l att =>
      do js <- tojson_items node_tojson l;
      Ok (obj ([("type", JStr (class_name c)); ("content", JList js)]
               ++ match att with [] => [] | _ => [("attachment", strings att)] end))
  end.

(** getattr(sys.modules["histbook.book"], name) *)
Definition class_of (name : string) : res bclass :=
  match find (fun c => String.eqb (class_name c) name) [KGeneric; KBook; KViewable; KView; KChannels; KSamples; KSystematics] with
  | Some c => Ok c
  | None => Err AttributeError
  end.
Section FromJson.
  Variable axis_check : list (string * wsrc) -> string -> option err.
  Variable weight_check : list (string * wsrc) -> option wsrc -> option wsrc -> option err.
  (** fromjson (book.py 187-196).  [limit] is Python's recursion limit. *)
  Fixpoint book_fromjson (limit : nat) (j : json) : res node :=
    match limit with
    | O => Err RecursionError
    | S limit =>
      do t <- jget "type" j; do t <- j_str t; do c <- class_of t;
      do content <- jget "content" j;
      do content <- match content with JList l => Ok l | _ => Err TypeError end;
      do items <-
        (fix go (l : list json) (content : list (string * node)) : res (list (string * node)) :=
           match l with
           | [] => Ok content
           | x :: l =>
             do t <- jget "type" x; do t <- j_str t;
             do n <- jget "name" x; do n <- j_str n;
             do v <- if String.eqb t "Hist" then rmap NHist (hist_fromjson axis_check weight_check x)
                     else book_fromjson limit x;
             go l (sassoc_set n v content)
           end) content [];
      tfromdicts c items (j_dict j_string (jfind "attachment" j))
    end.
End FromJson.

(** ** group (book.py 482-511) *)
(** book[name] for a name without wildcard characters; names of entries have no slash *)
Definition entry_of (n : string) (x : node) : option node :=
  match x with NBook _ l _ => sassoc n l | NHist _ => None end.
(** the set of the classes of [book[name]] *)
Definition kind_of (x : node) : string := match x with NHist _ => "Hist" | NBook c _ _ => class_name c end.
Definition names_of (x : node) : list string := match x with NBook _ l _ => map fst l | NHist _ => [] end.
Definition attachment_of (x : node) : list (string * string) := match x with NBook _ _ a => a | NHist _ => [] end.
Definition with_name (n : string) (books : list (string * node)) : list (string * node) :=
  flat_map (fun kx => match entry_of n (snd kx) with Some y => [(fst kx, y)] | None => [] end) books.
Definition dict_update {A} (a b : list (string * A)) : list (string * A) :=
  fold_left (fun d kv => sassoc_set (fst kv) (snd kv) d) b a.
Fixpoint all_hists (l : list (string * node)) : option (list (string * hobj)) :=
  match l with
  | [] => Some []
  | (n, NHist h) :: t => option_map (cons (n, h)) (all_hists t)
  | _ => None
  end.

Section Group.
  (** the order in which Python iterates over a set of names *)
  Variable order : list string -> list string.
  (** [cls.group(by=by, **books)]; the first argument bounds the recursion, as Python does.
      Simplification: the exception for arguments that are not books is left out, the members of a
      group are books of one class by the check of 497-499. *)
  Fixpoint book_group (limit : nat) (cls : bclass) (by_ : string) (books : list (string * node)) : res node :=
    match limit with
    | O => Err RecursionError
    | S limit =>
      match books with
      | [] => Err TypeError                                            (* reduce of an empty sequence *)
      | _ =>
        do items <- mapM
          (fun n =>
             if wild n then Err AttributeError                         (* lists have no group() *)
             else
             let members := with_name n books in
             match members with
             | [] => Err TypeError
             | (_, y) :: rest =>
               if forallb (fun kx => String.eqb (kind_of (snd kx)) (kind_of y)) rest then
                 match y with
                 | NHist _ => match all_hists members with
                              | Some hs => do g <- group_hists by_ hs; Ok (n, NHist g)
                              | None => Err TypeError
                              end
                 | NBook c _ _ => do g <- book_group limit c by_ members; Ok (n, g)
                 end
               else Err TypeError
             end)
          (order (nodup string_dec (flat_map (fun kx => names_of (snd kx)) books)));
        tfromdicts cls items (fold_left (fun d kx => dict_update d (attachment_of (snd kx))) books [])
      end
    end.
End Group.

(** ** Filling *)
(** Whether the book has an attribute [_fields], without which Fillable.fields, and so fill, raise an
    AttributeError (fill.py 45): it is Book._changed that makes it (book.py 525-526), which
    SystematicsBook overrides (627-630); the other classes are not Fillable. *)
Definition can_be_filled (c : bclass) : bool := match c with KBook | KView => true | _ => false end.
