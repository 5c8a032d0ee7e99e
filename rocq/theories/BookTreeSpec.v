(** What is at a path of a book, which books programs can make, and when books are alike. *)
From Coq Require Import String.
From Verif Require Import Base Num Axis Content Fill HistAlg AlgSpec Json Glob Book BookTree.
Local Open Scope string_scope.
Local Open Scope list_scope.

(** Following names from an entry. *)
Fixpoint node_at (x : node) (p : list string) : option node :=
  match p with
  | [] => Some x
  | k :: p => match x with
              | NHist _ => None
              | NBook _ l _ => match find (fun ky => String.eqb (fst ky) k) l with
                               | Some (_, y) => node_at y p
                               | None => None
                               end
              end
  end.
(** The histograms anywhere in an entry satisfy [P]. *)
Definition all_in (P : hobj -> Prop) (x : node) : Prop := forall p h, node_at x p = Some (NHist h) -> P h.

(** Entries that programs can make out of histograms with [P], by assignments and deletions that do
    not raise, or raise KeyError (the path does not exist), from books of any class; a book inside
    another may be changed directly unless the outer one is a SystematicsBook. *)
Definition fine (e : option err) : Prop := e = None \/ e = Some KeyError.
Inductive made (P : hobj -> Prop) : node -> Prop :=
| made_hist h : P h -> made P (NHist h)
| made_new c : made P (NBook c [] [])
| made_attach c l att att' : made P (NBook c l att) -> made P (NBook c l att')
| made_set c l att name v : made P (NBook c l att) -> made P v -> fine (snd (tsetitem c l name v)) ->
    made P (NBook c (fst (tsetitem c l name v)) att)
| made_del c l att name : made P (NBook c l att) -> fine (snd (tdelitem c l name)) ->
    made P (NBook c (fst (tdelitem c l name)) att)
| made_inner c l1 k y l2 y' att : made P (NBook c (l1 ++ (k, y) :: l2) att) -> c <> KSystematics -> made P y' ->
    made P (NBook c (l1 ++ (k, y') :: l2) att).

(** Entries are alike if they are histograms with the same kinds of groups and bins (whatever the
    expressions, weights, profiles and contents) or books with the same names of alike entries; and
    the same classes of books if [classes]. *)
Inductive alike (classes : bool) : node -> node -> Prop :=
| alike_hists h g : map unnamed (o_group h) = map unnamed (o_group g) ->
    map unnamed (o_fixed h) = map unnamed (o_fixed g) -> alike classes (NHist h) (NHist g)
| alike_books c l x d m y : (classes = true -> c = d) ->
    (forall n, In n (map fst l) <-> In n (map fst m)) ->
    (forall n a b, In (n, a) l -> In (n, b) m -> alike classes a b) ->
    alike classes (NBook c l x) (NBook d m y).
(** Histograms whose axes can be compared (no NaN in the parameters; no axis that a projection left). *)
Definition plain_hist (h : hobj) : Prop :=
  Forall nan_free_axis (o_axes h) /\ Forall comparable (o_group h ++ o_fixed h).
(** No name below has wildcard characters. *)
Definition plain_names (x : node) : Prop := forall p n y, node_at x (p ++ [n]) = Some y -> wild n = false.
(** The shape of two entries agrees where both have something: a book is not at the place of a Hist. *)
Definition same_kinds (x y : node) : Prop :=
  forall p a b, node_at x p = Some a -> node_at y p = Some b -> is_hist_node a = is_hist_node b.

(** ** Groups of books *)
(** The histograms that the books have at a path, with the names of the books. *)
Fixpoint members (books : list (string * node)) (p : list string) : list (string * hobj) :=
  match books with
  | [] => []
  | (n, b) :: t => match node_at b p with
                   | Some (NHist h) => (n, h) :: members t p
                   | _ => members t p
                   end
  end.
(** The books can be grouped: no SystematicsBooks, no names with wildcard characters, what is at the
    same path of two books is of the same class, and the histograms at each path can be grouped. *)
Definition groupable (by_ : string) (books : list (string * node)) : Prop :=
  (forall n b p c l a, In (n, b) books -> node_at b p = Some (NBook c l a) -> c <> KSystematics) /\
  (forall n b p k y, In (n, b) books -> node_at b (p ++ [k]) = Some y -> wild k = false) /\
  (forall n b n' b' p x y, In (n, b) books -> In (n', b') books -> p <> [] -> node_at b p = Some x -> node_at b' p = Some y ->
     kind_of x = kind_of y) /\
  (forall p, members books p <> [] -> exists g, group_hists by_ (members books p) = Ok g).
