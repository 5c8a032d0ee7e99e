(** Shell patterns: fnmatch.fnmatchcase of Python's standard library, as book.py 263 and 596 use it.
    A pattern is translated to a regular expression token by token (fnmatch.translate), which is
    then matched against the whole name.
    Simplified: characters are bytes; a reversed range such as [z-a] matches nothing (as in current
    versions of Python; older ones raise re.error). *)
From Coq Require Import String Ascii.
From Verif Require Import Base.
Local Open Scope char_scope.
Local Open Scope list_scope.

Inductive token : Type :=
| TStar                                              (* .* *)
| TAny                                               (* . *)
| TLit (c : ascii)
| TSet (neg : bool) (ranges : list (ascii * ascii)). (* [...], [!...] *)

(** The characters before the first closing bracket, and those after it. *)
Fixpoint upto_close (p : list ascii) : option (list ascii * list ascii) :=
  match p with
  | [] => None
  | c :: p => if Ascii.eqb c "]" then Some ([], p)
              else match upto_close p with Some (b, r) => Some (c :: b, r) | None => None end
  end.
(** A closing bracket in the first place is an ordinary character of the set. *)
Definition set_body (p : list ascii) : option (list ascii * list ascii) :=
  match p with
  | [] => None
  | c :: p => match upto_close p with Some (b, r) => Some (c :: b, r) | None => None end
  end.
Fixpoint set_ranges (n : nat) (b : list ascii) : list (ascii * ascii) :=
  match n, b with
  | S n, x :: d :: y :: t => if Ascii.eqb d "-" then (x, y) :: set_ranges n t else (x, x) :: set_ranges n (d :: y :: t)
  | S n, x :: t => (x, x) :: set_ranges n t
  | _, _ => []
  end.
Definition is_bang (c : ascii) : bool := Ascii.eqb c "!".
Definition bracket (p : list ascii) : option (token * list ascii) :=
  match p with
  | [] => None
  | c :: q => let neg := is_bang c in
              match set_body (if neg then q else p) with
              | None => None
              | Some (b, r) => Some (TSet neg (set_ranges (length b) b), r)
              end
  end.
Fixpoint translate (n : nat) (p : list ascii) : list token :=
  match n, p with
  | S n, c :: p =>
      if Ascii.eqb c "*" then TStar :: translate n p
      else if Ascii.eqb c "?" then TAny :: translate n p
      else if Ascii.eqb c "[" then
        match bracket p with
        | Some (t, r) => t :: translate n r
        | None => TLit c :: translate n p
        end
      else TLit c :: translate n p
  | _, _ => []
  end.

Definition in_range (c : ascii) (r : ascii * ascii) : bool :=
  Nat.leb (nat_of_ascii (fst r)) (nat_of_ascii c) && Nat.leb (nat_of_ascii c) (nat_of_ascii (snd r)).
Definition one (t : token) (c : ascii) : bool :=
  match t with
  | TStar => false
  | TAny => true
  | TLit d => Ascii.eqb c d
  | TSet neg rs => xorb neg (existsb (in_range c) rs)
  end.
Fixpoint matches (ts : list token) (s : list ascii) : bool :=
  match ts with
  | [] => match s with [] => true | _ => false end
  | TStar :: ts =>
      (fix skip (s : list ascii) : bool :=
         matches ts s || match s with [] => false | _ :: s => skip s end) s
  | t :: ts => match s with [] => false | c :: s => one t c && matches ts s end
  end.
Definition fnmatchcase (name pat : string) : bool :=
  let p := list_ascii_of_string pat in
  matches (translate (length p) p) (list_ascii_of_string name).

(** book.py 262, 283: the name is taken as a pattern if it contains one of these. *)
Definition is_wild (c : ascii) : bool := Ascii.eqb c "*" || Ascii.eqb c "?" || Ascii.eqb c "[".
Definition wild (name : string) : bool := existsb is_wild (list_ascii_of_string name).
