(** The call graph, the schedule and the instruction sequence.

    Models /repo/histbook/instr.py: CallGraphNode 35-115, sources 237-239, walkdown 241-258,
    instructions 342-381, and the instruction loop of /repo/histbook/fill.py 122-160.

    A node of the call graph is identified with its goal expression, because nodes are stored in
    sets and in [table] under the equality of their goals (instr.py 52-59).  Python iterates over
    sets in an arbitrary order and sorts ties by arbitrary keys: every order is a parameter here. *)
From Coq Require Import String.
From Verif Require Import Num Base Tree.

(** instr.py 76-84 (CallGraphNode.grow): the nodes a node requires. *)
Definition requires (t : tree) : list tree :=
  match t with
  | TCall _ args => filter (fun a => negb (is_const a)) args
  | _ => []
  end.

(** instr.py 67-91 (grow): every node that enters [table] when [t] is grown, [t] first. *)
Fixpoint grown (t : tree) : list tree :=
  t :: match t with
       | TCall _ args =>
           flat_map (fun a => if is_const a then [] else grown a) args
       | _ => []
       end.

(** fill.py 45-53 (Fillable.fields): the table after growing all the goals.  The goal nodes
    themselves, even Const goals, are in the table. *)
Definition table (goals : list tree) : list tree := nodup tree_eq_dec (flat_map grown goals).

(** instr.py 85 (node.requiredby.add(self)): the table nodes that require [t], in table order;
    the walk below permutes them arbitrarily. *)
Definition requiredby (tab : list tree) (t : tree) : list tree :=
  filter (fun x => mem t (requires x)) tab.

(** instr.py 93-111 (CallGraphNode.sources) and 237-239 (sources). *)
Fixpoint sources1 (t : tree) : list tree :=
  match t with
  | TConst _ => []
  | TName _ | TPred _ _ | TBcast _ => [t]
  | TCall _ args => flat_map (fun a => if is_const a then [] else sources1 a) args
  end.
Definition sources (goals : list tree) : list tree := nodup tree_eq_dec (flat_map sources1 goals).

Section Walk.
  (** The order in which [walkdown] tries the nodes that require a node (instr.py 249-250: sorted
      by the number of goals, ties by the expressions): any function at all; the theorems assume
      only that it permutes. *)
  Variable order : tree -> list tree -> list tree.
  Variable tab : list tree.

  (** instr.py 243-254 (walkdown.recurse).  [seen] is kept with the latest node first.  The fuel
      bounds the recursion depth; [walk_fuel] below is always enough. *)
  Fixpoint visit (fuel : nat) (node : tree) (seen : list tree) : list tree :=
    match fuel with
    | O => seen
    | S fuel =>
        if mem node seen then seen                                         (* line 245 *)
        else
          fold_left
            (fun s x =>
               if forallb (fun y => mem y s) (requires x)                  (* line 252 *)
               then visit fuel x s else s)
            (order node (requiredby tab node))
            (node :: seen)                                                 (* lines 246-247 *)
    end.

  Definition walk_fuel : nat := S (length tab).

  (** instr.py 256-258: fields first, broadcast constants last. *)
  Definition walkdown (srcs : list tree) : list tree :=
    rev (fold_left (fun s x => visit walk_fuel x s)
           (filter (fun x => negb (is_bcast x)) srcs ++ filter is_bcast srcs) []).
End Walk.

(** Renamed expressions (expr.py 516-517, 543-545, 588-590, 617-621, 1058-1060): every scheduled
    sub-expression has become a variable.  The variable "x12" is the number 12. *)
Inductive rtree : Type :=
| RConst (c : cst)
| RVar (n : nat)
| RCall (fcn : string) (args : list rtree).

(** instr.py 291-340. *)
Inductive instr : Type :=
| Param (name : nat) (extern : tree)
| Assign (name : nat) (expr : rtree)
| Export (name : nat) (goal : tree)
| Delete (name : nat).

Fixpoint find_name (t : tree) (names : list (tree * nat)) : option nat :=
  match names with
  | [] => None
  | (u, n) :: rest => if tree_eq_dec t u then Some n else find_name t rest
  end.

(** [goal.rename(names)].  An assertion fails when a Name is not in [names] (expr.py 544). *)
Fixpoint rename (names : list (tree * nat)) (t : tree) : res rtree :=
  match t with
  | TConst c => Ok (RConst c)
  | TName _ | TPred _ _ | TBcast _ =>
      match find_name t names with Some n => Ok (RVar n) | None => Err AssertionError end
  | TCall f args =>
      match find_name t names with
      | Some n => Ok (RVar n)
      | None =>
          rmap (RCall f)
            ((fix go (l : list tree) : res (list rtree) :=
                match l with
                | [] => Ok []
                | a :: l => do r <- rename names a; do rs <- go l; Ok (r :: rs)
                end) args)
      end
  end.

(** instr.py 375-381: the variables not required by any later node. *)
Definition dead (later : list tree) (live : list (nat * tree)) : list nat :=
  map fst (filter (fun p => negb (existsb (fun y => mem (snd p) (requires y)) later)) live).

(** instr.py 342-381.  [k] is the next variable number, [names] and [live] the two dicts. *)
Fixpoint emit (goals : list tree) (nodes : list tree) (k : nat)
    (names : list (tree * nat)) (live : list (nat * tree)) : res (list instr) :=
  match nodes with
  | [] => Ok []
  | node :: later =>
      do first <- match node with
                  | TConst _ => Err NotImplementedError     (* never in a walk: see walk_no_const *)
                  | TName _ | TPred _ _ | TBcast _ => Ok (Param k node)        (* lines 359-362 *)
                  | TCall f args =>
                      do e <- rename names node; Ok (Assign k e)               (* lines 364-367 *)
                  end;
      let live := live ++ [(k, node)] in
      let d := dead later live in
      do rest <- emit goals later (S k) ((node, k) :: names)
                   (filter (fun p => existsb (fun y => mem (snd p) (requires y)) later) live);
      Ok (first :: (if mem node goals then [Export k node] else [])            (* lines 372-373 *)
            ++ map Delete d ++ rest)
  end.

Definition instructions (order : tree -> list tree -> list tree) (srcs goals : list tree)
  : res (list instr) :=
  emit goals (walkdown order (table goals) srcs) 0 [] [].

(** The machine of fill.py 122-160. *)
Section Machine.
  Variable V : Type.
  (** [histbook.calc.calculate] (calc/__init__.py 327-357): the value of a constant, and the
      library, which may raise (an unknown function is an AssertionError, line 357). *)
  Variable constv : cst -> V.
  Variable lib : string -> list V -> res V.
  (** fill.py 124-146: the array of a parameter, broadcast to the common length, or an exception. *)
  Variable param : tree -> res V.

  Definition symtab := list (nat * V).
  Fixpoint lookup (n : nat) (s : symtab) : option V :=
    match s with
    | [] => None
    | (m, v) :: s => if Nat.eqb n m then Some v else lookup n s
    end.
  Definition remove (n : nat) (s : symtab) : symtab :=
    filter (fun p => negb (Nat.eqb n (fst p))) s.

  (** calc/__init__.py 344-357. *)
  Fixpoint calculate (s : symtab) (e : rtree) : res V :=
    match e with
    | RConst c => Ok (constv c)
    | RVar n => match lookup n s with Some v => Ok v | None => Err KeyError end
    | RCall f args =>
        do vs <- (fix go (l : list rtree) : res (list V) :=
                    match l with
                    | [] => Ok []
                    | a :: l => do v <- calculate s a; do vs <- go l; Ok (v :: vs)
                    end) args;
        lib f vs
    end.

  (** The state is the symbol table and the exports so far (goal, value), latest first. *)
  Fixpoint run (is : list instr) (s : symtab) (out : list (tree * V))
    : res (symtab * list (tree * V)) :=
    match is with
    | [] => Ok (s, out)
    | Param n t :: is => do v <- param t; run is ((n, v) :: s) out             (* line 146 *)
    | Assign n e :: is => do v <- calculate s e; run is ((n, v) :: s) out      (* line 149 *)
    | Export n g :: is =>
        match lookup n s with                                                  (* lines 152-154 *)
        | Some v => run is s ((g, v) :: out)
        | None => Err KeyError
        end
    | Delete n :: is =>
        match lookup n s with                                                  (* line 157 *)
        | Some _ => run is (remove n s) out
        | None => Err KeyError
        end
    end.
End Machine.
