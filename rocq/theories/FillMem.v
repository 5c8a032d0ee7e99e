(** Hist.fill and Book.fill with the memory of the arrays.

    Models the same code as HistFill.v, Fill.v and BookFill.v (/repo/histbook/fill.py 85-162, hist.py
    340-494, book.py 569-584, calc/__init__.py 327-357), where arrays are values, with arrays as
    objects in memory: which operation makes a new array, which passes one on and which writes into
    one.  The arrays passed to [fill] are the caller's own, and the symbol table and the destinations
    hold references to them.

    Simplifications: a call of a Numpy function with one argument too many writes its result into
    that argument (the parameter [out] of a Numpy universal function); the array is assumed to have a
    type that can hold the result, and at least one of the other arguments is an array.  A value that
    is not a Numpy array is copied by numpy.array before anything else; it is an array of its own
    here.  The contents of the histograms are values (for contents that two histograms share see
    Heap.v).  Deleting a symbol does not free its array. *)
From Coq Require Import String.
From Verif Require Import Num Base Tree Instr Axis Calc Content Fill Elem HistFill Book BookFill Lib.
Local Open Scope string_scope.
Local Open Scope list_scope.

(** The arrays that have been made so far, by number.  Arrays are only ever added. *)
Definition memory := list V.
Definition mcell (m : memory) (l : nat) : V := nth l m (VCol []).

(** What a name of the symbol table stands for. *)
Inductive ref : Type :=
| RLit (c : cst)          (* a literal *)
| RArr (l : nat)          (* an array *)
| RCut (l : nat).         (* the slots of a cut, in the memory of the array it was made from *)

(** calc/__init__.py 38-145: the entries that are Numpy universal functions, with the number of
    their arguments.  (numpy.isin, where, heaviside, erf, erfc, gamma, lgamma, factorial and the
    functions of the axes are not.) *)
Definition ufuncs : list (string * nat) :=
  [("numpy.add", 2); ("numpy.subtract", 2); ("numpy.multiply", 2); ("numpy.true_divide", 2);
   ("numpy.equal", 2); ("numpy.not_equal", 2); ("numpy.less", 2); ("numpy.less_equal", 2);
   ("numpy.logical_or", 2); ("numpy.logical_and", 2); ("numpy.logical_not", 1);
   ("abs", 1); ("fabs", 1); ("arccos", 1); ("arccosh", 1); ("arcsin", 1); ("arcsinh", 1); ("arctan2", 2);
   ("arctan", 1); ("arctanh", 1); ("ceil", 1); ("conj", 1); ("copysign", 2); ("cos", 1); ("cosh", 1);
   ("deg2rad", 1); ("exp2", 1); ("exp", 1); ("expm1", 1); ("floor", 1); ("fmod", 2); ("hypot", 2);
   ("isfinite", 1); ("isinf", 1); ("isnan", 1); ("log10", 1); ("log1p", 1); ("log2", 1); ("logaddexp2", 2);
   ("logaddexp", 2); ("log", 1); ("max", 2); ("fmax", 2); ("min", 2); ("fmin", 2); ("pow", 2); ("rad2deg", 1);
   ("mod", 2); ("rint", 1); ("sign", 1); ("sinh", 1); ("sin", 1); ("sqrt", 1); ("tanh", 1); ("tan", 1);
   ("trunc", 1)].

(** Is the last of [n] arguments of [f] the array for the result? *)
Definition takes_out (f : string) (n : nat) : bool :=
  match assoc f ufuncs with Some k => Nat.eqb n (S k) | None => false end.

(** The arguments of [fill]: a number or string, or an array in memory.  Two names may be the same
    array. *)
Inductive marg : Type :=
| MSc (v : val)
| MAr (l : nat).
Definition margs := string -> option marg.
(** The arrays as they are in memory. *)
Definition seen (A : margs) (m : memory) : arrays :=
  fun s => match A s with
           | Some (MSc v) => Some (ISc v)
           | Some (MAr l) => match mcell m l with VCol x => Some (IAr x) | _ => None end
           | None => None
           end.

Section Mem.
  Variable cast : Num -> Z.
  Variable rnd : Qc -> Num.
  Variable user : string -> list arg -> res val.
  (** The arrays whose elements are int32. *)
  Variable int32 : nat -> bool.

  Definition mread (m : memory) (r : ref) : V :=
    match r with
    | RLit c => VCst c
    | RArr l => mcell m l
    | RCut l => match lib cast rnd user "histbook.cut" [mcell m l] with Ok v => v | Err _ => VCol [] end
    end.
  Definition alloc (m : memory) (v : V) : memory * ref := (m ++ [v], RArr (List.length m)).
  Definition slot_vals (v : V) : V :=
    match v with
    | VIdx l => VCol (map (fun o => VNum (nz (match o with Some z => z | None => 0%Z end))) l)
    | _ => v
    end.
  Definition mwrite (m : memory) (r : ref) (v : V) : memory :=
    match r with
    | RLit _ => m
    | RArr l => upd (fun _ => v) l m
    | RCut l => upd (fun _ => slot_vals v) l m
    end.

  (** [library[fcn]( *args)] (calc/__init__.py 354-355).  Every function makes a new array, except
      that histbook.cut (line 325) keeps the memory of an array that is int32 already, and that a
      universal function writes into an additional argument and returns it. *)
  Definition call_m (f : string) (rs : list ref) (m : memory) : memory * res ref :=
    if takes_out f (List.length rs) then
      match lib cast rnd user f (map (mread m) (removelast rs)) with
      | Err e => (m, Err e)
      | Ok v => match last rs (RLit (KS SNone)) with
                | RLit _ => (m, Err TypeError)              (* return arrays must be of ArrayType *)
                | o => (mwrite m o v, Ok o)
                end
      end
    else
      match lib cast rnd user f (map (mread m) rs) with
      | Err e => (m, Err e)
      | Ok v => match rs with
                | [RArr l] => if String.eqb f "histbook.cut" && int32 l then (m, Ok (RCut l))
                              else let (m1, r) := alloc m v in (m1, Ok r)
                | _ => let (m1, r) := alloc m v in (m1, Ok r)
                end
      end.

  (** calc/__init__.py 344-357. *)
  Fixpoint calc_m (s : symtab ref) (e : rtree) (m : memory) {struct e} : memory * res ref :=
    match e with
    | RConst c => (m, Ok (RLit c))
    | RVar n => (m, match lookup ref n s with Some v => Ok v | None => Err KeyError end)
    | RCall f args =>
        let '(m1, vs) := (fix go (l : list rtree) (m : memory) : memory * res (list ref) :=
                            match l with
                            | [] => (m, Ok [])
                            | a :: l =>
                                match calc_m s a m with
                                | (m1, Err e) => (m1, Err e)
                                | (m1, Ok v) => match go l m1 with
                                                | (m2, Err e) => (m2, Err e)
                                                | (m2, Ok vs) => (m2, Ok (v :: vs))
                                                end
                                end
                            end) args m in
        match vs with Err e => (m1, Err e) | Ok vs => call_m f vs m1 end
    end.

  (** fill.py 112-146: [full] makes an array, an array of the caller is used as it is. *)
  Definition param_m (A : margs) (len : nat) (t : tree) (m : memory) : memory * res ref :=
    match param (seen A m) len t with
    | Err e => (m, Err e)
    | Ok v => match (match field_name t with Some s => A s | None => None end) with
              | Some (MAr l) => (m, Ok (RArr l))
              | _ => let (m1, r) := alloc m v in (m1, Ok r)
              end
    end.

  (** fill.py 122-160. *)
  Fixpoint run_m (A : margs) (len : nat) (is : list instr) (s : symtab ref) (out : list (tree * ref)) (m : memory)
    : memory * res (list (tree * ref)) :=
    match is with
    | [] => (m, Ok out)
    | Param n t :: is => match param_m A len t m with
                         | (m1, Err e) => (m1, Err e)
                         | (m1, Ok v) => run_m A len is ((n, v) :: s) out m1
                         end
    | Assign n e :: is => match calc_m s e m with
                          | (m1, Err e) => (m1, Err e)
                          | (m1, Ok v) => run_m A len is ((n, v) :: s) out m1
                          end
    | Export n g :: is => match lookup ref n s with
                          | Some v => run_m A len is s ((g, v) :: out) m
                          | None => (m, Err KeyError)
                          end
    | Delete n :: is => match lookup ref n s with
                        | Some _ => run_m A len is (remove ref n s) out m
                        | None => (m, Err KeyError)
                        end
    end.

  (** fill.py 85-162. *)
  Definition fill_arrays_m (A : margs) (is : list instr) (m : memory) : memory * res (nat * list (tree * ref)) :=
    match scan_length (seen A m) is with
    | Err e => (m, Err e)
    | Ok len => match run_m A len is [] [] m with
                | (m1, Err e) => (m1, Err e)
                | (m1, Ok out) => (m1, Ok (len, out))
                end
    end.

  (** The destinations, and what is in them. *)
  Fixpoint ref_find (g : tree) (out : list (tree * ref)) : option ref :=
    match out with
    | [] => None
    | (u, r) :: out => if tree_eq_dec g u then Some r else ref_find g out
    end.
  Definition contents (m : memory) (out : list (tree * ref)) : list (tree * V) :=
    map (fun p => (fst p, mread m (snd p))) out.

  (** hist.py 397-398: both in place. *)
  Definition mul_elem (t : nat) (a : option Z) : option Z := option_map (fun x => wrap32 (x * Z.of_nat t)) a.
  Definition add_elem (a b : option Z) : option Z :=
    match a, b with Some x, Some y => Some (wrap32 (x + y)) | _, _ => None end.
  Definition flat_step (t : nat) (acc : ref) (d : option ref) (m : memory) : memory * option err :=
    match mread m acc with
    | VIdx a =>
        let m1 := mwrite m acc (VIdx (map (mul_elem t) a)) in
        match d with
        | None => (m1, Some TypeError)
        | Some d =>
            match mread m1 acc, mread m1 d with
            | VIdx a1, VIdx b => if Nat.eqb (List.length a1) (List.length b)
                                 then (mwrite m1 acc (VIdx (map2 add_elem a1 b)), None)
                                 else (m1, Some ValueError)
            | _, _ => (m1, Some TypeError)
            end
        end
    | _ => (m, Some TypeError)
    end.
  Fixpoint flat_loop_m (acc : ref) (axes : list (nat * option ref)) (m : memory) : memory * option err :=
    match axes with
    | [] => (m, None)
    | (t, d) :: rest => match flat_step t acc d m with
                        | (m1, None) => flat_loop_m acc rest m1
                        | (m1, Some e) => (m1, Some e)
                        end
    end.
  (** hist.py 387-400: the first axis' slots are used as they are, and copied for the second. *)
  Definition flat_indexes_m (axes : list (nat * option ref)) (m : memory) : memory * res (option ref) :=
    match axes with
    | [] => (m, Ok None)
    | [(_, d)] => (m, Ok d)
    | (_, d) :: rest =>
        match d with
        | None => (m, Err AttributeError)
        | Some d => let (m1, acc) := alloc m (mread m d) in
                    match flat_loop_m acc rest m1 with
                    | (m2, None) => (m2, Ok (Some acc))
                    | (m2, Some e) => (m2, Err e)
                    end
        end
    end.

  (** hist.py 412-421: copies only if there is a NaN, zeros written into the copies. *)
  Definition zero_at (sel : list bool) (v : V) : V :=
    match v with VCol l => VCol (map2 (fun b x => if b : bool then VNum nzero else x) sel l) | _ => v end.
  Definition clean_weights (w w2 : ref) (m : memory) : memory * res (ref * ref) :=
    match as_nums (Some (mread m w)) with
    | Err e => (m, Err e)
    | Ok x =>
        let selection := map isnan x in
        if existsb (fun b => b) selection then
          let (m1, w') := alloc m (mread m w) in
          let (m2, w2') := alloc m1 (mread m1 w2) in
          let m3 := mwrite m2 w' (zero_at selection (mread m2 w')) in
          (mwrite m3 w2' (zero_at selection (mread m3 w2')), Ok (w', w2'))
        else (m, Ok (w, w2))
    end.
  (** hist.py 407-421. *)
  Definition weights_m (h : hist) (len : nat) (out : list (tree * ref)) (m : memory)
    : memory * res (option (list Num * list Num)) :=
    match h_weight h with
    | None => (m, Ok None)
    | Some (WxConst v) => (m, Ok (weights len (WConst v)))
    | Some (WxTree t) =>
        match ref_find t out, ref_find (square t) out with
        | Some w, Some w2 =>
            match clean_weights w w2 m with
            | (m1, Err e) => (m1, Err e)
            | (m1, Ok (w', w2')) =>
                (m1, do x <- as_nums (Some (mread m1 w'));
                     do x2 <- as_nums (Some (mread m1 w2')); Ok (Some (x, x2)))
            end
        | _, _ => (m, Err TypeError)
        end
    end.

  (** hist.py 386-494.  A destination of the wrong kind is refused first, as in [read_dest]; the
      groups and profiles are read after the slots and weights have been prepared. *)
  Definition postfill_m (h : hist) (len : nat) (out : list (tree * ref)) (c : content) (m : memory)
    : memory * (content * option err) :=
    match read_dest h (contents m out) with
    | Err e => (m, (c, Some e))
    | Ok _ =>
        match flat_indexes_m (combine (l_tots (hist_layout h)) (map (fun p => ref_find (axis_goal p) out) (h_fixed h))) m with
        | (m1, Err e) => (m1, (c, Some e))
        | (m1, Ok idx) =>
            match weights_m h len out m1 with
            | (m2, Err e) => (m2, (c, Some e))
            | (m2, Ok ws) =>
                match read_dest h (contents m2 out), option_map (mread m2) idx with
                | Err e, _ => (m2, (c, Some e))
                | Ok d, None => (m2, filldict (hist_layout h) len (d_group d) c None (d_prof d) ws None)
                | Ok d, Some (VIdx i) => (m2, filldict (hist_layout h) len (d_group d) c (Some i) (d_prof d) ws None)
                | Ok d, Some _ => (m2, (c, Some TypeError))
                end
            end
        end
    end.

  Variable order : tree -> list tree -> list tree.     (* iteration orders: see Instr.v *)

  (** hist.py 375-377. *)
  Definition hist_fill_m (srcs : list tree) (h : hist) (A : margs) (c : content) (m : memory)
    : memory * (content * option err) :=
    let c0 := prefill (hist_layout h) (List.length (h_group h)) c in
    match (do is <- instructions order srcs (hist_goals h); do _ <- fields srcs; Ok is) with
    | Err e => (m, (c0, Some e))
    | Ok is => match fill_arrays_m A is m with
               | (m1, Err e) => (m1, (c0, Some e))
               | (m1, Ok (len, out)) => postfill_m h len out c0 m1
               end
    end.

  (** book.py 583-584: one _postfill after another, in the same memory. *)
  Fixpoint postfill_all_m (hs : list hist) (len : nat) (out : list (tree * ref)) (stored : list nat) (ids : list nat)
      (cs : list content) (m : memory) : memory * (list content * option err) :=
    match ids with
    | [] => (m, (cs, None))
    | i :: ids =>
      match nth_error hs i, nth_error cs i with
      | Some h, Some c =>
        match postfill_m h len (if existsb (Nat.eqb i) stored then out else []) c m with
        | (m1, (c1, None)) => postfill_all_m hs len out (filter (fun j => negb (Nat.eqb i j)) stored) ids (setc cs i c1) m1
        | (m1, (c1, Some e)) => (m1, (setc cs i c1, Some e))
        end
      | _, _ => (m, (cs, Some NameError))
      end
    end.

  Variable limit : nat.                                (* Python's recursion limit *)

  (** book.py 569-584 *)
  Definition book_fill_m (srcs : list tree) (hs : list hist) (A : margs) (B : books) (b : nat) (cs : list content) (m : memory)
    : memory * (books * list content * option err) :=
    match book_hists limit B b with
    | Err e => (m, (B, cs, Some e))
    | Ok ids =>
      let cs0 := prefill_all hs ids cs in
      let '(B1, r) := book_fields order limit srcs hs B b in
      match r with
      | Err e => (m, (B1, cs0, Some e))
      | Ok (is, stored) =>
        match fill_arrays_m A is m with
        | (m1, Err e) => (m1, (B1, cs0, Some e))
        | (m1, Ok (len, out)) =>
          let '(m2, (cs1, e)) := postfill_all_m hs len out stored ids cs0 m1 in (m2, (B1, cs1, e))
        end
      end
    end.
End Mem.
