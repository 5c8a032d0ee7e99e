# Formal model of henryiii/histbook in Rocq

The code is read as text from /repo/histbook.  The model is a set of total, computable
Gallina functions that follow the Python functions branch by branch, with exceptions as
values.  Everything below refers to the pinned commit.

## 1. Layout of rocq/theories

Model files (each definition cites the file and lines it models):

| file | code modelled |
|---|---|
| Num.v | floats: exact rationals with +inf, -inf and NaN |
| Base.v | exceptions as values |
| Axis.v | axis constructors, keys, `compatible`, `__eq__` (axis.py) |
| Calc.v | vectorised binning functions (calc/__init__.py) |
| Content.v, Fill.v | content arrays and dicts, `_prefill`, `_postfill`, `filldict` (hist.py) |
| Tree.v, Instr.v | call graphs, schedule, instruction machine (instr.py, fill.py) |
| Elem.v, HistFill.v | element-wise functions and the whole of `Fillable._fill` and `Hist.fill` (calc, fill.py, hist.py) |
| Order.v, Expr.v | ordering, parsing into normal forms, lowering (expr.py, instr.py `totree`) |
| HistAlg.v | +, *, +=, *=, clear, group, copies on values (hist.py) |
| Json.v | tojson/fromjson, pickling, JSON text (hist.py, axis.py, expr.py) |
| Heap.v, HeapDerive.v | the same operations on mutable, aliased arrays and dicts (hist.py, proj.py) |
| Shared.v | axis objects shared between histograms, the constructor's index numbers (hist.py, proj.py, axis.py) |
| Nd.v | Numpy arrays of any shape, broadcasting, Python values |
| Proj.v | project, drop (proj.py) |
| Select.v, Remap.v | select (axis.py, proj.py) |
| Rebin.v | rebin, rebinby (axis.py, proj.py) |
| Table.v | table, fraction (proj.py) |
| Glob.v, Book.v | fnmatch, paths, iteration (book.py) |
| BookFill.v | Book.fill with shared instructions (book.py, fill.py) |
| BookHeap.v, BookHeapSamples.v, BookHeapFill.v | books as mutable objects, sums, copies, samples (book.py) |
| Pandas.v, Root.v | exports (export.py) |
| Spark.v | Spark column expressions and fills (calc/spark.py, hist.py) |
| Vega.v, VegaEnc.v, VegaComb.v | chains, data, encodings and combinations of plots (vega.py) |
| ReprBook.v | __str__ of books as calls, and how their constructors read them (book.py 59-87, 143-144, 626-637) |
| BookDict.v | pop, popitem, setdefault and update, inherited from collections.MutableMapping (book.py 50, 258-296, 418-420) |
| Shape.v | shape, as the constructor computes it (hist.py 185-254, 320-323) |
| Access.v (slices) | slices, lists and masks as indexes (hist.py 753-760) |
| Repr.v | __repr__ of axes, histograms and intervals as calls, and how Python binds arguments (axis.py, hist.py 307-315) |
| Print.v, PrintSpec.v | printing of expressions (expr.py __str__, __repr__) and the option fill of the constructor (hist.py 259-265) |
| AlgR.v, AlgRSpec.v | +, +=, *, *= of histograms and projections with rounded arithmetic (hist.py 496-597, proj.py 230-293) |
| AxisAttr.v, AxisAttrSpec.v | properties, type checks, copy, relabel, items, binwidth of axes (axis.py) and axis lookups (proj.py 52-85) |
| PyCmp.v, PyCmpSpec.v | ==, <, hash of expressions (expr.py 485-1060) and hash of axes |
| Lib.v (last part) | erf, erfc, gamma, lgamma, factorial (calc/__init__.py 105-145) |
| FillR.v | _postfill for any arithmetic, and the rounding of float64 (hist.py 386-494) |
| FillMem.v | fills on arrays in memory: which operations make, share or overwrite arrays (fill.py 85-162, hist.py 375-494, book.py 569-584, calc/__init__.py 38-145, 325-357) |
| Lib.v | functions in expressions: which names are known, what they compute (expr.py 118-124, 307-320, 333-442; calc/__init__.py 54-147, 353-357) |
| HistFluent.v | weight, filter, systematic, cleared; the constructor from parsed axes; the option fill= (hist.py 58-68, 96-98, 154-265) |
| Meta.v | attachments as shared dicts: which operations copy, merge, take over or write them; sharing of destinations (hist.py 58-98, 127-151, 272-305, 530-532, 585-587; book.py 97-138, 424-472, 507-509, 609) |
| BookDest.v | Book.fill for histograms that share destinations (hist.py 493-494, 530-531, 585-586) |
| Interval.v | comparison, hash and sorting of bin keys (axis.py 38-152; sorted() in vega.py 563, 656, 661) |
| Access.v | hist.axis[..], hist[..], groupkeys (proj.py 39-50, 90-94; hist.py 753-795) |
| HistNew.v | the constructor, from written expressions to goals (hist.py 133-260) |
| BookTree.v | books as trees with classes and attachments: ==, compatible, assertcompatible, tojson, fromjson, group, SystematicsBook (book.py 65-103, 143-196, 210-277, 482-511, 626-630) |

`*Spec.v` (and ExprDefs.v, SelOr.v) hold small specifications that do not use the model's
helpers.  `*Facts.v`, `*Proofs*.v`, `*Main*.v` and the remaining files hold lemmas.  `Props_*.v`
hold the property theorems, each followed by `Print Assumptions`, with `Example`s that a concrete
case meets the hypotheses.

`tools/` has the generators of properties.jsonl and MANIFEST.json and the script that rebuilds
an edited scratch copy; `seeded/LOG.jsonl` has one line for each edit tried.

## 2. Modelling decisions

* **Numbers.** A Python/Numpy float is `Num = Fin q | PInf | NInf | NaN` with `q` an exact
  canonical rational (`Qc`).  Addition, multiplication, division and comparisons follow
  IEEE-754 on the special values.  Rounding is not modelled, except where a function takes an
  explicit rounding parameter `rnd` (binning, property C08).  Signed zeros are not distinguished.
  Square roots (table, fraction, pandas, ROOT, plots) are a parameter of the theorems.
* **Integer index type.** `numpy` casts float to int32.  Inside the int32 range the cast
  truncates; outside it the C standard leaves the result undefined, so the model takes the
  cast as a parameter with that specification and instances for x86 (INT_MIN) and
  saturating hardware.  Spark's cast to long and its wrap around are modelled as such.
* **Exceptions** are values (`Err tag`).  A theorem that covers only normal results says so.
* **Sets and dicts** whose iteration order is arbitrary in Python are lists in an arbitrary
  order: theorems quantify over the order.  Dicts that keep insertion order are association lists.
* **Aliasing.** Value-level laws use immutable contents.  Isolation properties use heap models
  in which arrays, dicts, books (Heap.v, BookHeap.v) and axis objects (Shared.v) have
  addresses.  Value-level theorems about fills take the axes of a histogram to be in place, which
  Shared.v shows to be so for every new histogram and for every program that moves no axis.
* **Element-wise Numpy operations** are `map`s; `numpy.add.at` is a fold of single additions;
  masked arrays are lists of options.
* **Unbounded recursion** of the code (the normaliser of expressions, iteration of books) is
  modelled with a measure or a fuel argument.  Theorems either show that enough fuel exists or
  quantify over it.

## 3. Properties: what is modelled and how it is proved

A property that is false of the code on part of its domain is stated on the part where it
holds, in properties.jsonl and as a theorem; each remaining case is a theorem named
`..._refuted` with a concrete witness.  C24 and C41 are false altogether; C01 is partial because
its claim about +inf depends on the hardware.

* **C01** bin axis: a filled value lands in the bin whose key interval contains it (partial, Props_Axis.v): histbook_bin and bin.keys; interval membership as the specification; floor/ceil arithmetic over rationals; the int32 cast is a parameter (AxisProofs). 3 refutations.
* **C02** split axis: a filled value lands in the bin whose key interval contains it (proved, Props_Axis.v): histbook_split and split.keys; counting edges below a value in a sorted list, by induction.
* **C03** intbin axis: a filled integer lands on its own key (proved, Props_Axis.v): histbook_intbin and intbin.keys with int32 wrap; proved in range, refuted outside. 2 refutations.
* **C04** cut axis: fail goes to slot 0, pass to slot 1 (proved, Props_Axis.v): histbook.cut; case analysis.
* **C05** groupbin axis: the group key's interval contains the value (proved, Props_Axis.v): histbook_groupbin; floor/ceil arithmetic. 2 refutations.
* **C06** groupby axis: groups are exactly the distinct values (proved, Props_Fill.v): histbook_groupby (numpy.unique), filldict; invariant over the list of fills (KeyMain).
* **C07** axis keys partition the value space (proved, Props_Axis.v): keys functions; order and coverage by arithmetic and induction over sorted edges.
* **C08** binning is in range and monotone under any rounding (proved, Props_Axis.v, Props_Round.v): histbook_bin with a rounding parameter; monotonicity through each step.
* **C09** distinct bin tuples never share a cell (proved, Props_Fill.v): row-major flattening; mixed-radix injectivity by induction on the shape.
* **C10** fill computes exactly the per-cell sums (proved, Props_Fill.v, Props_Hist.v): _postfill (flat indexes, masks, add.at, filldict) refined to a per-cell sum; end to end through the schedule and the element-wise functions (FillMain, HistFillMain*). 2 refutations.
* **C11** no row is lost or counted twice (proved, Props_Fill.v): corollary of C10 by exchanging sums.
* **C12** NaN weights count as zero (proved, Props_Fill.v): _postfill weights; corollary of C10. 1 refutation.
* **C13** a filter is equivalent to a 0/1 weight (proved, Props_Fill.v, Props_Hist.v, Props_Written.v): the constructor's where(filter, 1, 0) * weight (HistNew.v); corollary of C10; for written histograms, C62 on both histograms and the rows picked by the filter (WrittenProofs.v). 1 refutation.
* **C14** filling in chunks equals filling at once (proved, Props_Fill.v, Props_Hist.v, Props_Written.v): two runs of _postfill; sums over append; dictionary merge. 1 refutation.
* **C15** row order does not matter (proved, Props_Fill.v, Props_Hist.v, Props_Written.v): permutation invariance of sums in a commutative monoid.
* **C16** a failed fill changes nothing (proved, Props_Fill.v, Props_Hist.v): Hist.fill as a state transition that returns an error and the state it leaves. 1 refutation.
* **C17** scalars broadcast, and named constants are overridable (proved, Props_Hist.v): Fillable._fill parameter handling, ChainedDict; equality of whole fills.
* **C18** the instruction schedule computes every goal (proved, Props_Instr.v): grow/walkdown/instructions with arbitrary iteration orders; symbol table machine; invariants (InstrProofs).
* **C19** required fields are exactly the fields the goals mention (proved, Props_Hist.v): sources; induction on expressions. 1 refutation.
* **C20** lowering to function calls preserves meaning (proved, Props_Expr.v): totree with its binary reduction; induction. 1 refutation.
* **C21** algebraic normalization preserves the value of an arithmetic expression (proved, Props_Expr.v): parse, combine, distribute, collect, cancel over rational values (ExprAlg, ExprShape). 3 refutations.
* **C22** boolean normalization preserves truth (proved, Props_Expr.v): Logical normal form, negate, combine (ExprLogic). 1 refutation.
* **C23** equivalent spellings denote the same axis (proved, Props_Expr.v, Props_Written.v): sorting of terms, canonical forms; polynomials that agree everywhere have equal coefficients (ExprPoly). 2 refutations.
* **C24** negated predicates select the complement (partial, Props_Expr.v, Props_Negation.v): Predicate handling in totree/calculate: refutation. 1 refutation.
* **C25** histogram addition is commutative, associative and has the cleared histogram as unit (proved, Props_Alg.v): add on nested dict/array contents. 1 refutation.
* **C26** adding histograms equals filling one histogram with all the data (proved, Props_Alg.v): C10 and C25.
* **C27** in-place operators agree with the pure ones (proved, Props_Alg.v, Props_Heap.v): iadd/imul on values, heap version for the frame. 1 refutation.
* **C28** scaling is linear (proved, Props_Alg.v): mul on contents. 2 refutations.
* **C29** copies are isolated (proved, Props_Heap.v): heap model; invariant (separation of the trees of unflagged variables) over all programs. 2 refutations.
* **C30** deriving a histogram never changes the original (proved, Props_Heap.v, Props_Shared.v): contents: heap model with derivations (HeapDerive); axis objects: Shared.v, an invariant "every axis is in its place" over all programs; refutations where the constructor renumbers a shared axis. 6 refutations.
* **C31** clear is a fresh start (proved, Props_Heap.v): state machine of fills.
* **C32** equality and compatibility are equivalence relations (proved, Props_Alg.v, Props_BookTree.v): compatible/eq functions. 3 refutations.
* **C33** JSON round trip (proved, Props_Alg.v): tojson/fromjson on a JSON value type, and through JSON text. 2 refutations.
* **C34** grouping keeps sources separate (proved, Props_Alg.v, Props_Heap.v): group on contents. 3 refutations.
* **C35** projection equals filling the smaller histogram (proved, Props_Proj.v): numpy.sum over an axis on row-major arrays (Nd.v, Proj.v); C10; ProjFill.v, ProjE2E.v.
* **C36** projections compose and commute with addition and scaling (proved, Props_Proj.v): as C35. 1 refutation.
* **C37** projecting out a group axis sums the groups (proved, Props_Proj.v): addall recursion: its pairing of neighbours, by induction on the power of two. 6 refutations.
* **C38** select keeps exactly the bins inside the selection (proved, Props_Near.v, Props_Select.v, Props_Threshold.v): _select on bin/split/intbin/cut/groupbin, slices of arrays. 5 refutations.
* **C39** group selection keeps exactly the matching keys (proved, Props_Select.v): selection closures. 2 refutations.
* **C40** rebin sums adjacent bins (proved, Props_Rebin.v): _rebinsplit loop; invariant of the edge scan.
* **C41** rebinby groups a whole number of bins (partial, Props_Rebin.v): rebinby call chain: refutation for every histogram. 1 refutation.
* **C42** drop removes profiles only (proved, Props_Proj.v): drop; refutation and the case where it is right. 2 refutations.
* **C43** table reports counts, errors and means of the bins (proved, Props_NormSplit.v, Props_Table.v): table arithmetic over C10; Cauchy-Schwarz for the effective count and the error of the mean. 4 refutations.
* **C44** fractions are between zero and one (proved, Props_Table.v): _fraction arithmetic on slices of cuts. 3 refutations.
* **C45** book lookup returns what was stored (proved, Props_Book.v): _get/_set on ordered dict trees with addresses. 2 refutations.
* **C46** book deletion removes exactly the named entry (proved, Props_Book.v): _del. 2 refutations.
* **C47** wildcard lookup returns exactly the matching entries (proved, Props_Book.v): _iteritems with a matcher for fnmatch patterns. 3 refutations.
* **C48** filling a book equals filling each histogram (proved, Props_BookDest.v, Props_BookFill.v, Props_BookHeap2.v): Book.fill with shared instructions; C18 for the union of the goals. 5 refutations.
* **C49** book addition is entry-wise (proved, Props_BookHeap.v, Props_BookHeap2.v, Props_BookTotal.v): book add on the heap of books and histograms. 3 refutations.
* **C50** book copies are isolated (proved, Props_BookHeap.v, Props_BookHeap2.v, Props_BookHeap3.v, Props_BookTotal2.v): heap of books; frame lemmas over programs. 2 refutations.
* **C51** sample books replicate independently (proved, Props_BookHeap.v, Props_BookHeap2.v, Props_BookTotal2.v): as C50. 1 refutation.
* **C52** Spark fills agree with Numpy fills (proved, Props_Spark.v, Props_SparkFar.v): Spark column expressions against the calc functions; grouping of rows by bin. 13 refutations.
* **C53** Pandas index rows match table rows (proved, Props_Pandas.v): index product order against the rows of the table. 5 refutations.
* **C54** ROOT export moves every bin to the right ROOT bin (proved, Props_Root.v): bin re-indexing of projected arrays. 5 refutations.
* **C55** definitions are substitutions (proved, Props_Expr.v): substitution in the parser; induction on the source expression.
* **C56** pickle round trip (proved, Props_Alg.v): __getstate__/__setstate__ as values.
* **C57** the data of a plot show every bin (proved, Props_Vega.v): the recursion of _data over items of dicts and slices of arrays; specification: list of group/bin rows with their numbers in the projection. 5 refutations.
* **C58** colours and stacking of a plot name the labels of the data (proved, Props_VegaEnc.v): domains and encodings, makeorder. 3 refutations.
* **C59** plotting chains accept exactly what they can draw (proved, Props_VegaEnc.v): chain constructors; induction over the sequence of calls.
* **C60** a combination of plots shows each of its plots (proved, Props_VegaComb.v): numbering of plots (letters), filters by id; injectivity of the names; mutual induction over combinations. 1 refutation.
* **C61** the data of a heat map show every bin (proved, Props_VegaHeat.v): as C57 with two axes. 2 refutations.
* **C62** a histogram holds what its written expressions say (proved, Props_Accept.v, Props_HistNew.v): the constructor from written expressions (HistNew.v), C22 for each expression, C10 for the fill; parsing and lowering add no names (ExprNames.v). 3 refutations.
* **C63** JSON brings every book back (proved, Props_BookTree.v): books as trees with classes and attachments (BookTree.v); what programs can make is proper (induction on histories), and proper books come back (induction on the tree), with the roundtrip of histograms of C33. 1 refutation.
* **C64** compatible compares the shapes of books (proved, Props_BookTree.v): alike is an inductive relation on trees (BookTreeSpec.v), shown to be an equivalence and to be what the recursive comparison decides, by induction on the tree. 2 refutations.
* **C65** a SystematicsBook holds alike entries with systematics (proved, Props_BookTree.v): the check of _changed holds after every assignment and deletion that does not raise (the induction of C63) and decides the specification with C64. 2 refutations.
* **C66** group of books keeps the entries of each book (proved, Props_BookTree.v): group on trees, for every order of the set of names; induction on the recursion limit for the histograms at each path, the paths and the success; C34 for the contents. 2 refutations.
* **C67** good expressions are accepted (proved, Props_Accept.v): Parsing is total on the class: each step of the algebra and of the logic succeeds on operands that have a value; what varies is not folded to a constant, by C22 on two rows. For histograms, the same for each text and for the product of filter and weight. 5 refutations.
* **C68** groupkeys, indexes and axis lookups find what was filled (proved, Props_Access.v): The keys at each depth of the nested dicts grow by the uniques of that column if all earlier columns have some (induction over the group axes and over the fills); an index walks the dicts by their keys and an array by the row-major position. Lookups of an axis compare normal forms, so C22 gives equal values. 3 refutations.
* **C69** bin keys are ordered like the values in them (proved, Props_Interval.v): The edges of an axis are strictly increasing (C07), so its keys are strongly sorted by <; a strongly sorted permutation of such a list is the list itself, and the insertion sort gives one. The sort is then used as the sorted of C58. 4 refutations.
* **C70** attachments are seen by those that share them (proved, Props_Meta.v): A state of dicts, holders and addresses; beside it a record of origins. Invariant over all programs: two holders have the same address exactly if they have the same origin; new addresses are fresh. From that what each step changes, and by induction on programs that only sharers change an attachment. 2 refutations.
* **C71** the ways of building a histogram agree (proved, Props_Fluent.v): new_from is the constructor for axes that may be parsed already (HistFluent.v); sorting the axes into group, fixed and profile is idempotent, so constructing again from the parsed axes is constructing from the texts; induction on the sequence of calls. fill_missing of C16 for the refutation. 1 refutation.
* **C72** functions in expressions compute what their names say (proved, Props_Lib.v): Lib.v has the table of names and the library, as the list of assignments that build it; the functions that leave the rationals are a parameter. Rounding and remainders are proved by linear arithmetic on the rationals from the property of floor; that every accepted name computes by going through the table. The library meets the hypotheses that the theorems on expressions put on it (broadcasts, powers), so those hold for it. 4 refutations.
* **C73** filling only reads the arrays it is given (proved, Props_FillMem.v): FillMem.v runs the instructions and _postfill on references to arrays in memory: what makes a new array, what passes one on, what writes into one. A simulation relates references to the values of HistFill.v, Fill.v and BookFill.v; memory only grows. For expressions with additional arguments an invariant ties each variable to the fields it may be an alias of. 1 refutation.
* **C74** what filling with float64 numbers guarantees (proved, Props_Round.v): FillR.v is Fill.v for any addition and multiplication (Fill.v is definitionally its instance with exact ones). The fill theorem is proved again with a left fold instead of a sum. float64 is the exact operation followed by round53, which is proved closest, monotone and exact on numbers with 53 bits; the error bound is by induction on the rows. 3 refutations.
* **C75** what erf, erfc, gamma, lgamma and factorial compute (proved, Props_LibFun.v): Lib.v now spells out the two functions on exact numbers with infinities, for any exp and log. Monotonicity reduces to a difference quotient of the polynomial, proved positive with squares; the sign of the Lanczos series to the sign of a polynomial of degree six. 4 refutations.
* **C76** expressions and axes compare, sort and hash consistently (proved, Props_PyCmp.v): PyCmp.v follows the methods __eq__, __lt__ and __hash__ with the Python types of constants. A three-way comparison of an encoding into nested tuples is shown to tell what == and < answer; the order theory then comes from Order.v, and the same encoding connects the Python objects to Expr.v and to call trees. Hashes: the key of a set is its sorted list, which is the same for permutations of scalars of one kind, and TypeError otherwise. 3 refutations.
* **C77** what an axis says about itself is true of its bins, and an axis can be found by its kind and properties (proved, Props_AxisAttr.v): AxisAttr.v has the properties of every class as a list of names and values, the type checks of the constructors on Python values, copy, relabel, items, the loop of bin.binwidth with roundings, and the lookups. The sizes and flags follow from the list of keys being underflow, finite bins, overflow, nanflow in this order. AxisWidth.v bounds the loop: each subtraction of one unit reduces the product by more than a rounding can hide. It also gives the hypothesis on widths of C43. 4 refutations.
* **C78** histograms are added, scaled and projected with the machine's numbers as users expect, within known errors (proved, Props_AlgR.v): AlgR.v repeats the arithmetic of HistAlg.v for any addition and multiplication and the projection for any way to sum; with exact operations they are the earlier models (C78_exact_instance, C78_exact_projection). A sum in any order and bracketing is an inductive relation; by induction over it a sum of integers is exact and the error of n numbers is bounded by (1 + 2^-53)^(n-1) - 1. Adding zero changes no machine number, so blocks missing on one side do not matter. Rounding commutes with powers of two. 3 refutations.
* **C79** data given to the constructor go to the field of the axis or it fails (proved, Props_Print.v): Print.v models __str__ and __repr__ of all expression classes and the last lines of the constructor. By induction over expressions, what is printed is longer than each field in it unless the expression is that field; by induction over the lowering, every field in the expression is needed by the fill, and it is then missing. 1 refutation.
* **C80** axes, histograms, books and bins print as calls that read back as what they are (proved, Props_Repr.v, Props_ReprBook.v): Repr.v models __repr__ of the axis classes, of Hist and of the intervals as calls, and how Python binds positional and keyword arguments and defaults to parameters. Case analysis over the options, with the constructors of C77 and the rebuilding of C33. ReprBook.v does the same for books; induction over books as trees. 3 refutations.
* **C81** slices, lists and masks pick the bins they mean (proved, Props_Slice.v): Access.v models the indexes, with the bounds of slices as in CPython. SliceSpec.v says which elements a slice, a list and a mask mean. Integer arithmetic for the slices, induction over the elements picked. 2 refutations.
* **C82** shape says how large the arrays of a histogram are (proved, Props_Shape.v): Shape.v has the loops of the constructor. Induction over the axes; the size of the arrays is that of hobj_ok, which the constructor, fills and the operations establish. 1 refutation.
* **C83** books have the methods of a dict (proved, Props_BookDict.v): BookDict.v has the methods of collections.MutableMapping in terms of the operations of Book.v. Case analysis on C45 and C46; induction over the pairs for update; C47 for the keys that iteration gives. 3 refutations.

## 4. Trusted base

* The kernel of Coq 8.16.1; `coqchk` can recheck the compiled files.
* `Print Assumptions` prints "Closed under the global context" for every property theorem: none
  depends on an axiom, not even on one of the standard library.  (A listing of all axioms that the
  loaded libraries declare shows seven in `Coq.ssr.ssrunder.Under_rel`; they come with the standard
  library's ssreflect files and no theorem here depends on them.)
* No axioms, parameters or admitted proofs of our own; section variables are discharged, so that they
  are visible as quantified hypotheses of the theorems.
* That the model reads the code faithfully.  The cited lines are the only link; nothing is run.
* That Numpy, Python's dict, list, sort and ast, collections.MutableMapping (whose methods books
  inherit) and fnmatch behave as their models in Num.v, Calc.v,
  Elem.v, Nd.v, Order.v, BookDict.v and Glob.v say.

Hypotheses that stand for libraries, and what meets them:

* `cast`: float to int32, correct inside the range (instances for x86 and for saturating hardware).
* `rnd`: rounding of a float operation, monotone and exact on integers where that is needed
  (instances: the identity, and the rounding of float64, C08_bin_index_monotone_float64).
* `user`: the functions of the library that are not built in (`sin`, ...), any function that does not
  tell a literal from a constant column (`broadcasts`), with `pow` a power for the exponents -4..4
  (`powers`); instance `powlib` in Props_Expr.v.
* `order`, `srcs`: iteration orders of Python sets, any permutation.
* `sqrt`: any function, or one that is monotone, as stated.

## 5. What is modelled, exactly

The table of section 1 says which file models what, and each definition cites its lines.  In short,
modelled are: the axis classes of axis.py (constructors, properties, keys, selection, rebinning, comparison, JSON);
calc/__init__.py and calc/spark.py; instr.py; fill.py; proj.py; expr.py from the syntax tree on;
hist.py (constructor, fills, algebra, group, copies, JSON, pickling, equality); book.py (lookup,
assignment, deletion, iteration, fills, copies, algebra, samples); export.py; vega.py (chains, data,
encodings, combinations).

Not modelled:

* the text parser (`ast.parse`) and unparser (util/astunparse.py), the printing of plots and tuples of keys, line breaks and indents of printed books, documentation;
* in calc/__init__.py: the functions that leave the rationals (sqrt, exp, log, sin, ...) are a parameter;
* float rounding, except where `rnd` appears, in FillR.v (C74), which treats the sums of a fill, in AlgR.v (C78), which treats sums, products and projections of histograms, and in AxisWidth.v (C77); overflow of float64; performance and memory;
* in hist.py: arrays of several dimensions as indexes, `togroup` (it is defined without the parameter `self`, so every call on a histogram is a TypeError), the option `fill=` with Spark or Pandas data;
* in book.py: thread safety;
* in vega.py: widths, heights, titles, scales, configuration, front ends;
* in export.py: the ROOT and Pandas libraries themselves (the model stops at the values given to them);
* the scheduling of Spark jobs (a Spark fill is a function of the rows).

## 6. Findings

The limits of each claim, as in MANIFEST.json, with the theorems that refute what lies beyond.

* **C01** proved for a saturating int32 cast; on x86 proved up to 2^31-2 bins above low and refuted for +inf and beyond; refuted for numbins=0. (`C01_bin_x86_infinity_refuted`, `C01_bin_x86_large_finite_refuted`, `C01_bin_numbins0_refuted`)
* **C03** within the int32 range of the index; refutations outside it and for floats just below min. (`C03_intbin_wrap_refuted`, `C03_intbin_float_below_min_refuted`)
* **C05** finite values and NaN; refuted for infinite values, and keys() raises once NaN has been filled. (`C05_groupbin_infinity_refuted`, `C05_groupbin_nan_keys_refuted`)
* **C10** exact sums for every layout; with a profile the rows must be inside the fixed axes (refuted otherwise: the fill raises); an axis of a constant-only function call is refuted. (`C10_dropped_row_with_profile_refuted`, `C10_missing_axis_column_refuted`)
* **C12** for finite profiled values; refuted for an infinite one. (`C12_infinite_profile_refuted`)
* **C13** end to end from the written histogram (C13_filter_as_written), with or without a weight, for any content; refuted for NaN profiled values of rejected rows. (`C13_nan_profile_refuted`)
* **C14** cells for any chunking, blocks too with at most one group axis, also from the written histogram; refuted for blocks with two. (`C14_two_group_axes_refuted`)
* **C16** missing field, length mismatch, or an expression that raises: nothing changes and later fills are the same; refuted for a grouped profile histogram whose fill raises after some groups were updated. (`C16_partial_fill_refuted`)
* **C19** for histograms without a constant axis; refuted with one (fields raises TypeError). (`C19_constant_axis_refuted`)
* **C20** normal forms without negated predicates, whose predicates are boolean fields; refuted for a negated predicate. (`C20_negated_predicate_refuted`)
* **C21** for the stated class of expressions (syntactic criterion plain, and the weaker criterion good on the parsed operands); refuted outside it: constants lost in products, wrong cancellation, rejected expressions. (`C21_constant_lost_refuted`, `C21_cancel_refuted`, `C21_rejected_refuted`)
* **C22** through parsing and lowering; refuted for NaN. (`C22_nan_refuted`)
* **C23** commutative laws for all operands, the rest for polynomials; refuted for a grouping of a sum with quotients and for products of two sums with constant terms. (`C23_grouping_refuted`, `C23_multiplied_out_refuted`)
* **C24** false of the code as stated: refuted, not p is computed as p for every row if p is a plain name, and not of a comparison does not hold for NaN. Proved in the class of C22 (conditions made of comparisons without NaN): a histogram filtered or cut by not c holds the rows where c is false, and with the one filtered by c all rows. (`C24_negated_predicate_refuted`)
* **C25** both weighted or both not; refuted for a mix, whose sum does not fit its own layout. (`C25_mixed_weights_refuted`)
* **C27** both weighted or both not, and no other histogram changes; refuted for a mix (+ accepts, += raises). (`C27_mixed_weights_refuted`)
* **C28** finite scalars; refuted for squared weights and for histograms never filled. (`C28_squared_weights_refuted`, `C28_unfilled_refuted`)
* **C29** every program over any number of histograms; refuted for copyonfill() when the copy is changed by *= before its first fill, and when the original is filled before that. (`C29_copyonfill_imul_refuted`, `C29_copyonfill_original_refuted`)
* **C30** contents: for every program of derivations and changes of the originals; axis objects: for every program that keeps axes in place; refuted for project, drop and select that move an axis, and for + and group selections that share groups. (`C30_sum_shares_refuted`, `C30_select_group_shares_refuted`, `C30_project_refuted`, `C30_copy_after_project_refuted`, `C30_select_refuted`, `C30_drop_refuted`)
* **C32** NaN-free numbers; histograms and books; refuted with NaN, and for books with the same entries in another order. (`C32_nan_axis_refuted`, `C32_nan_content_refuted`, `C32_book_order_refuted`)
* **C33** every axis a constructor returns; refuted through JSON text for numeric group keys, and for the null axis of a projection. (`C33_text_refuted`, `C33_null_axis_refuted`)
* **C34** filled members without filters, all weighted or none, any later operations; refuted with filters, unfilled or mixed members. (`C34_filter_refuted`, `C34_unfilled_refuted`, `C34_mixed_weights_refuted`)
* **C36** group axes kept; refuted for an infinite factor. (`C36_infinite_factor_refuted`)
* **C37** 2, 4, 8, ... keys in each removed dict, or one removed group axis; refuted for none, one and other numbers of keys. (`C37_shape_refuted`, `C37_second_projection_refuted`, `C37_one_key_refuted`, `C37_no_keys_refuted`, `C37_outer_group_refuted`, `C37_lists_refuted`)
* **C38** bin, intbin, split, cut and groupbin axes at finite edges, cells and fills; success at every edge, and near an edge with a tolerance of at most half a bin; thresholds written as arithmetic of constants; refuted for == nan, infinite thresholds, cuts on two quantities, groupbin with NaN or inf groups. (`C38_cut_on_two_quantities_refuted`, `C38_equal_nan_refuted`, `C38_infinite_threshold_refuted`, `C38_groupbin_with_a_nan_group_refuted`, `C38_groupbin_below_infinity_refuted`)
* **C39** one comparison, any number joined by and, two joined by or; refuted for three or more joined by or, and for mixtures. (`C39_three_comparisons_joined_by_or_refuted`, `C39_compound_conditions_refuted`)
* **C41** false of the code: refuted, rebinby raises an error for every histogram, axis and factor. (`C41_rebinby_always_fails_refuted`)
* **C42** all profiles dropped; refuted when a profile is kept, and for a filter without a weight. (`C42_keeping_a_profile_refuted`, `C42_filter_without_weight_refuted`)
* **C43** any content, any profiles in any order, and normalized counts with equal bins or one split axis; refuted for normalized=True (the sum of counts times widths is the volume of a bin, not 1), for normalized=True with groups or with a split that is not the last axis, and for a profile given twice. (`C43_repeated_profile_refuted`, `C43_normalized_refuted`, `C43_normalized_groups_refuted`, `C43_normalized_split_refuted`)
* **C44** any content, any cuts in any order, error None, normal or wilson; refuted for histograms without profiles, unimplemented and unknown error names. (`C44_without_profiles_refuted`, `C44_unimplemented_errors_refuted`, `C44_unknown_error_name_refuted`)
* **C45** any history of assignments and deletions; refuted for a book stored at two places and for names with wildcard characters, which cannot be looked up. (`C45_shared_refuted`, `C45_wildcard_name_refuted`)
* **C46** paths without wildcards; refuted for wildcard paths, which delete everything, and fail half way if there are nested books with entries. (`C46_pattern_refuted`, `C46_pattern_nested_refuted`)
* **C47** any history; refuted: a star does not stop at slashes, books are among the results, a pattern is always in the book, a book that contains itself cannot be iterated. (`C47_star_stays_in_one_level_refuted`, `C47_pattern_in_book_refuted`, `C47_cycle_refuted`)
* **C48** refuted for a book that has both h and a sum or multiple made from h (they share their destinations, so the second gets every row in every bin without an error), and for an inner book changed directly (the outer book keeps its old instructions), the same histogram under two names, an empty book (TypeError), and a histogram of numbers only (counts once per row of the others). (`C48_multiple_in_same_book_refuted`, `C48_inner_change_refuted`, `C48_same_histogram_twice_refuted`, `C48_empty_book_refuted`, `C48_number_only_refuted`)
* **C49** refuted: the sum holds the histograms that only one operand has, not copies, so scaling or filling it changes the operand; entries of the second book whose names contain wildcard characters are missing from the sum, and make += fail. (`C49_sum_independent_refuted`, `C49_wildcard_names_refuted`, `C49_iadd_wildcard_refuted`)
* **C50** refuted for copyonfill() of a book that is already filled: filling the copy changes the original, because the fill of a book ignores the mark copyonfill() sets. (`C50_copyonfill_of_filled_refuted`, `C50_imul_twice_refuted`)
* **C51** refuted for histograms that are already filled: all samples share their contents. (`C51_filled_histograms_refuted`)
* **C52** exact arithmetic; refuted for new groups (AttributeError), a filter without a weight (ignored), values below the bins without an underflow bin, values above the bins and NaN with a NaN bin but no overflow bin, infinite and very large values, intbin values above the bins or not whole, groupbin NaN, NaN weights, division by zero, also in filters, and comparisons with NaN. (`C52_new_group_refuted`, `C52_underflow_refuted`, `C52_overflow_refuted`, `C52_infinity_refuted`, `C52_intbin_refuted`, `C52_groupbin_nan_refuted`, `C52_filter_refuted`, `C52_filter_profile_refuted`, `C52_nan_weight_refuted`, `C52_division_refuted`, `C52_nan_comparison_refuted`, `C52_far_above_refuted`, `C52_null_filter_refuted`)
* **C53** refuted for group keys of both types (such as a NaN group beside others), for histograms without axes, when all fixed axes are the given cuts, and for the labels of infinite values. (`C53_no_axes_refuted`, `C53_mixed_groups_refuted`, `C53_infinite_values_refuted`, `C53_all_cuts_refuted`, `C53_level_names_refuted`)
* **C54** refuted for split axes, which are shown with bins of equal width, for the NaN bin, which is left out, for integer bins, cuts and two axes, which are errors, and for the edges of bins closed above; with group axes, up to the limits of C37. (`C54_integer_bins_and_cuts_refuted`, `C54_two_axes_refuted`, `C54_split_refuted`, `C54_nan_bin_refuted`, `C54_closed_high_edges_refuted`)
* **C57** exact arithmetic; normalized=True with bin and intbin axes only; refuted for normalized=True with group axes (AttributeError), for a groupbin axis with a NaN group (TypeError), for removing a group axis with one key (AttributeError), for a split axis that ends at infinity (its first step is at infinity), and for a first bin narrower than 1e-10 of the axis (its step and error bar are those of the next bin). (`C57_normalized_groups_refuted`, `C57_nan_group_refuted`, `C57_one_removed_group_refuted`, `C57_infinite_edge_refuted`, `C57_narrow_first_bin_refuted`)
* **C58** refuted for cuts and intbins: no label of the data is among the colours; and for an overlay and a stack together: the first has no colours. (`C58_cut_legend_refuted`, `C58_intbin_legend_refuted`, `C58_overlay_and_stack_refuted`)
* **C60** refuted: a plot with error bars directly in beside, below or grid has no filter, so that its marks also get the rows of the other plots. (`C60_error_bars_beside_refuted`)
* **C61** exact arithmetic; refuted for an intbin as y axis (AttributeError; as x axis it is drawn) and for split axes (NotImplementedError). (`C61_intbin_refuted`, `C61_split_refuted`)
* **C62** exact arithmetic; refuted for a filter that is the name of a boolean field (refused), a constant filter (accepted, but the fill raises TypeError) and an infinite weight together with a filter (read as a field named inf). (`C62_name_as_filter_refuted`, `C62_constant_filter_refuted`, `C62_infinite_weight_refuted`)
* **C63** refuted after an assignment to a SystematicsBook that raised: it is not undone, and the book does not come back from its JSON. (`C63_failed_assignment_refuted`)
* **C64** refuted for names with wildcard characters (compatible raises AttributeError, assertcompatible ValueError, even for a book and itself) and for a histogram against a book (AttributeError). (`C64_wildcard_names_refuted`, `C64_kinds_refuted`)
* **C65** refuted: an assignment that raises stays in the book, which then refuses good assignments; a book inside it can be changed without a check. A SystematicsBook can never be filled, because it never makes the list of fields (AttributeError). (`C65_failed_assignment_refuted`, `C65_inner_change_refuted`)
* **C66** refuted for SystematicsBooks (ValueError, because the group of histograms has no attachments) and names with wildcard characters (AttributeError); a group of no books is a TypeError. (`C66_systematics_refuted`, `C66_wildcard_names_refuted`)
* **C67** refuted for **, %, // and ^ between two constants, also if they only turn out to be constants, as in (x - x)**2 (KeyError), for & and | with a field (NotImplementedError), for a comparison used as a number (ExpressionError) and for a function or a constant as an operand of and (AssertionError); the part on histograms is C62_accepted. (`C67_constants_refuted`, `C67_cancelled_refuted`, `C67_bitwise_refuted`, `C67_comparison_as_number_refuted`, `C67_call_in_logic_refuted`)
* **C68** refuted for groupkeys of a histogram never filled (AttributeError, not the empty set), without group axes (UnboundLocalError instead of IndexError), and for the values of rows that another group axis drops: present if it comes later, missing if it comes first and drops all rows of the fill. (`C68_groupkeys_unfilled_refuted`, `C68_groupkeys_without_groups_refuted`, `C68_groupkeys_dropped_rows_refuted`)
* **C69** refuted for the key of NaN (less than itself), for intervals of different axes with the same low edge (each is greater than the other), for split with an edge at -inf and underflow (two keys that cannot be ordered), and for intbin axes with underflow or overflow, whose keys cannot be sorted, so that overlaying or stacking such an axis raises TypeError. (`C69_nan_key_refuted`, `C69_same_low_refuted`, `C69_infinite_edge_refuted`, `C69_intbin_keys_refuted`)
* **C70** refuted: attach on h + g or h * x changes the attachments of h; systematic= writes into the dict that was given as attachment=, and so into everything else that shares it. (`C70_multiple_attach_refuted`, `C70_given_dict_written_refuted`)
* **C71** refuted for one array as fill= if the axis is not a plain field (x + 1), or a weight or filter needs another field: ValueError whatever the array, although the documentation asks for one field only. (`C71_fill_array_refuted`)
* **C72** refuted for fmod (all three spellings), which is Python's remainder: fmod(-1, 3) is 2; for round(x), x // y and x ^ y, which are accepted but raise AssertionError in every fill with a row; and for an unknown function of math or numpy, which raises AttributeError; C72_fmod_partial says when fmod is right. (`C72_fmod_refuted`, `C72_missing_functions_refuted`, `C72_missing_functions_accepted_refuted`, `C72_unknown_attribute_refuted`)
* **C73** holds if no Numpy function is called with one argument too many (the two theorems ending in _partial); refuted otherwise: max(x, y, z) is the maximum of two and is written into the caller's array z (C73_fill_only_reads_refuted); an array is never modified unless it is such an argument (C73_only_additional_arguments_are_written). (`C73_fill_only_reads_refuted`)
* **C74** the unrestricted claims are refuted: the order of the rows changes a sum (C74_order_refuted), adding two histograms is not filling one (C74_sum_refuted), and a histogram that counts a fill at once depends on the chunks beyond 2^53 (C74_chunks_at_once_refuted). round53 is proved to be a closest number with 53 bits; its exponent has no bounds (no overflow, no subnormals). (`C74_order_refuted`, `C74_sum_refuted`, `C74_chunks_at_once_refuted`)
* **C75** findings: erf(0) is 1e-9 and no number has erf 0 (C75_erf_zero_refuted); gamma is NaN between -1 and 0 and below -4.5, where the gamma function has values (C75_gamma_negative_refuted); gamma, lgamma and factorial of a literal raise TypeError because len() is called on a number (C75_gamma_of_literal_refuted, C75_literal_raises_refuted). exp and log are parameters; the distance from the true erf and gamma functions is not proved. (`C75_erf_zero_refuted`, `C75_gamma_negative_refuted`, `C75_gamma_of_literal_refuted`, `C75_literal_raises_refuted`)
* **C76** findings: f(1)*f(1.5) and f(1.0)*f(1.5) are equal factor by factor but are put in different orders, because constants are first ordered by the names of their types, so they are different expressions (C76_int_float_refuted); < between sets is inclusion, so x in {1} or x in {2} may be kept in either order and the two are not equal (C76_sets_refuted); a set literal with values that cannot be ordered, such as {1, 'a'}, cannot be hashed and its expression cannot be used in a selection (C76_mixed_set_refuted). (`C76_mixed_set_refuted`, `C76_int_float_refuted`, `C76_sets_refuted`)
* **C77** findings: bin.binwidth is always less than the width of the bins, because the loop that corrects it subtracts at least one unit (C77_bin_binwidth_refuted), and raises ZeroDivisionError without finite bins, which a lookup by binwidth passes on even if another axis fits (C77_lookup_no_bins_refuted); split.binwidth(i) one below the lowest index gives minus the whole range instead of IndexError (C77_split_binwidth_too_low_refuted); a split is never found by a list of its edges, nor by a binwidth (C77_lookup_split_refuted); a negative number of bins is a TypeError and True is accepted as a number. (`C77_split_binwidth_too_low_refuted`, `C77_bin_binwidth_refuted`, `C77_lookup_split_refuted`, `C77_lookup_no_bins_refuted`)
* **C78** numbers have 53 bits and an exponent without bounds: overflow to infinity and subnormal numbers are not modelled; projections that sum over group axes are covered only by the exact model (C36); refuted: associativity, reassociation of factors and distribution for factors that are not powers of two. (`C78_associative_refuted`, `C78_product_refuted`, `C78_distributes_refuted`)
* **C79** Spark and Pandas data are not modelled; how Python prints constants is left open; refuted: that printing identifies the expression. (`C79_printing_injective_refuted`)
* **C80** the printed call is modelled as class, positional and keyword values, not as text: that Python prints and reads a string, number or tuple as the same value is trusted (inf and nan read back only where these names are defined); definitions given as parsed expressions are not covered, and C79 shows two that print alike; refuted: that the attachment is printed, that a SamplesBook prints a call with its histograms (its constructor takes the dict for a list of samples), and that a SystematicsBook prints a call that does not raise (it needs the attachments). (`C80_attachment_printed_refuted`, `C80_samplesbook_refuted`, `C80_systematicsbook_refuted`)
* **C81** refuted: that hist[:, j] is bin j of the second axis and hist[..., j] element j of the last dimension, as in Numpy; slices of groups raise TypeError because slices have no hash (from Python 3.12 on they have one, and KeyError is raised); arrays of several dimensions as indexes are not modelled. (`C81_second_axis_refuted`, `C81_last_axis_refuted`)
* **C82** refuted for drop of some profiles and not others, which leaves arrays of another shape (C42). (`C82_drop_refuted`)
* **C83** refuted for popitem, which never removes anything, for update with another book, which raises TypeError if that has a histogram, both because iterating over a book gives pairs and not keys, and for pop of a pattern, which removes the entries that do not match as well. (`C83_update_from_book_refuted`, `C83_popitem_refuted`, `C83_pop_pattern_refuted`)
