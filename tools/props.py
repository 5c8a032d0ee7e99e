"""Source table for properties.jsonl: python3 tools/props.py > properties.jsonl"""
import json
P = []
def p(title, statement, quantifier, why, anchors):
    P.append(dict(id="C%02d" % (len(P) + 1), title=title, statement=statement, quantifier=quantifier,
                  why_tests_cant=why, anchors=anchors))

# ---------------------------------------------------------------- axes
p("bin axis: a filled value lands in the bin whose key interval contains it",
  "For every bin(expr, n, low, high, flags) axis the constructor accepts, a value v filled into it is added to the slot whose displayed key (axis.keys()) contains v -- finite interval, underflow interval, overflow interval or {NaN} -- and is dropped exactly when no displayed key contains it.",
  "every accepted bin axis (any n, low < high, any combination of underflow/overflow/nanflow/closedlow) and every value: finite, infinite or NaN",
  "the boundary behaviour depends on v, n, low, high and four flags at once; tests sample a handful of values on two or three axes",
  ["histbook/calc/__init__.py:histbook_bin", "histbook/axis.py:bin.keys", "histbook/axis.py:bin.__init__"])
p("split axis: a filled value lands in the bin whose key interval contains it",
  "For every split(expr, edges, flags) axis the constructor accepts, a value filled into it goes to the slot whose displayed key contains it, and is dropped exactly when no displayed key contains it.",
  "every accepted split axis (any number of distinct edges in any order, any flags) and every value including infinities and NaN",
  "needs every edge list and every value, in particular values equal to an edge for both closedlow settings",
  ["histbook/calc/__init__.py:histbook_split", "histbook/axis.py:split.keys"])
p("intbin axis: a filled integer lands on its own key",
  "For every intbin(expr, min, max, flags) axis, an integer k with min <= k <= max goes to the slot with key k; k < min to underflow, k > max to overflow, or is dropped when that flag is off.",
  "every min <= max, both flags, every integer value representable in the index type",
  "unbounded integers; wrap-around of the index type only shows for particular magnitudes",
  ["histbook/calc/__init__.py:histbook_intbin", "histbook/axis.py:intbin.keys"])
p("cut axis: fail goes to slot 0, pass to slot 1",
  "A cut axis has exactly two keys (False, True); a row whose predicate is false is counted under False, true under True, and no row is lost.",
  "every truth value of every row of every filled array",
  "trivial per element but needed for the composition with every other axis",
  ["histbook/calc/__init__.py:histbook.cut", "histbook/axis.py:cut.keys"])
p("groupbin axis: the group key's interval contains the value",
  "For every groupbin(expr, binwidth, origin, nanflow, closedlow), a finite value v is counted under the key k with k in origin + binwidth*Z such that v is in the interval displayed for k; NaN goes to the NaN group iff nanflow, else it is dropped; no other value is dropped.",
  "every binwidth > 0, origin, flags and every value",
  "sparse bins are created by data, so the key set is unbounded",
  ["histbook/calc/__init__.py:histbook_groupbin", "histbook/axis.py:groupbin.items"])
p("groupby axis: groups are exactly the distinct values",
  "Filling a groupby axis splits the rows into groups by equality of the value: two rows are in the same group iff their values are equal, every row is in exactly one group, and the set of group keys after any history of fills is the set of values that were ever filled.",
  "every sequence of fills with every arrays of categorical values",
  "key sets grow with the history",
  ["histbook/calc/__init__.py:histbook_groupby", "histbook/hist.py:Hist._postfill.filldict", "histbook/hist.py:Hist.groupkeys"])
p("axis keys partition the value space",
  "The keys of a bin, split or intbin axis are pairwise disjoint and listed in increasing order; with all the flow flags on they cover every value (for intbin every integer). len(keys) equals the number of slots the axis allocates.",
  "every accepted axis, every pair of keys, every value",
  "a statement about all values and all axes",
  ["histbook/axis.py:bin.keys", "histbook/axis.py:split.keys", "histbook/axis.py:intbin.keys", "histbook/axis.py:bin.totbins"])
p("binning is in range and monotone under any rounding",
  "Whatever (monotone) rounding the floating-point arithmetic applies, the slot index computed for a bin axis is inside the allocated array, and a larger value never lands in an earlier finite slot than a smaller one.",
  "every monotone rounding function, every accepted axis, every pair of values",
  "floating-point rounding cannot be exhausted by examples",
  ["histbook/calc/__init__.py:histbook_bin"])
p("distinct bin tuples never share a cell",
  "The flat cell index computed from the per-axis slot numbers is within the content array, and two rows land in the same cell iff their slot numbers agree on every axis.",
  "every number of axes, every shape, every slot tuple",
  "an arithmetic injectivity fact for all shapes",
  ["histbook/hist.py:Hist._postfill"])
# ---------------------------------------------------------------- fill
p("fill computes exactly the per-cell sums",
  "After filling a fresh histogram with arrays, each cell holds: the number of rows in that cell (unweighted), or the sum of weights and of squared weights of the rows in that cell, plus for each profile the weighted sums of x and x**2; nothing else changes.",
  "every list of fixed and group axes, profiles, optional weight, and every arrays of every length",
  "must hold for all data and all shapes",
  ["histbook/hist.py:Hist._postfill", "histbook/hist.py:Hist.fill", "histbook/fill.py:Fillable._fill"])
p("no row is lost or counted twice",
  "For a histogram whose axes have all their flow bins on, the sum of all unweighted cell counts after a fill grows by exactly the number of rows filled; in general it grows by the number of rows that no axis drops.",
  "every axes, every data, every history of fills",
  "conservation over all data",
  ["histbook/hist.py:Hist._postfill"])
p("NaN weights count as zero",
  "A row whose computed weight is NaN contributes nothing to the sum of weights, the sum of squared weights and the profile sums; rows with other weights are unaffected.",
  "every weight array and every placement of NaN",
  "interaction with all other columns",
  ["histbook/hist.py:Hist._postfill"])
p("a filter is equivalent to a 0/1 weight",
  "A histogram with filter f and weight w holds the same sums as one without filter filled only with the rows satisfying f (finite weights).",
  "every filter truth assignment, weights and data",
  "relates two different programs on all data",
  ["histbook/hist.py:Hist.__init__", "histbook/hist.py:Hist._postfill"])
p("filling in chunks equals filling at once",
  "Filling a then b gives the same content as filling the concatenation a+b, for histograms with at most one group axis; with more group axes the contents agree up to all-zero blocks.",
  "every histogram, every way of cutting the data into chunks (any number of chunks)",
  "quantifies over all histories of fills",
  ["histbook/hist.py:Hist.fill", "histbook/hist.py:Hist._postfill"])
p("row order does not matter",
  "Permuting the rows of the filled arrays (all columns alike) does not change the content (exact arithmetic).",
  "every permutation of every data",
  "n! permutations",
  ["histbook/hist.py:Hist._postfill"])
p("a failed fill changes nothing",
  "If fill raises because a required field is missing or array lengths differ, the bin contents are what they were before (an untouched histogram may become an all-zero one), and a later correct fill behaves as if the failed one had not happened.",
  "every histogram state, every faulty arrays argument",
  "needs every failure point",
  ["histbook/fill.py:Fillable._fill", "histbook/hist.py:Hist.fill"])
p("scalars broadcast, and named constants are overridable",
  "A scalar given for a field behaves as a constant column of the length of the other arrays; pi, e, inf, nan default to their constants unless given as fields; keyword fields take precedence over dict fields; extra fields are ignored.",
  "every fill argument mix",
  "all mixtures of arrays and scalars",
  ["histbook/fill.py:Fillable._fill", "histbook/util/__init__.py:ChainedDict"])
# ---------------------------------------------------------------- instructions
p("the instruction schedule computes every goal",
  "Whatever order sets and dicts are iterated in, executing the generated instructions stores in each destination the value of its goal expression on the given fields; no instruction reads a variable before it is assigned or after it is deleted, and every goal that depends on at least one field through every sub-call is exported.",
  "every set of goals, every iteration order of the sets, every field values",
  "set iteration order is nondeterministic (hash seeds); graphs are unbounded",
  ["histbook/instr.py:walkdown", "histbook/instr.py:instructions", "histbook/instr.py:CallGraphNode.grow", "histbook/fill.py:Fillable._fill"])
p("required fields are exactly the fields the goals mention",
  "hist.fields lists exactly the field names occurring in the axis, weight and filter expressions.",
  "every goal set",
  "all expressions",
  ["histbook/fill.py:Fillable.fields", "histbook/instr.py:sources"])
p("lowering to function calls preserves meaning",
  "Rewriting a normalized expression (sums, products, relations, and/or) to nested binary function calls evaluates to the same value on every row.",
  "every normalized expression and every row",
  "expressions are unbounded",
  ["histbook/instr.py:totree"])
# ---------------------------------------------------------------- expressions
p("algebraic normalization preserves the value of an arithmetic expression",
  "Parsing an expression built from fields, constants, + - * / and small integer powers yields a normal form with the same value on every row on which no denominator is zero, provided that no product multiplies two sums that both have a constant term and no field or function is a factor both above and below a fraction line. (Without the proviso it does not: 2*(x+1) becomes 2*x and x*y*z/(x*y) becomes y.)",
  "every expression of any depth meeting the proviso, every row of finite values with non-zero denominators",
  "expression space is infinite; cancellation bugs only show on particular shapes",
  ["histbook/expr.py:Expr.parse", "histbook/expr.py:RingAlgebraAddLike.collect", "histbook/expr.py:RingAlgebraAddLike.distribute"])
p("boolean normalization preserves truth",
  "Parsing and/or/not combinations of comparisons and predicates into disjunctive normal form, and from there into the function calls that are executed, gives the same truth value on every row without NaN, provided that no bare predicate is left negated (see C24) and the arithmetic inside comparisons is as in C21.",
  "every boolean expression of any depth meeting the proviso, every NaN-free row",
  "infinite expression space",
  ["histbook/expr.py:Logical.negate", "histbook/expr.py:LogicalAnd.combine", "histbook/expr.py:LogicalOr.combine"])
p("equivalent spellings denote the same axis",
  "x + y and y + x, x*y and y*x, x < y and y > x, p and q and q and p parse to equal expressions whatever the operands are. Two polynomials in the fields (fields, numbers, +, -, *, no product of two sums that both have a constant term) parse to equal expressions exactly when they have the same value for all values of the fields, so (x+y)+z and x+(y+z), a*(x+y) and a*x+a*y are one axis.",
  "every operands for the commutative laws, every pair of polynomials of any size for the rest",
  "all subexpressions",
  ["histbook/expr.py:RingAlgebra.combine", "histbook/proj.py:AxisTuple.__getitem__"])
p("negated predicates select the complement",
  "filter=\"not p\" keeps exactly the rows for which p is false, and cut(\"not p\") counts them as passing.",
  "every row and predicate",
  "all data",
  ["histbook/expr.py:Predicate", "histbook/instr.py:totree", "histbook/calc/__init__.py:calculate"])
# ---------------------------------------------------------------- algebra
p("histogram addition is commutative, associative and has the cleared histogram as unit",
  "For histograms with the same axes, all with a weight or filter or all without, each cell of h1 + h2 is the sum of the two cells and a group is present when it is in one of them; h1 + h2 = h2 + h1, (h1 + h2) + h3 = h1 + (h2 + h3), and h + cleared = h, including group axes with different keys.",
  "every triple of contents",
  "all contents, key sets",
  ["histbook/hist.py:Hist.__add__"])
p("adding histograms equals filling one histogram with all the data",
  "Filling two copies with a and b and adding them gives the content of filling one copy with a+b.",
  "every histogram (at most one group axis; otherwise up to zero blocks), every a and b",
  "relates fill and + on all data",
  ["histbook/hist.py:Hist.__add__", "histbook/hist.py:Hist._postfill"])
p("in-place operators agree with the pure ones",
  "For histograms with the same axes, both weighted or both not, after h += g the content of h is that of h + g; after h *= v it is that of h * v (h filled); with different axes h += g raises and leaves h unchanged. Neither operator changes g or any other histogram.",
  "every content",
  "all contents",
  ["histbook/hist.py:Hist.__iadd__", "histbook/hist.py:Hist.__imul__"])
p("scaling is linear",
  "h * a * b = h * (a*b), h * 1 = h, (h + g) * a = h*a + g*a, every cell of h*a is a times the cell of h, and scaling what a weighted fill left equals filling with scaled weights in the sums of weights and profile sums (the code scales sums of squared weights by a, not a squared).",
  "every finite scalar and every filled histogram",
  "all contents",
  ["histbook/hist.py:Hist.__mul__"])
p("copies are isolated",
  "After c = h.copy() (or c = h.copyonfill() followed by fill on c), no sequence of fill, +=, *= or clear on one of the two changes what the other contains.",
  "every sequence of operations on either object",
  "aliasing bugs show only for particular operation histories",
  ["histbook/hist.py:Hist.copy", "histbook/hist.py:Hist.copyonfill", "histbook/hist.py:Hist.fill"])
p("deriving a histogram never changes the original",
  "project, drop, select, rebin, table, +, * leave the original histogram's content as if they had not been called, and later changes of the original do not reach what project, drop, rebin and select on a bin axis made, nor the other way round (false of + with different groups and of select on a group axis, which share groups). Later fills and tables of the original are as before as long as every axis of the derived histogram has the place it has in the original (false otherwise: the constructor writes the new place into the shared axis object).",
  "every sequence of derivations interleaved with fills",
  "shared mutable axis objects: only particular histories expose it",
  ["histbook/hist.py:Hist.__init__", "histbook/proj.py:Projectable.project", "histbook/proj.py:Projectable.drop"])
p("clear is a fresh start",
  "h.clear() followed by any fills equals a newly constructed histogram with the same fills; cleared() leaves h unchanged.",
  "every history before and after",
  "all histories",
  ["histbook/hist.py:Hist.clear", "histbook/hist.py:Hist.cleared"])
p("equality and compatibility are equivalence relations",
  "Axis equality and compatible() are reflexive, symmetric and transitive, and equal axes are compatible; histograms with equal axes and NaN-free equal contents compare equal.",
  "every pair or triple of axes and histograms whose numbers are not NaN",
  "relational property",
  ["histbook/axis.py:Axis", "histbook/hist.py:Hist.__eq__", "histbook/hist.py:Hist.compatible"])
p("JSON round trip",
  "Axis.fromjson(axis.tojson()) is the axis, and Hist.fromjson(h.tojson()) has the same axes, weight, filter, definitions, attachment and content as h; through JSON text as well when the group keys are strings.",
  "every axis and histogram content",
  "all contents",
  ["histbook/axis.py:Axis.fromjson", "histbook/hist.py:Hist.tojson", "histbook/hist.py:Hist.fromjson"])
p("grouping keeps sources separate",
  "Hist.group(a=h1, b=h2, ...) of filled histograms without filters, all weighted or none, contains under each name exactly the content of that histogram and has no other names, and does not alias them.",
  "every family of histograms with equal axes",
  "all families",
  ["histbook/hist.py:Hist.group"])
# ---------------------------------------------------------------- projections
p("projection equals filling the smaller histogram",
  "h.project(axes) adds up, in every cell, the cells of h that show the same bins on the kept axes; it has the content of a histogram with only those axes filled with the same data (as long as the removed axes drop no row), before or after earlier fills, and preserves the totals.",
  "every histogram, every subset of its axes that includes the group axes, every data and every earlier content",
  "relates two programs on all data",
  ["histbook/proj.py:Projectable.project"])
p("projections compose and commute with addition and scaling",
  "project(A).project(B) = project(B) for B within A; projecting on all axes changes nothing; (h+g).project = h.project + g.project; (h*a).project = h.project * a for a finite a.",
  "every content, every axis subsets that include the group axes",
  "all shapes",
  ["histbook/proj.py:Projectable.project"])
p("projecting out a group axis sums the groups",
  "Projecting out group axes gives, in each cell, the sum over the removed groups of that cell, if each removed dict has 2, 4, 8, ... keys; with one group axis and any two or more keys the numbers are right, but the array has the right shape only for powers of two. One key, no key, or other numbers of keys give a list, an error or wrong sums (refuted).",
  "every histogram, every subset of its axes, every number of group keys",
  "depends on the number of keys",
  ["histbook/proj.py:Projectable.project"])
p("select keeps exactly the bins inside the selection",
  "h.select(\"x < c\") (and <=, >, >=) with c a finite bin edge of a bin, intbin, split or groupbin axis, and the comparison that fits its closed ends, keeps exactly the bins whose interval lies inside the selection with their contents unchanged; so does the condition of a cut axis; it equals filling with only the rows that satisfy the condition. (Not x == nan, infinite thresholds, or a groupbin with a NaN group: refuted.)",
  "every axis, every edge, every comparison the axis accepts, every content",
  "all axes and edges",
  ["histbook/axis.py:bin._select", "histbook/axis.py:split._select", "histbook/axis.py:intbin._select", "histbook/proj.py:Projectable._select"])
p("group selection keeps exactly the matching keys",
  "Selecting on a groupby axis keeps exactly the groups whose key satisfies the condition, with unchanged content, for a comparison, any number of comparisons joined by and, and two joined by or; it equals filling with only the matching rows. (Three or more joined by or, and mixtures of and and or, are refuted.)",
  "every boolean combination of comparisons, every key set",
  "number of clauses is unbounded",
  ["histbook/axis.py:groupby._select", "histbook/proj.py:Projectable._select"])
p("rebin sums adjacent bins",
  "h.rebin(axis, edges) with edges among the old ones: each new bin is the sum of the old bins inside it, under/over/nanflow included, so the total is preserved when the flow bins exist; it commutes with filling, rebinning in two steps is rebinning at once, and an edge that the axis does not have is an error.",
  "every old and new edge lists, every flags, every content",
  "all edge subsets",
  ["histbook/axis.py:split._rebinsplit", "histbook/proj.py:Projectable.rebin"])
p("rebinby groups a whole number of bins",
  "h.rebinby(axis, factor) merges every `factor` adjacent bins.",
  "every axis kind and factor",
  "all axes",
  ["histbook/proj.py:Projectable.rebinby", "histbook/axis.py:bin._rebinfactor", "histbook/axis.py:split._rebinfactor"])
p("drop removes profiles only",
  "h.drop(profiles) of all profiles keeps the counts of every bin and group, unless there is a filter and no weight; dropping some and keeping others never leaves arrays of the right shape (refuted).",
  "every set of profiles",
  "all profile subsets",
  ["histbook/proj.py:Projectable.drop"])
p("table reports counts, errors and means of the bins",
  "h.table(*profiles) has one row per bin and group, with the count, its error (the root of the sum of squared weights), the effective count, and for each profile the weighted average of the entries of the bin and the error of that average; averages lie between the smallest and the largest entry, effective counts are at most the number of entries and agree with the counts for unweighted data. With normalized=True and without group axes the counts of the bins that are not overflow bins add up to 1. (The documentation says that counts times bin widths add up to 1: that is false unless the bins have volume 1.)",
  "every content",
  "all contents",
  ["histbook/proj.py:Projectable.table"])
p("fractions are between zero and one",
  "For a histogram with at least one profile, h.fraction(*cuts) gives for each bin of the other axes passing/total for each cut, in [0,1] for non-negative contents, with its binomial error; passing + failing fractions is 1 when the bin is not empty, and empty bins show 0. (For a histogram without profiles it is an error.)",
  "every content",
  "all contents",
  ["histbook/proj.py:Projectable.fraction"])
# ---------------------------------------------------------------- books
p("book lookup returns what was stored",
  "After book[\"a/b/c\"] = h, book[\"a/b/c\"] is h, every path that is neither a prefix nor an extension of it leads where it led before, a prefix leads to the same book as before or to a new one, and an extension leads where its rest leads in h. The assignment fails exactly if a histogram is stored at a proper prefix, and then changes nothing. len counts the entries.",
  "every history of assignments and deletions in which no book is stored at two places, every path without wildcard characters",
  "an entry, a prefix and an extension of a path interact, over all histories",
  ["histbook/book.py:GenericBook._get", "histbook/book.py:GenericBook._set", "histbook/book.py:GenericBook.__setitem__"])
p("book deletion removes exactly the named entry",
  "del book[path] makes path and everything below it absent, and every other path leads where it led before; if there is no such path it raises KeyError and changes nothing. (A wildcard path deletes everything, whether it matches or not.)",
  "every history of assignments and deletions in which no book is stored at two places, every path without wildcard characters",
  "histories and patterns",
  ["histbook/book.py:GenericBook._del", "histbook/book.py:GenericBook.__delitem__"])
p("wildcard lookup returns exactly the matching entries",
  "book[\"pattern\"] yields exactly the entries, histograms and books at any depth, whose whole path matches the pattern as a shell pattern (* any characters including slashes, ? one character, [...] a set), in storage order; the iteration methods yield every entry (or every histogram) exactly once in storage order under its path.",
  "every history of assignments and deletions in which no book is stored at two places, every pattern",
  "all patterns and all nestings",
  ["histbook/book.py:GenericBook.__getitem__", "histbook/book.py:GenericBook._iteritems"])
p("filling a book equals filling each histogram",
  "book.fill(arrays) changes each contained histogram exactly as its own fill(arrays) would, and nothing else, although the computation is shared; it fails only if one of them would fail, and then every histogram is as its own fill would leave it or has only had its arrays allocated. This holds after any history of assignments to, deletions from and fills of the book itself.",
  "every book of one or more distinct histograms (at any depth), none made by + or * from another one of the book, that are all filled from arrays of the same length, every data; inner books changed through the outer one",
  "sharing across all expression sets",
  ["histbook/book.py:Book.fill", "histbook/book.py:Book._streamline"])
p("book addition is entry-wise",
  "(b1 + b2)[path] is a new histogram b1[path] + b2[path] when both exist, else the one that exists; b1 += b2 gives b1 the same names and values and changes nothing outside b1. b1 + b2 changes neither operand, and whatever is done later with the result changes nothing that it does not contain: neither operand at all if they have the same names. b1 + b2 and b1 += b2 succeed unless, at a path both have, one has a histogram and the other a book (TypeError), the sum of the two histograms fails (the exception is that one), or books are nested deeper than the limit of recursion.",
  "every pair of books built by a program in which no arrays are shared, without wildcard characters in the names of b2, with the same groups where both have a histogram; for +=, books without common entries and without an entry stored twice; every later program that works on the result",
  "aliasing over histories",
  ["histbook/book.py:GenericBook.__add__", "histbook/book.py:GenericBook.__iadd__"])
p("book copies are isolated",
  "book.copy(), book.cleared(), book * number, and book.copyonfill() of a book not filled yet have the names of the original and new histograms with the values that the same operation gives for each; whatever is done later with the copy changes nothing that existed before it, and whatever is done later with the rest does not change the copy. They can always be made of books nested less deep than the limit of recursion, except that book * number fails exactly if one of the histograms cannot be multiplied.",
  "every book built by a program in which no arrays are shared, every later program that works on the copy, or on the rest",
  "aliasing over histories",
  ["histbook/book.py:GenericBook.copy", "histbook/book.py:Book.fill"])
p("sample books replicate independently",
  "SamplesBook(samples, book) gives every sample new books and histograms with the names and values of the book; view(pattern) contains exactly the histograms whose paths match; whatever is done with the view of one sample changes no histogram of another sample, and nothing outside the view. The sample book can always be made.",
  "every list of distinct sample names without slashes, every book of histograms that are not filled yet, every later program that works on the view",
  "histories",
  ["histbook/book.py:SamplesBook", "histbook/book.py:ViewableBook.view"])
# ---------------------------------------------------------------- others
p("Spark fills agree with Numpy fills",
  "Filling from a Spark DataFrame produces the same content as filling the same rows from Numpy arrays, in any order in which Spark returns its groups of rows, if: the groups of the rows have been filled before; a filter comes with a weight; the weights are not NaN; no row is below the bins of an axis that has no underflow bin, and none is above them or NaN for an axis that has a NaN bin but no overflow bin; bin values are not infinite and not more than 2^30 bins away, intbin values are whole and not above the bins, and groupbin values are finite; and the expressions are made of arithmetic, comparisons, logic and conditionals, with no division by zero and no comparison of NaN. On a bin axis every number below the bins, however far, is counted below them, and every number above the bins, up to 2^62 bins away, above them.",
  "every axis and rows",
  "two implementations of the same binning",
  ["histbook/calc/spark.py:tocolumns", "histbook/calc/spark.py:fillspark"])
p("Pandas index rows match table rows",
  "hist.pandas() of profiles, or of cuts that leave another fixed axis, has one row per bin of each group, in the order of the group keys and then of the bins; the labels of a row show the keys of its bin (up to whether an overflow bin holds the infinities), and its numbers are those of the table or fraction for that bin. This holds for histograms with at least one axis whose group keys Python can sort (all numbers or all strings).",
  "every axes and content",
  "all shapes",
  ["histbook/export.py:Exportable.pandas"])
p("ROOT export moves every bin to the right ROOT bin",
  "hist.root(axis) and hist.root(axis, profile) of a bin axis give a TH1D or TProfile with the bins of the axis: each bin, underflow and overflow too, is shown in the ROOT bin of the same numbers (other than the edges, if the bins are closed above), with the sum of the entries, the mean and its error over all other axes and groups; ROOT bins the axis does not have are zero. No other axes are exported without error except split axes.",
  "every bin axis (all flags), every other axes, groups and content",
  "all shapes",
  ["histbook/export.py:Exportable.root"])
p("definitions are substitutions",
  "With defs={name: expression}, an axis, weight or filter that uses the name is the same expression as the one with the definition written out in its place, whenever the latter is accepted.",
  "every set of definitions and every expression that uses them",
  "all expressions and definitions",
  ["histbook/expr.py:Expr.parse", "histbook/hist.py:Hist.__init__"])
p("pickle round trip",
  "Pickling and unpickling a histogram gives back its axes, weight, filter, definitions, attachment and content.",
  "every axis a constructor returns, every histogram of such axes, every content",
  "all axes and contents",
  ["histbook/hist.py:Hist.__getstate__", "histbook/hist.py:Hist.__setstate__", "histbook/axis.py:Axis._unpack"])
# ---------------------------------------------------------------- plots
p("the data of a plot show every bin",
  "hist.overlay(..).stack(..).beside(..).below(..) followed by bar, step, area, line or marker along an axis: the data behind the plot have one row for each group and each bin that has finite ends (each bin at all, for bars and for plots along groups and cuts), with labels that stand for its groups and bins, a position inside its bin, and the number of entries (or the mean of the profile) and its error in the histogram projected onto these axes (with normalized=True and without group axes, both divided by the number of entries in bins that are not overflow bins, so that the heights add up to 1); steps and areas go down to zero at both ends of the axis; with a logarithmic scale only positive numbers are shown. This holds if group keys can be sorted and are numbers for groupbin axes, the removed group axes are within the limits of C37, and, for error bars on steps and areas, the first bin is wider than 1e-10 of the axis.",
  "every chain, every axes, groups and content",
  "all shapes of chains, axes and contents",
  ["histbook/vega.py:Plotable1d._data"])
p("colours and stacking of a plot name the labels of the data",
  "In a plot that overlays or stacks groups or bins, each datum has a label in the column of that axis, and the list of colours names the column and exactly lists labels of the axis, among them those of all data, for all axes other than cuts and intbins; stacked data are ordered by the position of their label in the given order; the plot is along the column of its axis, and split into columns and rows by the columns of the axes given to beside and below. The colours are those of the last overlay or stack.",
  "every chain, every axes, groups and content, every order",
  "all shapes of chains, axes and contents",
  ["histbook/vega.py:Plotable1d._vegalite", "histbook/vega.py:PlottingChain.stack"])
p("plotting chains accept exactly what they can draw",
  "A chain of overlay, stack, beside and below is accepted exactly if it has at most one of each, and keeps their order; it can end with a bar or an area, with a step, line or marker exactly if it has no stack, with error bars exactly if it has no beside or below, and with a heat map exactly if it has no overlay or stack.",
  "every sequence of calls",
  "all sequences",
  ["histbook/vega.py:PlottingChain"])
p("a combination of plots shows each of its plots",
  "overlay(..), beside(..), below(..) and grid(n, ..) of any plots and combinations of plots, as far as they accept them, can be drawn exactly if each of the plots can be drawn alone; then they draw the marks of their plots in order, side by side, on top of each other or in rows of n, and each mark shows what it shows when its plot is drawn alone: the same labels, positions and numbers in its channels for the same data in the same order, with the same colours and stacking order, and nothing of the other plots. A plot with error bars that is directly in beside, below or grid also gets the rows of the other plots, in which none of its fields is defined.",
  "every nesting of combinations the functions accept, every plot, every axes, groups and content",
  "all nestings and sizes",
  ["histbook/vega.py:Combination", "histbook/vega.py:overlay", "histbook/vega.py:beside", "histbook/vega.py:below", "histbook/vega.py:grid"])
p("the data of a heat map show every bin",
  "hist.beside(..).below(..).heatmap(x, y) can be drawn exactly if neither axis is a split axis and y is not an intbin; its data have one row for each group and bin whose bins on x and y have finite ends (any group or cut otherwise), in order, at the centres of these bins, which are inside and different for different bins, with labels for all other axes, and the number of entries (or the mean of the profile) in the histogram projected onto these axes; it is drawn along the columns of x and y, coloured by the number, and split into columns and rows by the axes given to beside and below. This holds if group keys can be sorted and are numbers for groupbin axes, and the removed group axes are within the limits of C37.",
  "every chain, every axes, groups and content",
  "all shapes of chains, axes and contents",
  ["histbook/vega.py:Plotable2d"])
# ---------------------------------------------------------------- constructor
p("a histogram holds what its written expressions say",
  "Hist(axes, weight=.., filter=.., defs=..) followed by fill(arrays): each row is added to the cell that its groups and bins, computed by the expressions as they are written, name; to the sums it adds its written weight (1 if none is given, 0 if the filter is false in the row), the square of the weight, and the weight times the written profile expressions; all other cells keep their values. Names that defs defines stand for their definitions. Only fields that are written are needed. This holds for expressions of the class of C21 and C22 in every row, a weight that is finite if there is a filter, and expressions that depend on the data.",
  "every list of axes, weight, filter and definitions of the class, all arrays, all row counts",
  "all expressions and arrays",
  ["histbook/hist.py:Hist.__init__", "histbook/hist.py:Hist.fill", "histbook/axis.py:Axis._goals", "histbook/expr.py:Expr.parse"])
# ---------------------------------------------------------------- books as trees
p("JSON brings every book back",
  "For every book that programs can make out of constructed histograms by assignments and deletions, of any class, nesting and attachments, tojson() gives a JSON value from which fromjson() makes the same book: the same class, the same names in the same order, the same entries and attachments; also after writing the JSON as text and reading it again, if the group keys are texts.",
  "every history of assignments and deletions, every nesting, class and attachment",
  "all books",
  ["histbook/book.py:GenericBook.tojson", "histbook/book.py:GenericBook.fromjson", "histbook/book.py:GenericBook.fromdicts"])
p("compatible compares the shapes of books",
  "book.compatible(other) is True exactly if both have the same names at every level (in any order) and histograms with the same kinds of groups and bins at the same paths, whatever their expressions, weights and contents; this is reflexive, symmetric and transitive, and never an error unless one book has a histogram where the other has a book. assertcompatible() passes exactly if each two entries have that and the same classes of books, and raises ValueError otherwise. This holds for names without wildcard characters.",
  "every two books that programs can make",
  "all books",
  ["histbook/book.py:GenericBook.compatible", "histbook/book.py:GenericBook.assertcompatible"])
p("a SystematicsBook holds alike entries with systematics",
  "After any sequence of assignments and deletions on a SystematicsBook of which none raised (other than for missing paths), each two of its entries are alike (as in C64, with the same classes), and each histogram anywhere in it has a 'systematic' attachment; an assignment to a name raises exactly if that would not hold any more, and then ValueError.",
  "every history of assignments and deletions, every nesting",
  "all histories",
  ["histbook/book.py:SystematicsBook._changed", "histbook/book.py:GenericBook._set", "histbook/book.py:GenericBook._del"])
p("group of books keeps the entries of each book",
  "Book.group(by=.., name1=book1, ..) has at each path of the books an entry of the same class, and no others; the histogram at a path is the group of the histograms that the books have there: under the name of a book it has the groups, bins and numbers of that book, and under other names nothing. It succeeds if no names have wildcard characters, the entries at equal paths have equal classes other than SystematicsBook, and the histograms at each path can be grouped. Its attachments are those of all books, of the last one if several have the same key.",
  "every number of books that programs can make, every nesting, every iteration order of sets",
  "all books and orders",
  ["histbook/book.py:GenericBook.group", "histbook/hist.py:Hist.group"])
# ---------------------------------------------------------------- acceptance
p("good expressions are accepted",
  "Every expression of the class of C21 and C22 is accepted, and so then computed as written, if each operator is used where the language has it: comparisons and logic at the top, inside logic or as the condition of where(); names, comparisons and logic as operands of and, or, not; literals as elements of a set; no & and |; and **, %, //, ^ not between two constants, a constant being whatever has the same value on all rows. A histogram all of whose expressions are such, with a comparison or logic as filter, is constructed without an error.",
  "every such expression, every histogram made of them",
  "all expressions",
  ["histbook/expr.py:Expr.parse", "histbook/hist.py:Hist.__init__", "histbook/instr.py:totree"])
# ---------------------------------------------------------------- looking things up
p("groupkeys, indexes and axis lookups find what was filled",
  "hist.groupkeys(axis) after any sequence of fills is the set of the values (or intervals) that the filled rows had on that group axis, for an axis given as an object, as a position or as an expression; if other group axes drop rows, a row counts unless the group axes before it drop all rows of that fill. hist[keys, bins, column] is the sum over all rows of that cell, also with Python's negative numbers; a group that no row had is a KeyError; hist[a, b] is hist[a][b]; looking changes no cell. hist.axis[expression] is an axis whose expression has the same value as the one asked for in every row (in the class of C21 and C22), and finds every axis by its own expression.",
  "every history of fills, every number of group axes, every index",
  "all histories and indexes",
  ["histbook/hist.py:Hist.groupkeys", "histbook/hist.py:Hist.__getitem__", "histbook/proj.py:AxisTuple.__getitem__"])
# ---------------------------------------------------------------- the order of bins
p("bin keys are ordered like the values in them",
  "axis.keys() of a bin or split axis with finite edges is in ascending order: of two of its keys the earlier is <, <= and != the later and not > or >=, and the other way round. A key other than that of NaN is <= and >= itself and not < or >. One key is < another exactly if they differ and the numbers in the one are less than those in the other. Sorting the keys from any order gives the order of the axis, and so the legend of an overlaid or stacked axis lists all its bins in that order. The keys of a groupbin axis are ascending too. Equal keys have equal hashes and hold the same values, and equality is an equivalence.",
  "every bin and split axis with finite edges, every order of the keys, every sorting algorithm, every content of a groupbin axis",
  "all axes and keys",
  ["histbook/axis.py:Interval.__lt__", "histbook/axis.py:IntervalNaN", "histbook/axis.py:Interval.__hash__", "histbook/vega.py:Plotable._vegalite"])
# ---------------------------------------------------------------- attachments
p("attachments are seen by those that share them",
  "A histogram or book made without a dict, by copying, by weight, filter, project, select, rebin or drop, by multiplying or adding books or by Book.group, has attachments of its own: with the entries of its origin (of the last one that has the key, for a sum or group), and no attach, detach or assignment on another one changes them. One that was given a dict shares that dict, and the results of h + g and h * x share that of h. attach, detach and an assignment to h.attachment[..] are seen by exactly those that share it, and change only that key; detach of a missing key raises KeyError and changes nothing. systematic= adds the 'systematic' entry, and raises ValueError, with nothing changed, if there is one. has and get say what is there.",
  "every program of such operations, any number of histograms, books and dicts, every key",
  "all programs; sharing shows only after particular sequences",
  ["histbook/hist.py:Hist.attach", "histbook/hist.py:Hist.detach", "histbook/hist.py:Hist.get", "histbook/hist.py:Hist.__add__", "histbook/hist.py:Hist.__mul__", "histbook/book.py:GenericBook.attach", "histbook/book.py:GenericBook.__add__", "histbook/proj.py:Projectable"])
# ---------------------------------------------------------------- building in steps
p("the ways of building a histogram agree",
  "Hist(axes..) followed by any sequence of .weight(w), .filter(f), .systematic(v) and .cleared() is the histogram that the constructor makes with the last weight and the last filter, and is empty; it succeeds exactly if every histogram on the way can be constructed, and so weight and filter can be given in either order. Hist(.., fill=arrays) is Hist(..) and then fill(arrays), and raises if that would. One array given as fill= for a histogram with one axis that is a field is the dict of that field and the array.",
  "every list of axes, weight, filter and sequence of calls, every data",
  "all sequences of calls",
  ["histbook/hist.py:Hist.weight", "histbook/hist.py:Hist.filter", "histbook/hist.py:Hist.systematic", "histbook/hist.py:Hist.cleared", "histbook/hist.py:Hist.__init__"])
# ---------------------------------------------------------------- functions
p("functions in expressions compute what their names say",
  "In an expression floor, ceil, trunc, rint, abs, fabs, sign, max, min, copysign, heaviside, mod, %, fmod and pow with a whole exponent, also written math.f or numpy.f where these exist, give the mathematical value for every argument (fmod that of C), and keep or report NaN and infinities; isnan, isinf and isfinite tell them apart. Every function that is accepted when the expression is given can be computed when it is filled. A function that is not known is refused with ExpressionError.",
  "every number, also infinite or NaN, every accepted function and way to write it, every data",
  "all arguments and functions",
  ["histbook/expr.py:Expr.recognized", "histbook/expr.py:_recognize", "histbook/expr.py:Expr.parse", "histbook/calc/__init__.py:library", "histbook/calc/__init__.py:calculate"])
# ---------------------------------------------------------------- memory of the arrays
p("filling only reads the arrays it is given",
  "Hist.fill and Book.fill leave the arrays passed to them as they were, also when two names are the same array, when an axis is a cut of an integer array, when weights are NaN and when the fill fails; and the contents are those that follow from the elements of the arrays, whichever histogram of a book is filled first.",
  "every histogram and book, every set of arrays, also shared ones, every order of computation, success and failure",
  "all fills and all ways arrays can share memory",
  ["histbook/fill.py:Fillable._fill", "histbook/hist.py:Hist._postfill", "histbook/book.py:Book.fill", "histbook/calc/__init__.py:calculate", "histbook/calc/__init__.py:library"])
# ---------------------------------------------------------------- rounding
p("what filling with float64 numbers guarantees",
  "Whatever the arithmetic does, a fill adds to each cell the contributions of its rows one after the other in their order, so filling chunk by chunk gives exactly the numbers of one fill (except in a histogram without axes, profiles and weights, which counts a whole fill in one addition). With float64's rounding, integers are summed without error while their absolute values add up to at most 2^53, counts are exact up to 2^53 and stay at 2^53 afterwards, and otherwise the error of a cell after n rows is at most ((1 + 2^-53)^n - 1) times the sum of the absolute values; the order of the rows matters at most twice that much.",
  "every layout, every weighting, every list of rows of any length and every way of cutting it, every previous content; every addition and multiplication for the first part",
  "all sequences of roundings",
  ["histbook/hist.py:Hist._postfill", "histbook/hist.py:Hist.fill", "histbook/hist.py:Hist.COUNTTYPE"])
# ---------------------------------------------------------------- special functions
p("what erf, erfc, gamma, lgamma and factorial compute",
  "erf is formula 7.1.26 of Abramowitz and Stegun, erfc is 1 - erf everywhere; erf lies between -1 and 1, has the sign of its argument, never decreases (and increases strictly as long as exp does not underflow), is odd except at zero, and is 1, -1 and NaN at the infinities and at NaN. For every positive number lgamma is Lanczos' approximation, gamma is its exponential and is positive, never NaN, and factorial of a number near the whole number k >= 0 is gamma(k + 1) rounded to a whole number. erf(0) = 0, gamma of negative numbers, and gamma of a literal are not available: see the note.",
  "every number, the infinities and NaN, every exp and log with the stated properties, every spelling of the functions",
  "all numbers",
  ["histbook/calc/__init__.py:vectorized_erf", "histbook/calc/__init__.py:vectorized_gamma", "histbook/calc/__init__.py:library"])
# ---------------------------------------------------------------- comparing expressions
p("expressions and axes compare, sort and hash consistently",
  "== between expressions is an equivalence; for expressions without sets whose literal numbers have one Python type, exactly one of a < b, a == b and b < a holds, < is transitive and respects ==, so the parts of sums, products and logical expressions end up in one order whatever order they are written in and whatever sorting algorithm is used; equal expressions have equal hashes (1, 1.0 and True, and sets in any order, included) and so do equal axes. The order is the one by which the model of expressions sorts. It is not a total order for sets and not compatible with == when ints and floats are mixed, and a set literal of values that cannot be ordered makes its expression unhashable: see the note.",
  "every pair or list of expressions of any depth, every constant (int, float, bool, string, None, set), every axis",
  "all expressions, all orders of the parts, all results a sort may return",
  ["histbook/expr.py:Const.__lt__", "histbook/expr.py:Const.__hash__", "histbook/expr.py:RingAlgebra.__lt__", "histbook/expr.py:RingAlgebra.combine", "histbook/expr.py:Logical.__init__", "histbook/expr.py:Call.__eq__", "histbook/axis.py:bin.__hash__"])
# ---------------------------------------------------------------- properties of axes, lookups
p("what an axis says about itself is true of its bins, and an axis can be found by its kind and properties",
  "totbins is the number of keys, numbins the number of those that are finite and finiteslice cuts out exactly these; underflow, overflow, nanflow and closedlow tell which special keys there are and which end belongs to a bin; low and high (min and max) are the ends of the finite bins; copy() gives the same axis, relabel() changes only the expression, items(content) pairs every key with its content. A constructor succeeds exactly on arguments of the right types and values, its errors are TypeError or ValueError, and the properties equal the arguments. hist.axis.bin(expr, low=0, ..) finds the first axis of that kind and expression whose properties equal the keywords, IndexError if there is none; an axis is found by the arguments of its constructor. bin.binwidth is positive and right up to eight roundings. Where this fails: see the note.",
  "every axis its constructor accepts, every Python value as argument, every content, every list of axes, every keyword",
  "all numbers of bins, all edges, all roundings of the widths, all combinations of keywords",
  ["histbook/axis.py:bin.__init__", "histbook/axis.py:bin.binwidth", "histbook/axis.py:split.binwidth", "histbook/axis.py:Axis.items", "histbook/axis.py:bin.relabel", "histbook/axis.py:bin.finiteslice", "histbook/proj.py:AxisTuple", "histbook/proj.py:AxisTuple.bin"])
# ---------------------------------------------------------------- arithmetic of the machine
p("histograms are added, scaled and projected with the machine's numbers as users expect, within known errors",
  "With float64 arithmetic, h + g adds cell by cell and rounds once, h += g and h *= v leave exactly what h + g and h * v return, h + g = g + h, adding a cleared histogram changes nothing. Adding any number of histograms in any order and with any bracketing (as parallel jobs do) gives exactly the sum wherever the counts are integers whose absolute values add up to at most 2^53, so all orders agree there; otherwise the result differs from the exact sum by at most ((1 + 2^-53)^(n-1) - 1) times the sum of the absolute values. The same holds of filling two histograms and adding them compared with filling one, and of projections, however numpy orders the additions. h * v has a relative error of at most 2^-53 per number; h + h equals h * 2, and powers of two scale exactly, can be undone and distribute over +. Associativity, (h*a)*b = h*(a*b) and (h+g)*a = h*a + g*a fail for other numbers.",
  "every pair, triple or tree of histograms with equal axes, all numbers with 53 bits, every factor, every order of the additions inside numpy.sum",
  "all bracketings and orders of all numbers of histograms and all float values",
  ["histbook/hist.py:Hist.__add__", "histbook/hist.py:Hist.__iadd__", "histbook/hist.py:Hist.__mul__", "histbook/hist.py:Hist.__imul__", "histbook/proj.py:Projectable.project"])
# ---------------------------------------------------------------- data given to the constructor
p("data given to the constructor go to the field of the axis or it fails",
  "Hist(axis, fill=data) with data that are not a dict is Hist(axis, fill={n: data}) if the expression of the axis is the field n; if the expression has any other form and has a field in it, the constructor raises for all data, so that the data never stand for the wrong quantity; it also raises if weight or filter need another field, and with TypeError if there is not exactly one axis. fill={..} is constructing and then filling. An expression prints as one of its fields only if it is nothing but that field. Printing does not identify an expression: 1/(a + b) and 1/a + b print alike.",
  "every expression, every axis, weight and filter, all data, every way to print constants",
  "all expressions and all data: the claim is that no expression at all prints as the name of a field in it",
  ["histbook/hist.py:Hist.__init__", "histbook/expr.py:RingAlgebraBinOp.__str__", "histbook/expr.py:Call.__str__", "histbook/expr.py:Relation.__str__", "histbook/expr.py:Predicate.__str__", "histbook/instr.py:totree"])
# ---------------------------------------------------------------- what is printed
p("axes, histograms, books and bins print as calls that read back as what they are",
  "The call that an axis prints, read by Python with the defaults of the constructor, returns that axis; two axes that print the same are the same; an option is printed if and only if its value is not the default. The call that a histogram prints returns an empty histogram with the same axes, weight, filter and definitions (given as texts or numbers), and two histograms that print the same differ at most in content and attachment, neither of which is printed. The call that a book prints returns an unfilled book with the same names in the same order, the same classes of books and such histograms (unless it is or has a SamplesBook or a SystematicsBook), and two books that print the same differ at most in contents and attachments. The intervals that name bins read back as the same intervals.",
  "every axis, histogram and interval that the constructors return, every book that programs make of such histograms",
  "all axes with all combinations of options and all numbers, and all pairs of axes or histograms",
  ["histbook/axis.py:bin.__repr__", "histbook/axis.py:split.__repr__", "histbook/axis.py:groupbin.__repr__", "histbook/axis.py:intbin.__repr__", "histbook/axis.py:Interval.__repr__", "histbook/hist.py:Hist.__repr__", "histbook/book.py:GenericBook.__str__"])
# ---------------------------------------------------------------- slices
p("slices, lists and masks pick the bins they mean",
  "hist[keys..., bins..., s] with a slice, a list of numbers or a mask s has the elements of the next dimension that s means, in that order (negative bounds count from the end, bounds beyond the ends are moved to them, negative steps go backwards), so that each number found in it is the one of the bin that was picked. A slice with step zero, a number that is not there, a mask of another length and any slice of groups are refused. None puts a dimension of one element in front and an Ellipsis changes nothing. (Each index applies to the result of the one before: hist[:, j] and hist[..., j] are hist[j], not bin j of the second axis.)",
  "every histogram, every sequence of indexes, every slice, list or mask",
  "all slices with all signs of bounds and steps, of dimensions of all sizes",
  ["histbook/hist.py:Hist.__getitem__"])
# ---------------------------------------------------------------- shape
p("shape says how large the arrays of a histogram are",
  "hist.shape has the number of bins of every fixed axis, in the order they were given, and then the number of sums per bin: one, two if there is a weight or a filter, and two more for every profile. Every array in the content has as many numbers as that. Histograms that can be added have the same shape, and so have their sums, multiples, copies and cleared histograms; project leaves the entries of the axes that stay; select and rebin change the entry of their axis alone, to the number of bins of the new axis; drop of all profiles changes the last entry alone, unless there is a filter without a weight.",
  "every histogram, every list of axes in any order, every projection that keeps the group axes, every comparison with a number, every list of edges",
  "all combinations of axes, weights and operations",
  ["histbook/hist.py:Hist.shape", "histbook/hist.py:Hist.__init__"])
# ---------------------------------------------------------------- dict methods of books
p("books have the methods of a dict",
  "book.pop(name) returns the entry at the name and removes it and nothing else; without such an entry it returns the default, or raises KeyError if there is none, and nothing changes. book.setdefault(name, x) returns the entry at the name and changes nothing; without such an entry it stores x there and returns it, or raises KeyError below a histogram. book.update of a dict, of pairs or of keywords stores every histogram and every book, with all that is in it, at its name, the last one if there are several; if one cannot be stored it raises KeyError and those before it are stored. Entries at unrelated names stay.",
  "every book that programs can build in which no book is stored twice, every name without wildcard characters, every default, every list of names with histograms or with books that have no book in common with each other or with the updated one",
  "all book histories and all names",
  ["histbook/book.py:GenericBook", "histbook/book.py:GenericBook.__getitem__", "histbook/book.py:GenericBook.__delitem__", "histbook/book.py:GenericBook.__iter__"])
if __name__ == "__main__":
    for x in P:
        print(json.dumps(x))
