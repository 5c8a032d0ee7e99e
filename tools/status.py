STATUS = {
"C01": ("partial", "proved for a saturating int32 cast; on x86 proved up to 2^31-2 bins above low and refuted for +inf and beyond; refuted for numbins=0"),
"C02": ("proved", "any edge order, infinite edges included"),
"C03": ("proved", "within the int32 range of the index; refutations outside it and for floats just below min"),
"C04": ("proved", "slot and keys of a cut axis"),
"C05": ("proved", "finite values and NaN; refuted for infinite values, and keys() raises once NaN has been filled"),
"C07": ("proved", "bin, split and intbin"),
"C08": ("proved", "range for every rounding and cast; monotone for monotone rounding and a saturating cast"),
"C06": ("proved", "rows whose groupby value is not NaN"),
"C09": ("proved", "any number of axes whose total number of bins fits int32"),
"C10": ("proved", "exact sums for every layout; with a profile the rows must be inside the fixed axes (refuted otherwise: the fill raises); an axis of a constant-only function call is refuted"),
"C11": ("proved", "every column total, and the row count"),
"C12": ("proved", "for finite profiled values; refuted for an infinite one"),
"C13": ("proved", "end to end from the written histogram (C13_filter_as_written), with or without a weight, for any content; refuted for NaN profiled values of rejected rows"),
"C14": ("proved", "cells for any chunking, blocks too with at most one group axis, also from the written histogram; refuted for blocks with two"),
"C15": ("proved", "any permutation, also from the written histogram"),
"C16": ("proved", "missing field, length mismatch, or an expression that raises: nothing changes and later fills are the same; refuted for a grouped profile histogram whose fill raises after some groups were updated"),
"C17": ("proved", "all four clauses, equality of whole fills"),
"C19": ("proved", "for histograms without a constant axis; refuted with one (fields raises TypeError)"),
"C18": ("proved", "every iteration order; a call whose arguments are all constants is never computed (stated as a theorem)"),
"C20": ("proved", "normal forms without negated predicates, whose predicates are boolean fields; refuted for a negated predicate"),
"C21": ("proved", "for the stated class of expressions (syntactic criterion plain, and the weaker criterion good on the parsed operands); refuted outside it: constants lost in products, wrong cancellation, rejected expressions"),
"C22": ("proved", "through parsing and lowering; refuted for NaN"),
"C24": ("partial", "false of the code as stated: refuted, not p is computed as p for every row if p is a plain name, and not of a comparison does not hold for NaN. Proved in the class of C22 (conditions made of comparisons without NaN): a histogram filtered or cut by not c holds the rows where c is false, and with the one filtered by c all rows"),
"C23": ("proved", "commutative laws for all operands, the rest for polynomials; refuted for a grouping of a sum with quotients and for products of two sums with constant terms"),
"C55": ("proved", "any definitions and expression; only in this direction, since a definition may be a comparison where the written-out one is rejected"),
"C25": ("proved", "both weighted or both not; refuted for a mix, whose sum does not fit its own layout"),
"C26": ("proved", "end to end from the arrays given to fill"),
"C27": ("proved", "both weighted or both not, and no other histogram changes; refuted for a mix (+ accepts, += raises)"),
"C28": ("proved", "finite scalars; refuted for squared weights and for histograms never filled"),
"C32": ("proved", "NaN-free numbers; histograms and books; refuted with NaN, and for books with the same entries in another order"),
"C33": ("proved", "every axis a constructor returns; refuted through JSON text for numeric group keys, and for the null axis of a projection"),
"C34": ("proved", "filled members without filters, all weighted or none, any later operations; refuted with filters, unfilled or mixed members"),
"C29": ("proved", "every program over any number of histograms; refuted for copyonfill() when the copy is changed by *= before its first fill, and when the original is filled before that"),
"C30": ("proved", "contents: for every program of derivations and changes of the originals; axis objects: for every program that keeps axes in place; refuted for project, drop and select that move an axis, and for + and group selections that share groups"),
"C31": ("proved", "any history that changed no shared array, any fills after"),
"C56": ("proved", "every constructed histogram"),
"C35": ("proved", "every axis subset that includes the group axes, any content, any fills before and after"),
"C36": ("proved", "group axes kept; refuted for an infinite factor"),
"C37": ("proved", "2, 4, 8, ... keys in each removed dict, or one removed group axis; refuted for none, one and other numbers of keys"),
"C38": ("proved", "bin, intbin, split, cut and groupbin axes at finite edges, cells and fills; success at every edge, and near an edge with a tolerance of at most half a bin; thresholds written as arithmetic of constants; refuted for == nan, infinite thresholds, cuts on two quantities, groupbin with NaN or inf groups"),
"C39": ("proved", "one comparison, any number joined by and, two joined by or; refuted for three or more joined by or, and for mixtures"),
"C42": ("proved", "all profiles dropped; refuted when a profile is kept, and for a filter without a weight"),
"C40": ("proved", "bin, intbin and split axes, any edges among those of the axis, cells, totals, fills and rebinning twice; any other edge is an error"),
"C41": ("partial", "false of the code: refuted, rebinby raises an error for every histogram, axis and factor"),
"C43": ("proved", "any content, any profiles in any order, and normalized counts with equal bins or one split axis; refuted for normalized=True (the sum of counts times widths is the volume of a bin, not 1), for normalized=True with groups or with a split that is not the last axis, and for a profile given twice"),
"C44": ("proved", "any content, any cuts in any order, error None, normal or wilson; refuted for histograms without profiles, unimplemented and unknown error names"),
"C45": ("proved", "any history of assignments and deletions; refuted for a book stored at two places and for names with wildcard characters, which cannot be looked up"),
"C46": ("proved", "paths without wildcards; refuted for wildcard paths, which delete everything, and fail half way if there are nested books with entries"),
"C47": ("proved", "any history; refuted: a star does not stop at slashes, books are among the results, a pattern is always in the book, a book that contains itself cannot be iterated"),
"C48": ("proved", "refuted for a book that has both h and a sum or multiple made from h (they share their destinations, so the second gets every row in every bin without an error), and for an inner book changed directly (the outer book keeps its old instructions), the same histogram under two names, an empty book (TypeError), and a histogram of numbers only (counts once per row of the others)"),
"C49": ("proved", "refuted: the sum holds the histograms that only one operand has, not copies, so scaling or filling it changes the operand; entries of the second book whose names contain wildcard characters are missing from the sum, and make += fail"),
"C50": ("proved", "refuted for copyonfill() of a book that is already filled: filling the copy changes the original, because the fill of a book ignores the mark copyonfill() sets"),
"C51": ("proved", "refuted for histograms that are already filled: all samples share their contents"),
"C53": ("proved", "refuted for group keys of both types (such as a NaN group beside others), for histograms without axes, when all fixed axes are the given cuts, and for the labels of infinite values"),
"C54": ("proved", "refuted for split axes, which are shown with bins of equal width, for the NaN bin, which is left out, for integer bins, cuts and two axes, which are errors, and for the edges of bins closed above; with group axes, up to the limits of C37"),
"C52": ("proved", "exact arithmetic; refuted for new groups (AttributeError), a filter without a weight (ignored), values below the bins without an underflow bin, values above the bins and NaN with a NaN bin but no overflow bin, infinite and very large values, intbin values above the bins or not whole, groupbin NaN, NaN weights, division by zero, also in filters, and comparisons with NaN"),
"C57": ("proved", "exact arithmetic; normalized=True with bin and intbin axes only; refuted for normalized=True with group axes (AttributeError), for a groupbin axis with a NaN group (TypeError), for removing a group axis with one key (AttributeError), for a split axis that ends at infinity (its first step is at infinity), and for a first bin narrower than 1e-10 of the axis (its step and error bar are those of the next bin)"),
"C58": ("proved", "refuted for cuts and intbins: no label of the data is among the colours; and for an overlay and a stack together: the first has no colours"),
"C59": ("proved", "any sequence of calls, exactly"),
"C60": ("proved", "refuted: a plot with error bars directly in beside, below or grid has no filter, so that its marks also get the rows of the other plots"),
"C61": ("proved", "exact arithmetic; refuted for an intbin as y axis (AttributeError; as x axis it is drawn) and for split axes (NotImplementedError)"),
"C62": ("proved", "exact arithmetic; refuted for a filter that is the name of a boolean field (refused), a constant filter (accepted, but the fill raises TypeError) and an infinite weight together with a filter (read as a field named inf)"),
"C63": ("proved", "refuted after an assignment to a SystematicsBook that raised: it is not undone, and the book does not come back from its JSON"),
"C64": ("proved", "refuted for names with wildcard characters (compatible raises AttributeError, assertcompatible ValueError, even for a book and itself) and for a histogram against a book (AttributeError)"),
"C65": ("proved", "refuted: an assignment that raises stays in the book, which then refuses good assignments; a book inside it can be changed without a check. A SystematicsBook can never be filled, because it never makes the list of fields (AttributeError)"),
"C66": ("proved", "refuted for SystematicsBooks (ValueError, because the group of histograms has no attachments) and names with wildcard characters (AttributeError); a group of no books is a TypeError"),
"C67": ("proved", "refuted for **, %, // and ^ between two constants, also if they only turn out to be constants, as in (x - x)**2 (KeyError), for & and | with a field (NotImplementedError), for a comparison used as a number (ExpressionError) and for a function or a constant as an operand of and (AssertionError); the part on histograms is C62_accepted"),
"C68": ("proved", "refuted for groupkeys of a histogram never filled (AttributeError, not the empty set), without group axes (UnboundLocalError instead of IndexError), and for the values of rows that another group axis drops: present if it comes later, missing if it comes first and drops all rows of the fill"),
"C69": ("proved", "refuted for the key of NaN (less than itself), for intervals of different axes with the same low edge (each is greater than the other), for split with an edge at -inf and underflow (two keys that cannot be ordered), and for intbin axes with underflow or overflow, whose keys cannot be sorted, so that overlaying or stacking such an axis raises TypeError"),
"C70": ("proved", "refuted: attach on h + g or h * x changes the attachments of h; systematic= writes into the dict that was given as attachment=, and so into everything else that shares it"),
"C71": ("proved", "refuted for one array as fill= if the axis is not a plain field (x + 1), or a weight or filter needs another field: ValueError whatever the array, although the documentation asks for one field only"),
"C72": ("proved", "refuted for fmod (all three spellings), which is Python's remainder: fmod(-1, 3) is 2; for round(x), x // y and x ^ y, which are accepted but raise AssertionError in every fill with a row; and for an unknown function of math or numpy, which raises AttributeError; C72_fmod_partial says when fmod is right"),
"C73": ("proved", "holds if no Numpy function is called with one argument too many (the two theorems ending in _partial); refuted otherwise: max(x, y, z) is the maximum of two and is written into the caller's array z (C73_fill_only_reads_refuted); an array is never modified unless it is such an argument (C73_only_additional_arguments_are_written)"),
"C74": ("proved", "the unrestricted claims are refuted: the order of the rows changes a sum (C74_order_refuted), adding two histograms is not filling one (C74_sum_refuted), and a histogram that counts a fill at once depends on the chunks beyond 2^53 (C74_chunks_at_once_refuted). round53 is proved to be a closest number with 53 bits; its exponent has no bounds (no overflow, no subnormals)"),
"C75": ("proved", "findings: erf(0) is 1e-9 and no number has erf 0 (C75_erf_zero_refuted); gamma is NaN between -1 and 0 and below -4.5, where the gamma function has values (C75_gamma_negative_refuted); gamma, lgamma and factorial of a literal raise TypeError because len() is called on a number (C75_gamma_of_literal_refuted, C75_literal_raises_refuted). exp and log are parameters; the distance from the true erf and gamma functions is not proved"),
"C76": ("proved", "findings: f(1)*f(1.5) and f(1.0)*f(1.5) are equal factor by factor but are put in different orders, because constants are first ordered by the names of their types, so they are different expressions (C76_int_float_refuted); < between sets is inclusion, so x in {1} or x in {2} may be kept in either order and the two are not equal (C76_sets_refuted); a set literal with values that cannot be ordered, such as {1, 'a'}, cannot be hashed and its expression cannot be used in a selection (C76_mixed_set_refuted)"),
"C77": ("proved", "findings: bin.binwidth is always less than the width of the bins, because the loop that corrects it subtracts at least one unit (C77_bin_binwidth_refuted), and raises ZeroDivisionError without finite bins, which a lookup by binwidth passes on even if another axis fits (C77_lookup_no_bins_refuted); split.binwidth(i) one below the lowest index gives minus the whole range instead of IndexError (C77_split_binwidth_too_low_refuted); a split is never found by a list of its edges, nor by a binwidth (C77_lookup_split_refuted); a negative number of bins is a TypeError and True is accepted as a number"),
"C78": ("proved", "numbers have 53 bits and an exponent without bounds: overflow to infinity and subnormal numbers are not modelled; projections that sum over group axes are covered only by the exact model (C36); refuted: associativity, reassociation of factors and distribution for factors that are not powers of two"),
"C79": ("proved", "Spark and Pandas data are not modelled; how Python prints constants is left open; refuted: that printing identifies the expression"),
"C80": ("proved", "the printed call is modelled as class, positional and keyword values, not as text: that Python prints and reads a string, number or tuple as the same value is trusted (inf and nan read back only where these names are defined); definitions given as parsed expressions are not covered, and C79 shows two that print alike; refuted: that the attachment is printed, that a SamplesBook prints a call with its histograms (its constructor takes the dict for a list of samples), and that a SystematicsBook prints a call that does not raise (it needs the attachments)"),
"C81": ("proved", "refuted: that hist[:, j] is bin j of the second axis and hist[..., j] element j of the last dimension, as in Numpy; slices of groups raise TypeError because slices have no hash (from Python 3.12 on they have one, and KeyError is raised); arrays of several dimensions as indexes are not modelled"),
"C82": ("proved", "refuted for drop of some profiles and not others, which leaves arrays of another shape (C42)"),
"C83": ("proved", "refuted for popitem, which never removes anything, for update with another book, which raises TypeError if that has a histogram, both because iterating over a book gives pairs and not keys, and for pop of a pattern, which removes the entries that do not match as well"),
}
