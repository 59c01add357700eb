{"id": "C01", "title": "rescale preserves the probability a number denotes", "statement": "A number v held under a scale s denotes the probability s*v when s is a real coefficient and exp(v+offset(s)) when s is a complex (logarithmic) scale. rescale(v, s, t) returns a number which, held under t, denotes the same probability, for all four combinations of linear and logarithmic s and t, provided the probability is representable (not below the smallest positive float when a logarithm is taken, not above the largest when an exponential is taken).", "quantifier": "all values v and all pairs of scales s,t (positive linear coefficients, any complex scale)", "why_tests_cant": "The claim ranges over a continuum of values and scales and over all four code paths; tests sample a handful of literal values.", "anchors": ["probayes/pscales.py:rescale", "probayes/pscales.py:logp_offs", "probayes/pscales.py:log_prob", "probayes/pscales.py:exp_logp", "probayes/pscales.py:eval_pscale"]}
{"id": "C02", "title": "rescale round trips and is path independent", "statement": "Rescaling from s to t and back to s returns the original number, and rescaling s to t to u gives the same number as rescaling s to u directly.", "quantifier": "all values in range and all triples of scales", "why_tests_cant": "Equality for every triple of scales cannot be exhausted by examples.", "anchors": ["probayes/pscales.py:rescale"]}
{"id": "C03", "title": "probability/log-probability conversions are safe, monotone and mutually inverse", "statement": "log_prob and exp_logp are total: log_prob never goes below the most negative float and exp_logp never exceeds the largest float; both are order preserving on their whole domain; each undoes the other on the representable range.", "quantifier": "all real inputs including zero, negative, tiny and huge ones", "why_tests_cant": "Order preservation relates every pair of inputs, including those on either side of each clamp.", "anchors": ["probayes/pscales.py:log_prob", "probayes/pscales.py:exp_logp"]}
{"id": "C04", "title": "pscale evaluation is canonical", "statement": "eval_pscale accepts None, 'log', 'ln', ints, floats and complex numbers, rejects everything else with ValueError, never returns a real zero, maps every spelling of the log scale to the same complex zero, and applying it again changes nothing.", "quantifier": "all pscale specifications", "why_tests_cant": "Input space is unbounded and includes every number type.", "anchors": ["probayes/pscales.py:eval_pscale"]}
{"id": "C05", "title": "the product rule multiplies the denoted probabilities", "statement": "For any number of probability arrays each held on the plain linear scale or on the plain log scale, prod_rule returns an array and a scale such that the result, held under that scale, denotes the elementwise product of the probabilities denoted by the arguments.", "quantifier": "all lists of arrays of any length, any mix of linear and log scales, all broadcastable shapes", "why_tests_cant": "Arbitrary numbers of factors and arbitrary mixes of scales.", "anchors": ["probayes/pscales.py:prod_rule", "probayes/pscales.py:prod_pscale"]}
{"id": "C06", "title": "the product scale denotes the product of the scales for arbitrary scales", "statement": "prod_pscale of a list of scales denotes the product of the coefficients that the individual scales denote, for arbitrary (not only plain) scales.", "quantifier": "all non-empty lists of scales", "why_tests_cant": "Needs all scales; the shipped tests only use plain linear and plain log scales, on which the defect is invisible.", "anchors": ["probayes/pscales.py:prod_pscale", "probayes/pscales.py:logp_offs", "probayes/pscales.py:prob_coef"], "finding": "The code violates the statement: it is proved that the scale of a product is right exactly if no log scale is involved or the offsets cancel."}
{"id": "C07", "title": "a requested output scale of the product rule is honoured", "statement": "When the caller asks prod_rule (or product) for a particular output scale, the returned number held under the returned scale still denotes the product.", "quantifier": "all requested scales and all argument scales", "why_tests_cant": "Every pair (natural scale, requested scale) has to be considered.", "anchors": ["probayes/pscales.py:prod_rule", "probayes/pd_utils.py:product"], "finding": "The code violates the statement: a requested scale of the other kind raises, and one of the same kind is returned with unscaled values, which mean the same if and only if the factors are equal or the value is zero; proved exactly."}
{"id": "C08", "title": "safe division denotes the quotient", "statement": "div_prob returns a number which under the output scale denotes the quotient of the denoted probabilities whenever the divisor is at least the smallest positive float; multiplying back by the divisor recovers the dividend; a smaller (e.g. zero) divisor never causes a division by zero.", "quantifier": "all dividends, divisors and scales", "why_tests_cant": "Continuum of values and scales.", "anchors": ["probayes/pscales.py:div_prob"]}
{"id": "C09", "title": "distribution names round trip", "statement": "Rendering marginal and conditional entries to a name and parsing that name back yields the same ordered marginal and conditional entries.", "quantifier": "all ordered entries whose texts are non-empty and contain none of the reserved characters, with distinct keys", "why_tests_cant": "All strings; unbounded numbers of entries.", "anchors": ["probayes/pd_utils.py:str_margcond", "probayes/pd_utils.py:margcond_str", "probayes/pd_utils.py:str2key"]}
{"id": "C10", "title": "parenthesised names are understood", "statement": "A name written in parentheses such as 'p(x|y)' is parsed to the marginals and conditionals inside the parentheses.", "quantifier": "all names written with a matching pair of parentheses", "why_tests_cant": "All names.", "anchors": ["probayes/pd_utils.py:str_margcond"], "finding": "The code violates the statement: it is proved false for every parenthesised name."}
{"id": "C11", "title": "a Distribution's shape is the one its values and dims describe", "statement": "When a Distribution is constructed with dims placing distinct non-singleton variables on distinct axes 0..n-1, its shape lists on each axis the number of values of the variable on that axis, its size is the product, scalars contribute nothing, and every value array is reshaped so that its values lie along its own axis; with dims omitted, axes are assigned in key order.", "quantifier": "all ordered dictionaries of values (any mix of scalars, unit sets and arrays) and all dims assignments of that form", "why_tests_cant": "Arbitrary numbers of variables and sizes.", "anchors": ["probayes/distribution.py:Distribution.dims"]}
{"id": "C12", "title": "variables sharing an axis have matching lengths", "statement": "A Distribution in which two variables share an axis is only accepted if both have the same number of values.", "quantifier": "all value dictionaries and dims with shared axes", "why_tests_cant": "All sizes.", "anchors": ["probayes/distribution.py:Distribution.dims"], "finding": "Distribution.dims never compares lengths: two arrays on one axis are accepted whatever their sizes and the axis takes the size of the later one."}
{"id": "C13", "title": "marginalise sums out exactly the named variables", "statement": "p.marginalise(keys) keeps all other variables with their values, and at every position of the remaining variables its probability is the sum over all positions of the removed variables of the probabilities of p.", "quantifier": "all distributions whose variables occupy their own axes in key order, any number of variables and sizes, any set of marginal keys, linear or log scale", "why_tests_cant": "Holds for every shape, every subset of variables and every probability content.", "anchors": ["probayes/pd.py:PD.marginalise", "probayes/pd.py:PD.marginal"]}
{"id": "C14", "title": "marginalisation conserves total probability and composes", "statement": "Marginalising does not change total probability, and removing variables in one call or in two successive calls gives the same distribution.", "quantifier": "same as C13, all splits of the set of removed keys", "why_tests_cant": "All splits of all key sets.", "anchors": ["probayes/pd.py:PD.marginalise"]}
{"id": "C15", "title": "marginalise works whatever axes the variables occupy", "statement": "p.marginalise(keys) succeeds and is correct for every valid distribution, including those whose axes are not in key order and those in which variables share an axis.", "quantifier": "all valid distributions", "why_tests_cant": "All axis layouts.", "anchors": ["probayes/pd.py:PD.marginalise", "probayes/pd.py:PD.__truediv__"], "finding": "The code violates the statement: a remaining variable is moved down by the number of removed keys before it in key order, wherever the axes are (C15_placed), so the result is correct exactly when that equals the number of removed axes before it (C15_correct_iff); layouts with axes in another order or shared axes raise, or silently exchange variables."}
{"id": "C16", "title": "conditionalise yields a normalised conditional distribution", "statement": "p.conditionalise(keys) turns the keys into conditionals and, at every position of the conditioning variables whose marginal probability is not vanishing, the probabilities sum to one over the remaining marginal variables and each equals the joint probability divided by the marginal probability.", "quantifier": "all distributions over variables in axis order, conditioning on a leading or trailing block of marginals, any sizes", "why_tests_cant": "All shapes and probability contents.", "anchors": ["probayes/pd.py:PD.conditionalise"], "finding": "With no marginal column left the probabilities are not divided (C16_no_column_left_refuted)."}
{"id": "C17", "title": "conditionalise works for every choice of marginal keys", "statement": "p.conditionalise(keys) succeeds for every set of marginal keys of every valid distribution.", "quantifier": "all distributions and key sets", "why_tests_cant": "All key sets: the failing ones need at least three variables.", "anchors": ["probayes/pd.py:PD.conditionalise"], "finding": "Only leading or trailing blocks of marginal columns can be conditioned on; an inner column always raises."}
{"id": "C18", "title": "product gives the pointwise product of the factors", "statement": "For distributions with disjoint marginals whose conditionals are either marginals of another factor or common to all, the product's probability at each position of all variables is the product of the factors' probabilities at the corresponding positions, whatever the axis order of the factors.", "quantifier": "any number of factors, variables and sizes, any axis permutation inside each factor", "why_tests_cant": "All numbers of factors and all axis layouts.", "anchors": ["probayes/pd_utils.py:product", "probayes/pscales.py:prod_rule"], "finding": "False when a column is a conditional common to several factors: p(x|z)*p(y|z) with array z raises TypeError (repeated key in the product's conditionals)"}
{"id": "C19", "title": "Bayes' theorem holds through the API", "statement": "Multiplying a prior p(x) by a likelihood p(y|x) and conditionalising the product on y gives at every (x,y) prior*likelihood/evidence with evidence the sum over x, and dividing the product by the prior returns the likelihood.", "quantifier": "all prior vectors and likelihood matrices of any size", "why_tests_cant": "All sizes and all probability values.", "anchors": ["probayes/pd_utils.py:product", "probayes/pd.py:PD.conditionalise", "probayes/pd.py:PD.__truediv__"]}
{"id": "C20", "title": "product rejects distributions over the same marginal", "statement": "product raises an error rather than returning a distribution whenever two factors have a marginal variable in common, unless all factors have the same variables and hold counted (unit set) values.", "quantifier": "all lists of factors", "why_tests_cant": "All factor lists.", "anchors": ["probayes/pd_utils.py:product"]}
{"id": "C21", "title": "product detects mismatched values of a conditioning variable", "statement": "If a factor is conditioned on a variable which is a marginal of another factor and the two hold different values for that variable, product raises an error.", "quantifier": "all pairs of factors sharing a conditioning variable", "why_tests_cant": "All value arrays and all admissible names of the variable.", "anchors": ["probayes/pd_utils.py:product"], "finding": "Not true of scalar values, which are never compared: p(x=5)*p(y=1|x=6) is accepted and holds x=5, since the entry 'x=5' is not a key of any factor. Arrays are compared within np.allclose's tolerance, and only with the first factor that holds the variable."}
{"id": "C22", "title": "division divides pointwise", "statement": "Dividing p(A,B|C) by p(A|C) gives at each position the ratio of the two probabilities at that position.", "quantifier": "all dividends and divisors with matching conditionals, whatever their axis orders", "why_tests_cant": "All axis layouts and sizes.", "anchors": ["probayes/pd.py:PD.__truediv__", "probayes/pscales.py:div_prob"], "finding": "False of the code beyond its own layout: a divisor with a conditional column of two or more values always raises, and a divisor whose axes are in another order than the dividend's is reshaped, not transposed, so the quotient divides by the probability at another position; proved exactly for all axis orders."}
{"id": "C23", "title": "slicing selects the right probabilities", "statement": "Calling a distribution with scalar values for some variables returns the distribution over the remaining variables whose probability at each position equals the original at that position with the named variables at the requested values.", "quantifier": "all distributions over variables in axis order, all sets of keys and all values which occur exactly once", "why_tests_cant": "All shapes, key subsets and values.", "anchors": ["probayes/pd.py:PD.__call__"]}
{"id": "C24", "title": "expectation is a probability-weighted mean", "statement": "For a distribution of non-negative probabilities with non-vanishing total, the expectation of a variable equals the weighted mean of its values, lies between its least and greatest value, and is unchanged if all probabilities are multiplied by a positive constant.", "quantifier": "all distributions over any number of variables and all values", "why_tests_cant": "All values and weights.", "anchors": ["probayes/pd.py:PD.expectation", "probayes/pscales.py:div_prob"], "finding": "Where all weights vanish the expectation is reported as 0, even if no value of the variable is near 0 (C24_vanishing)."}
{"id": "C25", "title": "sorted reorders values and probabilities together", "statement": "p.sorted(key) returns a distribution with the values of the key in ascending order in which every value keeps its own probabilities: the list of (value, slice of probabilities) pairs is a permutation of the original one, and variables sharing the axis are reordered alongside.", "quantifier": "all distributions and all keys", "why_tests_cant": "All shapes, values and ties.", "anchors": ["probayes/pd.py:PD.sorted"], "finding": "A column that shares the sorted column's axis, but was given that axis as a negative number, is left in its old order, so the row no longer belongs together."}
{"id": "C26", "title": "remarginalise conserves total probability", "statement": "p.remarginalise(distribution, values) moves each probability into exactly one cell of the target grid, the one whose interval contains the given value (clipped at the ends), so the total probability is unchanged.", "quantifier": "all source arrays, target grids and target values", "why_tests_cant": "All grids and sizes.", "anchors": ["probayes/pd.py:PD.remarginalise"]}
{"id": "C27", "title": "prod reduces independent repetitions", "statement": "p.prod(keys) denotes, for each position of the other variables, the product of the probabilities over all positions of the keys, and records the number of repetitions.", "quantifier": "all distributions, key sets and scales", "why_tests_cant": "All scales: the defect is invisible on the plain scales.", "anchors": ["probayes/pd.py:PD.prod"], "finding": "The scale of the result is the old one raised to the number of repetitions plus one, so that the probabilities denoted are too large by the factor of the scale; and a log offset of 1/(n+1) turns the logarithms into linear probabilities."}
{"id": "C28", "title": "rekey renames without changing anything else", "statement": "p.rekey(keymap) has the same values, axes and probabilities with keys renamed, and never drops a variable.", "quantifier": "all distributions and key maps", "why_tests_cant": "All key maps including those whose targets collide with existing keys.", "anchors": ["probayes/pd.py:PD.rekey", "probayes/distribution.py:Distribution.rekey", "probayes/pd_utils.py:rekey_dict"], "finding": "rekey a->b drops a scalar marginal a silently when a later marginal b is not itself renamed: rekey assigns values[b] twice and never checks."}
{"id": "C29", "title": "redim permutes axes", "statement": "p.redim(dims) returns the same distribution with its axes permuted.", "quantifier": "all distributions and dims", "why_tests_cant": "All permutations.", "anchors": ["probayes/pd.py:PD.redim"], "finding": "PD.redim reads the attribute _aresingletons, which does not exist: it raises AttributeError for every distribution with a column."}
{"id": "C30", "title": "serialise/deserialise round trips", "statement": "deserialise(serialise(p)) returns a distribution with the same keys, values, axes, probabilities and scale.", "quantifier": "all distributions", "why_tests_cant": "All distributions.", "anchors": ["probayes/pd_utils.py:serialise", "probayes/pd_utils.py:deserialise", "probayes/pd.py:PD.serialise"]}
{"id": "C31", "title": "serialising several distributions keeps all of them", "statement": "deserialise(serialise(p1,...,pn)) returns n distributions.", "quantifier": "all lists of distributions", "why_tests_cant": "All lists, including distributions of the same variables.", "anchors": ["probayes/pd_utils.py:serialise"], "finding": "serialise keys the result by short name, so of distributions with the same marginal and conditional variables only the last is saved."}
{"id": "C32", "title": "writing a distribution does not modify it", "statement": "After write_dist(path, p) the distribution p is what it was before.", "quantifier": "all distributions", "why_tests_cant": "All distributions: needs one with a scalar variable.", "anchors": ["probayes/pd_utils.py:write_serialised", "probayes/pd_utils.py:write_dist", "probayes/distribution.py:Distribution.serialise"], "finding": "write_serialised replaces None by the string 'None' in the dims dictionary of the live object; afterwards rescaled, sorted, division and deserialise of it raise TypeError."}
{"id": "C33", "title": "summing single samples concatenates them in order", "statement": "summate of n scalar-valued samples over the same variables is a distribution whose i-th position along axis 0 holds the i-th sample's values and probability; counted variables are added.", "quantifier": "all n>=1 and all samples with matching keys and scale", "why_tests_cant": "Unbounded numbers of samples.", "anchors": ["probayes/pd_utils.py:summate"], "finding": "summate of samples all of whose variables are counts raises AssertionError, although the code has a branch that adds counts."}
{"id": "C34", "title": "monotonicity test is exact", "statement": "ismonotonic returns True exactly for scalars, non-decreasing arrays and strictly decreasing arrays of at least two elements.", "quantifier": "all arrays", "why_tests_cant": "All arrays.", "anchors": ["probayes/pd_utils.py:ismonotonic"]}
{"id": "C35", "title": "binary code round trip", "statement": "bin_to_int undoes int_to_bin for every non-negative integer, with at least the requested number of bits and no superfluous ones.", "quantifier": "all non-negative integers and widths", "why_tests_cant": "All integers.", "anchors": ["probayes/likelihoods.py:int_to_bin", "probayes/likelihoods.py:bin_to_int"], "finding": "bin_to_int works in signed 64-bit integers: the round trip holds exactly for n < 2^63 (proved as an iff)."}
{"id": "C36", "title": "boolean permutation frequencies count the rows", "statement": "bool_perm_freq counts for every boolean combination the number of rows equal to it, the counts add up to the number of rows, and the frequencies sum to one.", "quantifier": "all boolean tables with any number of rows and columns", "why_tests_cant": "All tables.", "anchors": ["probayes/likelihoods.py:bool_perm_freq"]}
{"id": "C37", "title": "frequency smoothing has an effect", "statement": "A non-zero base_freq is added to every count before frequencies are computed.", "quantifier": "all tables and base frequencies", "why_tests_cant": "All base frequencies.", "anchors": ["probayes/likelihoods.py:bool_perm_freq"], "finding": "False of the code: likelihoods.py 88-90 adds the counts to base_freq and then divides the counts themselves. Proved: base_freq never changes the result."}
{"id": "C38", "title": "uniform grids respect limits and exclusions", "statement": "uniform(a,b,n,ex0,ex1) with n>0 returns exactly n equally spaced increasing points in [a,b], excluding a if ex0 and b if ex1, and touching each limit not excluded when n>1.", "quantifier": "all a<b, all n>0 and all exclusions", "why_tests_cant": "All limits and counts.", "anchors": ["probayes/vtypes.py:uniform"]}
{"id": "C39", "title": "requesting n values of a discrete variable covers its set evenly", "statement": "Evaluating a discrete variable at {n} returns n values of its set in cyclic order so that any two members occur a number of times differing by at most one; {-n} likewise in random order.", "quantifier": "all sets, all n, all permutations", "why_tests_cant": "All n and set sizes; all outcomes of the random permutation.", "anchors": ["probayes/variable.py:Variable.evaluate"], "finding": "A bool variable with a one-element set has length 2, so {n} with n>=2 raises IndexError."}
{"id": "C40", "title": "bounded perturbation stays inside the variable's set", "statement": "apply_delta with bound=True applied to values inside the variable's limits returns values inside the limits.", "quantifier": "all limits (closed, open, half open), all values and deltas, scalar and array", "why_tests_cant": "Continuum of values, deltas and limits.", "anchors": ["probayes/variable.py:Variable.apply_delta"], "finding": "False of the code for scalars in half-open intervals: variable.py 714-725 compares with < and > where the array branch uses <= and >=, so a step onto the excluded limit is accepted (exact iff proved). For discrete variables the result stays between the extremes but need not be a member."}
{"id": "C41", "title": "the default probability of a random variable is the uniform distribution", "statement": "A random variable without a specified probability gives every value inside its set the reciprocal of its length and every value outside zero, so that over a finite set they sum to one.", "quantifier": "all finite and interval sets and all values", "why_tests_cant": "All sets and values.", "anchors": ["probayes/rv.py:RV.eval_prob", "probayes/rv_utils.py:uniform_prob"], "finding": "bool variables: in log scale False gets the 'probability' 2e and in a linear scale c it gets c - 1/2, because the default probability, already expressed in the scale, is turned into a Bernoulli bias as if it were linear (rv.py 147-152)."}
{"id": "C42", "title": "transition matrix sampling follows the matrix column", "statement": "Sampling a successor with a uniform random number u from a transition matrix returns state i exactly when u lies in the i-th interval of the cumulative sums of the column of the current state, so that the set of u choosing i has length equal to the matrix entry, and a valid state is always returned.", "quantifier": "all column-stochastic matrices, all current states and all u in [0,1)", "why_tests_cant": "All matrices and all random outcomes.", "anchors": ["probayes/rv_utils.py:matrix_cond_sample", "probayes/rv_utils.py:lookup_square_matrix"]}
{"id": "C43", "title": "a random variable can be declared by its type alone", "statement": "RV(name, vtype=t) for t in bool, int, float creates the variable with the default set of the type, as documented.", "quantifier": "all names and types", "why_tests_cant": "All types; the constructor's argument order has to be followed through.", "anchors": ["probayes/rv.py:RV.__init__", "probayes/variable.py:Variable.__init__", "probayes/variable.py:Variable.vset"], "finding": "Violated for every type: RV passes vtype and vset to Variable in swapped order, so a type alone is taken for a set and raises AssertionError."}
{"id": "C44", "title": "ordered calls route every argument to its declared place", "statement": "An expression with an 'order' mapping calls the function with each mapped keyword at its positional index or under its new name, drops the ones mapped to None and leaves all others untouched.", "quantifier": "all mappings and keyword arguments", "why_tests_cant": "All mappings, including permutations of names.", "anchors": ["probayes/expression.py:Expression._call", "probayes/func.py:Func._call"], "finding": "Holds exactly when no entry of the mapping interferes with a later one; a mapping such as {a: b, b: a} silently loses the value of b."}
{"id": "C45", "title": "delta calls pass differences", "statement": "An expression with a 'delta' mapping passes for every key x' the difference x'-x.", "quantifier": "all mappings and keyword arguments", "why_tests_cant": "All mappings and orders.", "anchors": ["probayes/expression.py:Expression._call", "probayes/func.py:Func._call"], "finding": "A mapping that uses both x and x' can never be called: the first entry removes the keyword the other one needs."}
{"id": "C46", "title": "a rejected add_func leaves the functional unchanged", "statement": "If add_func raises, the set of dependences of the functional is what it was before.", "quantifier": "all functionals and specifications", "why_tests_cant": "All histories of calls.", "anchors": ["probayes/functional.py:Functional.add_func"], "finding": "The code violates this: the outputs are registered before the checks, so a rejected add_func changes the dependences whenever the specification parses and its outputs are new, and those outputs can never be given a function again."}
{"id": "C47", "title": "adding variables to a field", "statement": "After field.add_var(v) succeeds the field contains exactly the previous variables followed by the new ones, for single variables and for lists of variables.", "quantifier": "all fields and variables", "why_tests_cant": "All histories of additions.", "anchors": ["probayes/field.py:Field.add_var"], "finding": "False for collections: on an existing field the loop of add_var re-adds its last element in the else clause, so every collection raises AssertionError; its variables stay in the graph and appear after the next successful addition. A random field given a plain variable raises AttributeError, because refreshing it asks every variable for its pscale."}
{"id": "C48", "title": "field evaluation assigns one axis per independent variable", "statement": "Evaluating a field gives every non-scalar group of variables its own axis, in the order of the variables, and no axis to scalars.", "quantifier": "all fields and argument values", "why_tests_cant": "All numbers of variables and all mixes of scalars and arrays.", "anchors": ["probayes/field.py:Field.evaluate"], "finding": "False in two cases: a value that turns out scalar (None for a float variable) takes an axis, and numbers under a shared key add an axis of size one."}
{"id": "C49", "title": "spherical steps have the requested length", "statement": "A spherical delta of radius r yields per-variable changes whose Euclidean norm is exactly r.", "quantifier": "all dimensions, directions and radii", "why_tests_cant": "Continuum of directions.", "anchors": ["probayes/field.py:Field.eval_delta"], "finding": "With scale=True the variable lengths enter twice; naming a variable in the optional dictionary makes every evaluation raise."}
{"id": "C50", "title": "leafs, stems and roots partition the dependence graph", "statement": "Every variable of a dependence is a leaf, stem or root according to whether it has outgoing and incoming arcs, in exactly one class.", "quantifier": "all directed graphs", "why_tests_cant": "All graphs.", "anchors": ["probayes/dependence.py:Dependence._refresh"], "finding": "False of serial compositions: the variables in the middle of a chain (y|z)&(x|y) belong to no class (stems stay empty) and the predecessors of the leafs are taken to be the roots. Also false of x|y when x and y share a variable, which is accepted. True of x|y for disjoint x and y, of parallel compositions and of all other compositions, on every graph."}
{"id": "C51", "title": "concurrent samplers of a process are independent", "statement": "The counter and the chain state of a sampler depend only on the steps taken by that sampler, however its steps are interleaved with those of other samplers of the same process.", "quantifier": "all numbers of samplers and all schedules of their steps", "why_tests_cant": "All interleavings.", "anchors": ["probayes/sp.py:SP.next", "probayes/sp.py:SP.sampler", "probayes/sp_utils.py:sample_generator"]}
{"id": "C52", "title": "the verdicts of a sampler form a Markov chain trajectory", "statement": "Each sample's verdict is the proposal if accepted and otherwise the previous verdict; the first sample is always accepted; each proposal starts from the last accepted one.", "quantifier": "all proposal, score and update functions and all numbers of steps", "why_tests_cant": "All histories.", "anchors": ["probayes/sp.py:SP.next"]}
{"id": "C53", "title": "a stop specification bounds the number of samples", "statement": "A sampler created with stop=n yields exactly n samples, and its counter and chain state are then reset.", "quantifier": "all n and all schedules", "why_tests_cant": "All n and interleavings.", "anchors": ["probayes/sp_utils.py:sample_generator", "probayes/sp.py:SP.sampler", "probayes/sp.py:SP.reset"]}
{"id": "C54", "title": "walk(stop=n) advances the sampler by n samples", "statement": "Walking a sampler for n steps returns n samples and consumes exactly those, so consecutive walks return consecutive samples.", "quantifier": "all samplers and all n", "why_tests_cant": "All n and histories.", "anchors": ["probayes/sp.py:SP.walk"], "finding": "The code violates the statement: walk(stop=n) consumes n+1 samples and drops the last, unless the sampler's own bound comes first; proved exactly."}
{"id": "C55", "title": "resetting a process does not entangle its samplers", "statement": "After reset(), a sampler created before and one created after remain independent.", "quantifier": "all histories of sampler creation, steps and resets", "why_tests_cant": "All histories.", "anchors": ["probayes/sp.py:SP.reset", "probayes/sp.py:SP.next"], "finding": "The code violates the statement: after reset() an old sampler raises, or, once a new one exists, steps the new one."}
{"id": "C56", "title": "Metropolis acceptance satisfies detailed balance", "statement": "For a symmetric proposal the acceptance probability min(1,p'/p) computed from the metropolis scores satisfies p*a(p,p') = p'*a(p',p), for linear scales.", "quantifier": "all pairs of non-vanishing probabilities", "why_tests_cant": "Continuum of probabilities.", "anchors": ["probayes/sp_utils.py:metropolis_scores", "probayes/sp_utils.py:metropolis_update"]}
{"id": "C57", "title": "Hastings acceptance satisfies detailed balance", "statement": "For a proposal with forward probability q and reverse probability r the hastings scores satisfy p*q*a = p'*r*a'.", "quantifier": "all probabilities and all proposal densities", "why_tests_cant": "Continuum; invisible for symmetric proposals.", "anchors": ["probayes/sp_utils.py:hastings_scores"], "finding": "The code violates the statement: the ratio of the proposal densities is inverted, so balance holds exactly if q = r; on the log scale not even then."}
{"id": "C58", "title": "log-scale Metropolis acceptance equals the exponentiated difference", "statement": "On the log scale the metropolis score is min(1,exp(l'-l)) for all log probabilities.", "quantifier": "all log probabilities", "why_tests_cant": "Continuum; fails only for very small probabilities.", "anchors": ["probayes/sp_utils.py:metropolis_scores", "probayes/pscales.py:div_prob"], "finding": "The code violates the statement for small probabilities: it holds exactly if one of the two probabilities is at least the smallest positive float."}
{"id": "C59", "title": "conditional Gaussian moments follow the Schur complement", "statement": "The conditional covariance object gives for each variable the conditional mean mu_i + S_i,r S_r,r^-1 (x_r - mu_r) and the conditional variance S_ii - S_i,r S_r,r^-1 S_r,i.", "quantifier": "all means, covariances and values", "why_tests_cant": "All dimensions.", "anchors": ["probayes/cond_cov.py"]}
{"id": "C60", "title": "limited conditional Gaussian samples stay within limits", "statement": "Samples drawn from a conditional covariance object with limits lie within those limits.", "quantifier": "all limits and random numbers", "why_tests_cant": "Continuum.", "anchors": ["probayes/cond_cov.py"], "finding": "Limits are stored relative to the unconditional mean but applied around the conditional one, so samples obey limits shifted by the difference of the two means."}
{"id": "C61", "title": "a Metropolis rule rejects proposals of a process without transitions", "statement": "A process given a proposal distribution but no transition, with metropolis or hastings scores, rejects improbable proposals.", "quantifier": "all engines, score functions and histories", "why_tests_cant": "All histories and random numbers.", "anchors": ["probayes/sd.py:SD._sample_prop", "probayes/sp.py:SP.next", "probayes/sp_utils.py:metropolis_scores"], "finding": "The code violates the statement: such samples have no predecessor, hence no score, and every one is accepted."}
{"id": "C62", "title": "likelihood functions answer every request with the relative frequency", "statement": "The likelihood function made by bool_perm_freq with labels returns, for any mixture of given values and requested axes (axes in the order of the labels), an array with one axis of length two per requested label whose entries are the relative frequencies of the corresponding combinations.", "quantifier": "all label lists, tables and requests", "why_tests_cant": "All numbers of labels and all requests.", "anchors": ["probayes/likelihoods.py:bool_perm_freq", "probayes/rf_utils.py:slice_by_keyvals"]}
{"id": "C63", "title": "slicing by values respects the requested axes", "statement": "slice_by_keyvals returns the entries on the axes given by spec_dims in whatever order they are given, and guesses the dimensions if they are not given.", "quantifier": "all tables, specifications and dimension dictionaries", "why_tests_cant": "All dimension orders.", "anchors": ["probayes/rf_utils.py:slice_by_keyvals"], "finding": "False of the code: there is no transposition, so axes requested in another order than the labels are returned untransposed without an error (right iff the table is symmetric), and omitted dims always fail because dims_from_vals returns None."}
{"id": "C64", "title": "a variable contains what lies between its limits", "statement": "A float variable contains exactly the numbers between its two limits, given in either order, strictly where the limit is given in a tuple; a discrete variable contains exactly its members.", "quantifier": "all limits, including infinite ones, and all numbers", "why_tests_cant": "Continuum of limits and numbers.", "anchors": ["probayes/variable.py:Variable.vset", "probayes/variable.py:Variable._eval_ulims"]}
{"id": "C65", "title": "values a variable gives belong to it", "statement": "Evaluating a float variable at {n} returns values inside its set, for n>0 on a grid and otherwise drawn at random, also through a transformation.", "quantifier": "all intervals, transformations, n and random numbers", "why_tests_cant": "Continuum of intervals and random outcomes.", "anchors": ["probayes/variable.py:Variable.evaluate", "probayes/vtypes.py:uniform"], "finding": "Drawn values may equal an excluded lower limit: numpy draws from [low, high) and the exclusion is ignored for n<=0 (exact iff proved)."}
{"id": "C66", "title": "a zero perturbation changes nothing", "statement": "apply_delta with delta=0 returns the values unchanged.", "quantifier": "all variables, defaults and values", "why_tests_cant": "All defaults.", "anchors": ["probayes/variable.py:Variable.apply_delta"], "finding": "False of the code: `delta or self._delta` replaces an explicit 0 by the default delta."}
{"id": "C67", "title": "variables are consistent after construction and assignment", "statement": "A successfully created variable has a type, a set whose elements all have that type and, for floats, two limits in increasing order; type and set may be given in either order; assignments of set or type keep this.", "quantifier": "all constructor arguments and assignments", "why_tests_cant": "All argument combinations.", "anchors": ["probayes/variable.py:Variable.__init__", "probayes/variable.py:Variable.vset", "probayes/variable.py:Variable.vtype"], "finding": "False of the code for assignments of vtype: the set is not converted."}
{"id": "C68", "title": "documented ways of declaring variables work", "statement": "Variable() takes the default name, numpy arrays are accepted as sets, and variables(names, vtype) declares several variables of a type.", "quantifier": "all names, arrays and types", "why_tests_cant": "All arguments.", "anchors": ["probayes/variable.py:Variable.__init__", "probayes/variable.py:variables"], "finding": "False of the code: the default name is never used, `if vtype or vset` raises for arrays of several elements, and variables() passes vtype in the position of vset."}
{"id": "C69", "title": "a refused set leaves the variable unchanged", "statement": "If assigning vset raises, the variable keeps its set.", "quantifier": "all variables and refused sets", "why_tests_cant": "All histories of assignments.", "anchors": ["probayes/variable.py:Variable.vset"], "finding": "False of the code: _vset is overwritten before the limits are checked."}
{"id": "C70", "title": "log hypervolume", "statement": "The property lhv of a variable is the logarithm of its length.", "quantifier": "all variables", "why_tests_cant": "Continuum of lengths.", "anchors": ["probayes/variable.py:Variable.lhv"], "finding": "False of the code: lhv returns the length."}
{"id": "C71", "title": "random perturbations stay in their documented range", "statement": "A perturbation (d) is +d or -d, [d] lies between -d and d; a bool is flipped by an odd number, and with the given probability by a tuple.", "quantifier": "all variables, sizes and random numbers", "why_tests_cant": "Continuum.", "anchors": ["probayes/variable.py:Variable.eval_delta", "probayes/variable.py:Variable.apply_delta"], "finding": "False of the code for bools with a tuple: `delta > np.random.uniform() > 0.5` keeps the value only if the number drawn is in (0.5, delta). [d] of an integer variable never gives +d and [0] raises."}
{"id": "C72", "title": "the scale flag scales the default perturbation", "statement": "With scale=True the default perturbation is multiplied by the length of the variable when it is applied.", "quantifier": "all variables and defaults", "why_tests_cant": "All defaults.", "anchors": ["probayes/variable.py:Variable.set_delta", "probayes/variable.py:Variable.apply_delta"], "finding": "False of the code: apply_delta never goes through the scaling for scalar defaults, and list or tuple defaults are compared unequal to their own element."}
{"id": "C73", "title": "array probabilities of a discrete random variable can be evaluated", "statement": "A discrete random variable given an array of probabilities, one per value of its set, returns on a call the probabilities of the requested values.", "quantifier": "all discrete sets, probability arrays and call arguments", "why_tests_cant": "One test shows one failing call; that no call can return needs all sets, scales and arguments.", "anchors": ["probayes/rv.py:RV.set_prob", "probayes/rv.py:RV.eval_prob", "probayes/expression.py:Expression._call"], "finding": "Violated by every call: values are always passed to the array, an uncallable expression, which asserts that there are none."}
{"id": "C74", "title": "probabilities can be evaluated in a requested scale", "statement": "Calling a probability with the keyword pscale returns the probabilities converted to that scale.", "quantifier": "all probabilities, values and scales", "why_tests_cant": "The conversion would have to be checked for every scale and value.", "anchors": ["probayes/prob.py:Prob.eval_prob"], "finding": "Violated for all scales: the keyword is removed from the dictionary before it is looked up (KeyError), or ignored if it counts as false (0j)."}
{"id": "C75", "title": "the log scale may be given as 0j", "statement": "RV(..., pscale=0j), the evaluated form of the scale 'log', makes a variable in log scale.", "quantifier": "all variables and probabilities", "why_tests_cant": "The scale is kept for the life of the variable and affects every later probability.", "anchors": ["probayes/rv.py:RV.__init__", "probayes/prob.py:Prob.set_prob"], "finding": "Violated: 0j counts as false and is replaced by the default linear scale."}
{"id": "C76", "title": "the default transition is uniform", "statement": "A variable with a default probability and default transition gives each step between two values of its set the reciprocal of its length, and each other step zero.", "quantifier": "all finite sets, scales, predecessors and successors", "why_tests_cant": "Ranges over all sets, scales and pairs of values.", "anchors": ["probayes/rv.py:RV.eval_step", "probayes/rv.py:RV.eval_tran", "probayes/rv_utils.py:uniform_prob"], "finding": "In log scale steps from or to values outside have probability one: eval_tran does not pass the scale on."}
{"id": "C77", "title": "successors can be requested as unit sets", "statement": "A successor {u} with a float u is the quantile u of the transition, and {n} requests n samples.", "quantifier": "all variables with scalar or matrix transitions, predecessors and sets", "why_tests_cant": "That no input works cannot be tested.", "anchors": ["probayes/rv.py:RV.eval_step", "probayes/rv_utils.py:matrix_cond_sample"], "finding": "Violated: {u} never returns with scalar (missing attribute _limits) or matrix transitions (a list is indexed by an array), and {n} with n <> 0 never with matrices."}
{"id": "C78", "title": "a new set keeps a random variable consistent", "statement": "After assigning a new set to a random variable with the default probability, the probability is uniform over the new set and a transition the user has set is kept.", "quantifier": "all variables, sets and scales", "why_tests_cant": "Histories of assignments over all sets.", "anchors": ["probayes/rv.py:RV.vset", "probayes/rv.py:RV._default_prob"], "finding": "The user's transition is silently replaced by the uniform one."}
{"id": "C79", "title": "scalar probabilities of bool variables are Bernoulli", "statement": "A bool variable with a scalar probability p gives p to True and 1-p to False, in whatever scale p is expressed, and its draws are True with probability p.", "quantifier": "all p, scales and random numbers", "why_tests_cant": "All probabilities, scales and draws.", "anchors": ["probayes/rv.py:RV.set_prob", "probayes/rv.py:RV.evaluate", "probayes/sympy_prob.py:bernoulli_prob", "probayes/sympy_prob.py:bernoulli_sfun"], "finding": "In log scale False gets at least e; probabilities within 5e-6 of one half are used for both values."}
{"id": "C80", "title": "functional transitions sample within the limits", "statement": "With conditional distribution functions (cdf, inverse) that are monotone and undo each other at the limits, every sampled successor lies within the limits of the variable.", "quantifier": "all functions, limits, numbers of samples and random numbers", "why_tests_cant": "All functions and draws.", "anchors": ["probayes/rv.py:RV.eval_step"]}
{"id": "C81", "title": "length of a multiple expression", "statement": "len() of an expression made from a tuple of n functions is n.", "quantifier": "all tuples of functions, stored arguments and mappings", "why_tests_cant": "All lengths.", "anchors": ["probayes/expression.py:Expression.__len__", "probayes/expression.py:Expression._set_partials"], "finding": "The length is n+1 because the key -1 is counted; the empty tuple is not accepted."}
{"id": "C82", "title": "indexing a multiple expression", "statement": "An expression made from a tuple is indexed by 0..n-1 in order and by -1 for the last, any other integer raises KeyError; it cannot be called directly, and a single expression is called directly and cannot be indexed by an integer.", "quantifier": "all tuples, all integers", "why_tests_cant": "All lengths and indices.", "anchors": ["probayes/expression.py:Expression.__getitem__", "probayes/expression.py:Expression.__call__"]}
{"id": "C83", "title": "a rejected mapping leaves an expression unchanged", "statement": "If set_order raises, later calls of the expression behave as before.", "quantifier": "all expressions and mappings", "why_tests_cant": "All expressions, mappings and later calls.", "anchors": ["probayes/expression.py:Expression.set_order", "probayes/expression.py:Expression.set_delta"], "finding": "The attribute is assigned before it is checked; after the exception all calls use the rejected mapping."}
{"id": "C84", "title": "keywords given at the call override stored ones", "statement": "A function in an expression gets stored positional arguments followed by those of the call and all keywords, those of the call overriding the stored ones.", "quantifier": "all functions, stored and given arguments", "why_tests_cant": "All combinations of names.", "anchors": ["probayes/expression.py:Expression._call", "probayes/func.py:Func._call"], "finding": "Holds for Expression; in Func the stored keywords override the given ones."}
{"id": "C85", "title": "a sole dictionary argument stands for keywords", "statement": "Calling an expression with a single dictionary is the same as calling it with the entries of the dictionary as keywords.", "quantifier": "all expressions of callables without stored positional arguments, all dictionaries and keywords", "why_tests_cant": "All dictionaries.", "anchors": ["probayes/expression.py:Expression._call"]}
{"id": "C86", "title": "no argument is dropped silently", "statement": "Every keyword given to an unmapped expression reaches the function or the call raises.", "quantifier": "all functions and keywords", "why_tests_cant": "All keyword sets.", "anchors": ["probayes/expression.py:Expression._call"], "finding": "Lambdas without parameters are called without the keywords."}
{"id": "C87", "title": "indexed functions are independent of history", "statement": "func[i] denotes the i-th function, whatever else is indexed or called between obtaining and calling it.", "quantifier": "all tuples of functions and all histories of indexing and calling", "why_tests_cant": "Histories are unbounded.", "anchors": ["probayes/func.py:Func.__getitem__", "probayes/func.py:Func._call"], "finding": "The index is kept in the object: a held handle calls the function indexed last, and raises when called twice."}
{"id": "C88", "title": "functions with a delta mapping in a functional", "statement": "A function given with a delta mapping can be added to a functional, and a rejected attempt does not prevent later functions from being added.", "quantifier": "all functionals, specifications, functions and later histories", "why_tests_cant": "All histories of calls.", "anchors": ["probayes/functional.py:Functional.add_func", "probayes/functional.py:Functional._set_partials", "probayes/expression.py:Expression.set_order"], "finding": "The code violates both: no function with a delta mapping is ever accepted, and such an attempt naming all inputs, or any attempt with a non-symbolic function without naming inputs, makes every later add_func of every history raise."}
{"id": "C89", "title": "calls of a function of a functional", "statement": "functional[out](**values) calls the function registered for out with exactly those values it depends on, plus values that are not inputs of the functional at all; inputs it does not depend on may be left out.", "quantifier": "all functionals reached by any history, all functions without an order, all arguments", "why_tests_cant": "All inputs and histories.", "anchors": ["probayes/functional.py:Functional.__getitem__", "probayes/functional.py:Functional._set_partials", "probayes/expression.py:Expression._partial_call"], "finding": "The first half holds; the second does not: leaving out an input that the function does not need makes the call raise."}
{"id": "C90", "title": "functions can be added to a dependence", "statement": "Dependence.add_func(spec, func) adds the function to the dependence's functional.", "quantifier": "all functionals, specifications, functions and histories of attempts", "why_tests_cant": "All histories of attempts.", "anchors": ["probayes/dependence.py:Dependence.add_func", "probayes/functional.py:Functional.__bool__"], "finding": "The code violates this: the guard 'assert self._func' is the truth value of the functional, which is false while it is empty, so add_func never succeeds."}
{"id": "C91", "title": "symbolic and ordinary functions are not mixed", "statement": "A functional never accepts a symbolic function and an ordinary one.", "quantifier": "all functionals and histories", "why_tests_cant": "All histories of calls.", "anchors": ["probayes/functional.py:Functional.add_func"]}
{"id": "C92", "title": "union of fields with &", "statement": "a & b of variables and fields is a field with the variables of a followed by those variables of b whose names are new; a name both have belongs to b's variable; & is associative and f & f has the variables of f.", "quantifier": "all variables and all fields that constructors and additions give", "why_tests_cant": "Ranges over all pairs and triples of fields of any size.", "anchors": ["probayes/ops.py:and_op", "probayes/field.py:Field.__and__"], "finding": "False when one operand has random variables and the other plain ones: the & of a random variable refuses plain operands (TypeError), and otherwise the union raises AttributeError unless every name comes from the random right operand."}
{"id": "C93", "title": "a dictionary of deltas sets the steps", "statement": "field.set_delta({name: delta, ...}) makes eval_delta() return the step of each variable as given in the dictionary.", "quantifier": "all fields, dictionaries and previous defaults", "why_tests_cant": "All dictionaries.", "anchors": ["probayes/field.py:Field.set_delta", "probayes/field.py:Field.eval_delta"], "finding": "False: the dictionary is converted to a Delta but the branch that passes it on tests the original argument, so the variables keep their old defaults and the dictionary is ignored."}
{"id": "C94", "title": "a number as delta of a field", "statement": "field.set_delta(x, {name: y, ...}, scale=s) gives each variable the step y if it is named, and otherwise x, multiplied by the variable's length if scaled.", "quantifier": "all fields, numbers, dictionaries and flags", "why_tests_cant": "Continuum of numbers and all numbers of variables.", "anchors": ["probayes/field.py:Field.set_delta", "probayes/field.py:Field.eval_delta"]}
{"id": "C95", "title": "names in field arguments are checked", "statement": "Arguments of a field must name variables of the field; anything else is rejected.", "quantifier": "all keys, shared ones included", "why_tests_cant": "All strings.", "anchors": ["probayes/field.py:Field.parse_args"], "finding": "False for shared keys 'a,b': only the last name is looked up."}
{"id": "C96", "title": "composition unites the graphs", "statement": "Composing dependences, in whatever order and architecture, gives a dependence whose variables and arcs are exactly those of its constituents.", "quantifier": "all lists of dependences built from variables, fields and dependences", "why_tests_cant": "All graphs, all nestings of compositions.", "anchors": ["probayes/dependence.py:Dependence.def_deps"]}
{"id": "C97", "title": "dependences of any number of fields or dependences", "statement": "A dependence can be built of any number of variables or fields, the last of which are the roots, and any dependences can be composed, without changing the arguments.", "quantifier": "all argument lists", "why_tests_cant": "Argument lists of all lengths and shapes.", "anchors": ["probayes/dependence.py:Dependence.def_deps"], "finding": "Three or more variables or fields always raise, after the variable list of the first field has been extended in place; a dependence without roots cannot be composed at all (AttributeError); dependences and fields cannot be mixed."}
{"id": "C98", "title": "conditioning with |", "statement": "x | y conditions x on y for variables, fields and dependences.", "quantifier": "all operands", "why_tests_cant": "All pairs of operands.", "anchors": ["probayes/ops.py:or_op", "probayes/dependence.py:Dependence.def_deps"], "finding": "| raises whenever either operand is a dependence; it works for variables and fields, if both are random or neither is."}
{"id": "C99", "title": "joining with &", "statement": "x & d adds x to the leafs of the dependence d, whichever side it is on.", "quantifier": "all variables, fields and dependences", "why_tests_cant": "All operands.", "anchors": ["probayes/ops.py:and_op", "probayes/rv.py:RV.__and__"], "finding": "True for a field on the left: f & (g|r) is (f&g)|r. With the dependence on the left it always raises; a variable on the left raises if d has roots, stems or several leafs, and otherwise v & d is v | u: the leaf of d becomes a root."}
{"id": "C100", "title": "removing primes from keys", "statement": "desuffix gives the same values in the same order with the prime removed from the keys that have one.", "quantifier": "all dictionaries", "why_tests_cant": "All dictionaries and key names.", "anchors": ["probayes/sd_utils.py:desuffix"], "finding": "A dictionary in which no key is primed always raises a TypeError instead of being returned."}
{"id": "C101", "title": "selecting primed keys", "statement": "get_suffixed gives exactly the entries with a primed key, under the unprimed name.", "quantifier": "all dictionaries with non-empty keys", "why_tests_cant": "All dictionaries.", "anchors": ["probayes/sd_utils.py:get_suffixed"]}
{"id": "C102", "title": "probability of composed dependences", "statement": "The probability of composed stochastic dependences is the product of the probabilities of their constituents.", "quantifier": "all architectures and values", "why_tests_cant": "All numbers of constituents, shapes and values.", "anchors": ["probayes/sd_utils.py:arch_prob", "probayes/sd.py:SD.set_prob"], "finding": "For a chain the probability is that of the first constituent alone: all others are evaluated and dropped."}
{"id": "C103", "title": "conditional sampling takes exactly one variable to sample", "statement": "interp of a conditional covariance object raises ValueError if two arguments ask for samples and AssertionError if none does.", "quantifier": "all numbers of variables, all argument lists of that length", "why_tests_cant": "Every position of the arguments, every number of variables.", "anchors": ["probayes/cond_cov.py:CondCov.interp"]}
{"id": "C104", "title": "omitting dims does not change expectations", "statement": "A distribution constructed with dims omitted, which then get the axes 0, 1, ... in key order, gives the same expectations as one constructed with these axes given explicitly.", "quantifier": "all values and probabilities with two or more column variables", "why_tests_cant": "All shapes: rectangular tables raise an error, only square ones go wrong silently.", "anchors": ["probayes/distribution.py:Distribution.dims", "probayes/pd.py:PD.expectation"], "finding": "With dims omitted a column before the last keeps fewer axes than the distribution, so that it is multiplied along the wrong axis: square tables give a wrong mean."}
{"id": "C105", "title": "remarginalise keeps the conditional variables", "statement": "p.remarginalise(distribution, values) leaves the conditional variables of p as they are: they are conditional in the result too.", "quantifier": "all distributions with conditionals, all target grids and values", "why_tests_cant": "The claim is about every pair of names and every grid.", "anchors": ["probayes/pd.py:PD.remarginalise", "probayes/pd_utils.py:str_margcond"], "finding": "False: pd.py 680 appends the conditional part of the name without the '|' separator, so in whatever is returned nothing is conditional: the first conditional variable vanishes from the name, the others become marginal."}
{"id": "C106", "title": "slicing can keep the axis", "statement": "Calling a distribution with keepdims=True, or with a value that occurs several times in its column, keeps that variable as a column of the matching entries, with the probabilities of exactly those entries.", "quantifier": "all distributions, all columns and axes, all values occurring in the column", "why_tests_cant": "All shapes, axes and multiplicities.", "anchors": ["probayes/pd.py:PD.__call__"], "finding": "False of the code for every axis but the first: the column is indexed along axis 0 of its reshaped array, so the call always raises (IndexError, or an AssertionError about shapes)."}
{"id": "C107", "title": "slicing at a value a scalar variable does not have", "statement": "Calling a distribution with a value for a scalar variable that differs from the one it holds does not return the probabilities for the value it holds.", "quantifier": "all distributions, all scalar variables and values", "why_tests_cant": "Every value and distribution.", "anchors": ["probayes/pd.py:PD.__call__"], "finding": "False of the code: values given for scalar variables are ignored, so p(x|w=5) called with w=6 returns p(x|w=5)."}
{"id": "C108", "title": "the form of a variable's set decides its meaning", "statement": "A float variable given a tuple of two numbers is the open interval between them; a discrete variable given a list holds these values in that order, given a set in ascending order, converted to its type (int: fraction dropped, bool: non-zero).", "quantifier": "all names, all numbers, all lists and sets of values", "why_tests_cant": "Quantifies over all values and orders.", "anchors": ["probayes/variable.py:Variable.vset", "probayes/variable.py:Variable._eval_vlims"]}
{"id": "C109", "title": "perturbed values have the type of the variable", "statement": "Perturbing values of a variable's type by any accepted perturbation, bounded or not, gives values of that type; an int variable moved by a float drops the fraction of the sum.", "quantifier": "all variables, values, perturbations, bounds, transformations and random draws", "why_tests_cant": "All perturbations and values.", "anchors": ["probayes/variable.py:Variable.apply_delta", "probayes/vtypes.py:revtype"]}
{"id": "C110", "title": "which samples a summation counts", "statement": "Summing the samples of a process counts each sample whose update is not False exactly once and in order, rejected Metropolis and Hastings proposals included (as the state that is kept); samples whose update is False are left out.", "quantifier": "all lists of samples", "why_tests_cant": "All lists of samples and verdicts.", "anchors": ["probayes/sp.py:SP.__call__", "probayes/sp_utils.py:metropolis_update"]}
{"id": "C111", "title": "saving to and loading from a file gives the distributions back", "statement": "For distributions with storable values of which no two have the same marginal and conditional variables, read_dist(path) after write_dist(path, *ps) gives every one of them with the same variables, roles, values, axes, probabilities and scale; they come sorted by short name and not in the order given, and the variables of each in the order of its dims.", "quantifier": "all finite lists of well-formed distributions whose values are numbers, arrays or counts, whatever their shapes, scales and axis orders", "why_tests_cant": "Lists of any length and distributions of any shape; the order of what is read depends on names, which a test with names in alphabetical order hides.", "anchors": ["probayes/pd_utils.py:write_dist", "probayes/pd_utils.py:read_dist", "probayes/pd_utils.py:write_serialised", "probayes/pd_utils.py:read_serialised"]}
{"id": "C112", "title": "a variable may be called order", "statement": "A distribution with a variable called 'order' that can be written to a file can be read back.", "quantifier": "all well-formed distributions with such a variable", "why_tests_cant": "Depends on one name clashing with an attribute the file format uses.", "anchors": ["probayes/pd_utils.py:write_serialised", "probayes/pd_utils.py:read_serialised"], "finding": "the attribute order overwrites the axis of the variable; read_serialised raises KeyError"}
{"id": "C113", "title": "every distribution in a file is read back", "statement": "read_dist returns as many distributions as write_dist wrote.", "quantifier": "all lists of well-formed distributions with distinct variables", "why_tests_cant": "Depends on every variable name.", "anchors": ["probayes/pd_utils.py:read_serialised"], "finding": "groups whose name contains a space are taken for auxiliary data: a distribution with a space in a variable name is silently missing"}
{"id": "C114", "title": "quantiles are values of their variables", "statement": "quantile(q) returns for each scalar its value, for each sorted column a value within the column's range located by the cumulative probability, and a set with the number of values for other columns; for q >= 1 the last value.", "quantifier": "all well-formed distributions with non-negative probabilities, on any scale, of any shape, and all lists of positive q", "why_tests_cant": "Any table size, axis order and q; positions depend on sums over all cells.", "anchors": ["probayes/pd.py:PD.quantile", "probayes/pd_utils.py:ismonotonic"]}
{"id": "C115", "title": "quantiles grow with q", "statement": "For q <= q', the quantile of an ascending variable at q is at most that at q'.", "quantifier": "all distributions over sorted columns and all pairs of positive q", "why_tests_cant": "Must hold for every pair q <= q' and every table.", "anchors": ["probayes/pd.py:PD.quantile"], "finding": "where neighbouring probabilities differ by at least q or 1 - q the code averages the two values by probability whatever q: for values 0, 1 with probabilities 0.4, 0.6 quantile(0.1) is 0.6 and quantile(0.3) is 0"}
{"id": "C116", "title": "quantiles do not depend on normalisation", "statement": "Multiplying all probabilities by a positive constant changes no quantile.", "quantifier": "all distributions, constants and q", "why_tests_cant": "Must hold for all constants and tables.", "anchors": ["probayes/pd.py:PD.quantile"], "finding": "the difference of neighbouring probabilities compared with min(q, 1-q) is not normalised"}
{"id": "C117", "title": "the quantile of a constant is the constant", "statement": "For a column with a single value every quantile is that value.", "quantifier": "all distributions with such a column and all positive q", "why_tests_cant": "Must hold wherever the column lies and whatever the others are.", "anchors": ["probayes/pd.py:PD.quantile", "probayes/pd_utils.py:ismonotonic"], "finding": "ismonotonic is False for a single value, so quantile gives {1}"}
{"id": "C118", "title": "A field of variables without a probability of its own treats them as independent", "statement": "Let a random field be made from random variables, with no probability set on the field. Calling it with a value (number, array, None or {n}) for every variable returns a distribution with one axis per array-valued variable, all variables marginal, the same values as each variable called alone, and at every position the product of the probabilities the variables' own distributions give.", "quantifier": "all non-empty lists of random variables (any discrete or continuous set, scalar, Bernoulli or functional probability, mixed scales), all requests, all random draws, all positions", "why_tests_cant": "A product over arbitrarily many variables, with axes and scales mixed in any way; tests check two variables at a few points.", "anchors": ["probayes/rf.py: RF.__call__, RF.eval_prob, RF._refresh", "probayes/rf_utils.py: rv_prod_rule", "probayes/field.py: Field.evaluate, Field.eval_dist_name"]}
{"id": "C119", "title": "Proposing from a field renames the variables and changes nothing else", "statement": "Without a proposal set on the field, propose(values, suffix=s) returns what calling the field returns, with every variable's name followed by s.", "quantifier": "all fields of independent variables, requests and suffixes that do not turn one variable's name into another's", "why_tests_cant": "Ranges over every list of names and every suffix; a rename that loses or merges a key only shows for particular names.", "anchors": ["probayes/rf.py: RF.propose"]}
{"id": "C120", "title": "The default transition from one set of numbers to another has the probability of the independent successors", "statement": "Without a transition function the variables of a field are independent, so that step(pred, succ) returns the conditional distribution p(succ'|pred) whose probability is that of succ.", "quantifier": "all fields of independent variables and all pairs of numbers", "why_tests_cant": "A test with equal predecessor and successor, or uniform variables in scale 1, passes although the claim is false everywhere else.", "anchors": ["probayes/rf.py: RF.step, RF.eval_tran", "probayes/rf_utils.py: rv_prod_rule"], "finding": "rv_prod_rule returns the geometric mean of the probabilities of predecessor and successor (and does not rescale the second factor), so that the default transition depends on the predecessor, is not normalised over successors, and equals P(succ) only if P(pred) = c P(succ), c being the product of the variables' scales."}
{"id": "C121", "title": "Reversing a transition exchanges given and told variables; for the default transition it is the step back", "statement": "reval_tran of a distribution p(x'|x) returns the distribution over the same values with marginal and conditional variables exchanged and the same probability everywhere. For the default transition between numbers this is the probability of the step in the opposite direction, and steps in both directions have the same probability.", "quantifier": "all well-formed distributions; all fields of independent variables and pairs of numbers", "why_tests_cant": "Symmetry must hold for every pair of states for a sampler to be right; tests visit a few.", "anchors": ["probayes/rf.py: RF.reval_tran, RF.step"]}
{"id": "C122", "title": "Calling a distribution with 'marg' or 'cond' returns that side", "statement": "p('marg') returns exactly the marginal variables of a probability distribution with their values, and p('cond') exactly the conditional ones: a flat array for a variable on an axis, its value for any other.", "quantifier": "every probability distribution with any number of variables, axes and sizes, and either side", "why_tests_cant": "The returned dictionary is built by a scan over all variables that merges the ones sharing an axis; tests look at a few distributions with conditionals and never at one without.", "anchors": ["probayes/pd.py: PD.__call__", "probayes/distribution.py: Distribution.lookup"], "finding": "With no conditional variables p('cond') returns all the variables instead of none, because an empty set of keys is replaced by every key."}
{"id": "C123", "title": "Looking up variables groups columns by axis and keeps values", "statement": "lookup(keys) returns each variable asked for once: columns lying on one axis together, as a tuple under their joined names in order, anything else by itself. With as_dist=True it returns the distribution of those variables with values and axes unchanged.", "quantifier": "every distribution, every non-empty set of keys, every assignment of axes including shared ones", "why_tests_cant": "Which keys are merged depends on the axes of all later keys; tests use two or three variables on separate axes.", "anchors": ["probayes/distribution.py: Distribution.lookup"], "finding": "as_dist=True raises unless the columns asked for occupy the first axes without a gap, because the original axis numbers are kept."}
{"id": "C124", "title": "A dependence with a probability function returns the conditional distribution of its leafs given its roots", "statement": "Calling SD(leafs, roots) after set_prob(f), with values for the variables and no iid, returns a distribution named p(leafs|roots) whose variables hold the values asked for and whose probability at every position is f of the values at that position, on the scale given to set_prob.", "quantifier": "all lists of leafs and roots with distinct names, all requests (None, a number of samples, a number, an array) in any mixture, all functions that work element by element, all scales", "why_tests_cant": "Axes are assigned by position among the arrays and the name is built from the request: the combinations of which variables are arrays and in which order cannot be enumerated.", "anchors": ["probayes/sd.py: SD.set_prob, SD.__call__", "probayes/rf.py: RF.__call__, RF.eval_prob, RF._eval_iid", "probayes/dependence.py: Dependence.eval_dist_name"]}
{"id": "C125", "title": "joint=True multiplies the conditional distribution by the roots' own probabilities", "statement": "Calling SD(leafs, roots) with joint=True returns the joint distribution of roots and leafs: at every position the conditional probability times the product of the roots' own probabilities of the values found for them, and with iid the same with the conditional probability of all values of the iid leafs together.", "quantifier": "all leafs and roots, requests, element-wise functions, iid keys among the leafs, and scales that products support", "why_tests_cant": "The roots are called again with values read back from a distribution and multiplied with it, so values, axes, spelling of names and scales must survive a round trip for every shape of request.", "anchors": ["probayes/sd.py: SD.__call__", "probayes/pd.py: PD.__call__", "probayes/pd_utils.py: product"], "finding": "If a root is requested as None (all of its values) the conditional call works but the joint call always raises: the second call spells the column x=[] and the first x, and product() compares the spellings."}
{"id": "C126", "title": "Without a probability function a dependence returns the distribution of its leafs", "statement": "A dependence SD(leafs, roots) without a probability function of its own returns, under the name p(leafs|roots), the probabilities of its leafs (which do not depend on the roots), and with joint=True the product of the probabilities of leafs and roots.", "quantifier": "all leafs, roots, requests and scales", "why_tests_cant": "Tests see individual numbers; that the result is never normalised over the leafs unless the roots are certain needs an argument over all probabilities.", "anchors": ["probayes/sd.py: SD.__call__", "probayes/rf.py: RF.eval_prob"], "finding": "The roots' probabilities are multiplied into the conditional distribution, and twice into the joint one."}
{"id": "C127", "title": "iid with a function that already multiplies over its variables", "statement": "If the probability function of a dependence has already multiplied over the variables named by iid (so it returns fewer axes than there are arrays), the call returns its probabilities with the number of values recorded for each of those variables.", "quantifier": "all leafs, roots, requests, functions and iid keys", "why_tests_cant": "The branch depends on the number of axes returned compared to the number of arrays, over all orders of variables.", "anchors": ["probayes/rf.py: RF._eval_iid"], "finding": "The axes of the remaining arrays are not renumbered and the numbers of values are read off the first axis: the call raises whenever an array follows an iid variable (as arrays of the roots do), and of several iid arrays all but the first are recorded as {1}."}
{"id": "C128", "title": "set_prob replaces the probability of a composed dependence", "statement": "After set_prob(f, pscale=s) on a dependence composed of others in series or parallel, calls use f and the scale s.", "quantifier": "all composed dependences, functions and scales", "why_tests_cant": "That a later assignment always wins over an earlier one is a statement about all arguments.", "anchors": ["probayes/sd.py: SD.set_prob", "probayes/rf.py: RF.set_prob"], "finding": "RF.set_prob always returns None, so SD.set_prob reinstalls the composed probability right after setting f; with linear variables the object is left exactly as it was."}
{"id": "C129", "title": "A product does not depend on how a column is written in the names of its factors", "statement": "Multiplying distributions that hold the same column x, one with x as marginal and another with x as conditional variable, works whether the names write x or x=[].", "quantifier": "all lists of factors and all spellings", "why_tests_cant": "Spellings are strings chosen by whoever made the factor; the check compares them inside a loop over all factors.", "anchors": ["probayes/pd_utils.py: product"], "finding": "If the two spellings differ the product always raises."}
{"id": "C130", "title": "A scale passed with the probability function is used", "statement": "set_prob(f, pscale=s) makes s the scale of the dependence, whatever form s has, in particular the value 0j that a variable with logarithmic scale returns as its pscale.", "quantifier": "all leafs and roots, functions, and the scales 0j and 0.", "why_tests_cant": "Whether a scale is dropped depends on its truth value in Python, so it concerns a value among all scales.", "anchors": ["probayes/prob.py: Prob.set_prob", "probayes/rf.py: RF.set_prob"], "finding": "`pscale or self._pscale` drops 0j and 0.: the scale stays what it was."}
{"id": "C131", "title": "Putting a distribution on another scale keeps its probabilities", "statement": "p.rescaled(s) returns a distribution on the scale s with the variables, values, roles and axes of p, in which every combination of values is as probable as in p; rescaling it back to the scale of p returns the numbers p holds.", "quantifier": "all distributions, columns sharing axes included, all pairs of scales, all probabilities in range of the number format", "why_tests_cant": "All distributions and all pairs of scales (linear, logarithmic, with offsets).", "anchors": ["probayes/pd.py:PD.rescaled", "probayes/pscales.py:rescale"]}
{"id": "C132", "title": "A Metropolis sampler is the Metropolis chain of the process's density", "statement": "For a process of real variables with a density, a transition function, a function drawing the moves and set_scores('metropolis'), the samples of each sampler are those of the textbook chain: from the given values add the numbers drawn, accept the move if the uniform threshold is at most min(1, p(new)/p(old)), otherwise repeat the old sample; each sample is the distribution of the variables at the current values with its density. The chain is in detailed balance with the density for symmetric proposals. The first move is always made.", "quantifier": "all fields of real variables, densities on a linear or plain log scale, transition functions, drawn moves and thresholds, numbers of steps and interleavings with other samplers of the same process", "why_tests_cant": "A chain is an unbounded history: the claim is an invariant over every sequence of draws, every density and every interleaving of samplers.", "anchors": ["probayes/sp.py:SP.sampler", "probayes/sd.py:SD._sample_tran", "probayes/rf.py:RF.step", "probayes/field.py:Field.apply_delta", "probayes/sp_utils.py:metropolis_scores"]}
{"id": "C133", "title": "Hastings sampling with a pair of transition functions targets the density", "statement": "After set_tran((q, r)) and set_scores('hastings') the chain accepts with min(1, p(y)q(x|y)/(p(x)q(y|x))) and is in detailed balance with the density p, also if the proposals are not symmetric.", "quantifier": "all fields of real variables, densities, pairs of transition functions, drawn moves and thresholds, histories", "why_tests_cant": "Detailed balance is a statement about all pairs of states, and the samples about all histories.", "anchors": ["probayes/sd.py:SD._sample_tran", "probayes/rf.py:RF.reval_tran", "probayes/sp_utils.py:hastings_scores"], "finding": "reval_tran only exchanges the roles of the variables: r is never called, the reverse proposal holds the density of the forward one, and both cancel. The chain is the Metropolis chain and is in detailed balance exactly where q is symmetric."}
{"id": "C134", "title": "Bounded chains never leave the limits of their variables", "statement": "If the deltas are bounded (bound=True) and the start is within the variables' intervals, every sample of every sampler is within them: moves beyond a closed limit end at the limit, moves beyond an open one are not made.", "quantifier": "all fields of interval variables, closed or open, all densities, drawn moves and thresholds, histories", "why_tests_cant": "An invariant over all histories of draws.", "anchors": ["probayes/field.py:Field.apply_delta", "probayes/variable.py:Variable.apply_delta", "probayes/sp.py:SP.sampler"]}
{"id": "C135", "title": "A uniform delta moves every variable of a field", "statement": "After set_delta([p]) on a field a step moves every variable: a real one by a number drawn from -p to p, a bool to the other value with probability p.", "quantifier": "all fields of real and bool variables, 0 <= p < 1, values and random numbers", "why_tests_cant": "That a value never changes is a claim about all random draws.", "anchors": ["probayes/field.py:Field.set_delta", "probayes/field.py:Field.eval_delta", "probayes/variable.py:Variable.eval_delta", "probayes/variable.py:Variable.apply_delta"], "finding": "eval_delta unwraps the list for bools, so that apply_delta sees the number p, truncates it to 0 and leaves the value: bools in a field never change, whatever is drawn."}
{"id": "C136", "title": "With one transition function Hastings scores are Metropolis scores", "statement": "With set_tran(q), q taken to be symmetric, set_scores('hastings') samples the same chain as set_scores('metropolis').", "quantifier": "all fields of real variables, densities and transition functions on a linear or plain log scale, drawn moves and thresholds, histories", "why_tests_cant": "All densities, transition functions and histories.", "anchors": ["probayes/sp_utils.py:hastings_scores", "probayes/sd.py:SD._sample_tran"], "finding": "Moves to which q gives no density (or a negative one) are always made, whatever the density at their target."}
{"id": "C137", "title": "A field of one variable steps with the variable's own transition", "statement": "If a random field consists of a single variable that was given a transition (a function, a pair of functions for the two directions, or a transition matrix), then stepping the field from one given value to another returns the conditional distribution of the primed variable given the variable, and its probability is the one the variable's own transition assigns to the step from the predecessor to the successor: the function of the pair in that order, the second function when reverse is asked for, or the matrix entry in the row of the successor and the column of the predecessor, values counted in increasing order.", "quantifier": "every variable with a functional or matrix transition, every pair of values, both directions, every scale of the variable", "why_tests_cant": "a test tries a few values and usually a symmetric transition, for which the order of the pair and the direction cannot be told apart", "anchors": ["probayes/rf.py: RF.eval_tran, RF.step", "probayes/rv.py: RV.eval_tran", "probayes/rv_utils.py: lookup_square_matrix"]}
{"id": "C138", "title": "A Gibbs sampler draws its variables in order, each from the current values of the others", "statement": "If a process of real variables is given a function that draws one variable given the values of all (set_tfun), a number of variables tsteps to draw per sample or none (then all), and the scores named gibbs, then every sampler of the process yields, whatever other samplers do in between, a chain that starts at the given values: for each sample the variables of a block are drawn in order, each given the values the variables have at that moment (those drawn before it in the block being the new ones), variables outside the block keep their values, no proposal is rejected, and the probability reported is that of the values reached.", "quantifier": "every list of printable real variables, every probability function on them, every drawing function, every tsteps not negative, every interleaving of steps of any number of samplers, every stream of random numbers", "why_tests_cant": "a Gibbs sampler that draws every variable from the values of the previous sample, or keeps the wrong variables, is as random as the right one; only a universal statement about all random streams distinguishes them", "anchors": ["probayes/rf.py: RF.set_tfun, RF.eval_tfun, RF.step", "probayes/sd.py: SD.sample", "probayes/sp.py: SP.set_scores, SP.next", "probayes/sp_utils.py: gibbs_scores, gibbs_thresh, gibbs_update"]}
{"id": "C139", "title": "With tsteps every variable of a Gibbs sampler is drawn once per cycle", "statement": "If tsteps=t is given with the drawing function of a process of n variables, then the samples of each sampler draw blocks of t consecutive variables cyclically: in any ceil(n/t) consecutive samples of a sampler each variable is drawn exactly once.", "quantifier": "every process, t and number of samples; for the refutation: every number of rounds", "why_tests_cant": "the schedule depends on the interleaving of samplers, which tests do not vary", "anchors": ["probayes/rf.py: RF.eval_tfun, RF.set_tfun", "probayes/sp.py: SP.next"], "finding": "The position in the cycle is stored in the process and shared by all its samplers. It holds for a process with one sampler; but with ceil(n/t) samplers stepped in turn (the way SP.walk-like loops use several samplers), every sampler draws the same block for ever and its other variables never leave their starting values."}
{"id": "C140", "title": "A scipy multivariate normal as drawing function draws from its conditional distributions", "statement": "If the drawing function is a scipy multivariate normal object, then drawing variable number i (values in the order of the object's dimensions) returns m + s q, where m and s are the mean and the standard deviation of coordinate i given the other coordinates under that normal distribution and q is the normal quantile of a level drawn uniformly between two limits.", "quantifier": "every dimension, mean, positive definite covariance, limits, values of the others and random number", "why_tests_cant": "tests compare sample moments up to noise for one covariance", "anchors": ["probayes/rf_utils.py: sample_cond_cov", "probayes/rf.py: RF.set_tfun", "probayes/cond_cov.py: CondCov.interp"]}
{"id": "C141", "title": "Values drawn do not depend on the order in which the variables are named", "statement": "Stepping a field by a drawing function from the same values with the same random numbers gives the same new values in whichever order the dictionary of values names the variables.", "quantifier": "every order of the names, every drawing function, all values", "why_tests_cant": "tests always use the order of the field", "anchors": ["probayes/rf.py: RF.eval_tfun, RF.step", "probayes/rf_utils.py: sample_cond_cov"], "finding": "The values go to the drawing function by position in the caller's dictionary, while a scipy object conditions by position in the field: with y named before x the value of y is taken for that of x, and the new value of y is drawn from the distribution of x."}
{"id": "C142", "title": "A negative number of variables per sample is rejected", "statement": "set_tfun rejects negative tsteps, or treats it as some number of variables to draw per sample.", "quantifier": "every process and every negative tsteps", "why_tests_cant": "a test of a bad argument tries one value and one sample", "anchors": ["probayes/rf.py: RF.set_tfun, RF.eval_tfun"], "finding": "Negative tsteps is accepted: the first sample of the first sampler draws all but the last variables (Python slice with a negative end), and after that no sample of any sampler draws anything: the chain stands still without an error."}
{"id": "C143", "title": "A step in reverse draws by the second function of a pair", "statement": "set_tfun accepts a pair of functions, and step(reverse=True) draws by the second of them.", "quantifier": "every pair of functions, every field, every values", "why_tests_cant": "with random draws the two functions are hard to tell apart", "anchors": ["probayes/rf.py: RF.set_tfun, RF.eval_tfun, RF.step"], "finding": "RF.step calls eval_tfun without passing reverse on: the first function of a CF made of the pair is used in both directions. A tuple of functions, as documented, is refused by an assertion that it be an array."}
{"id": "C144", "title": "Metropolis and Hastings scores account for the density of the function that proposes", "statement": "If the values are proposed by a drawing function and the scores are named metropolis or hastings, the chain is in detailed balance with the density of the process (for hastings: whatever the density of the draws).", "quantifier": "every process, drawing function and pair of states", "why_tests_cant": "detailed balance is a statement about all pairs of states; tests see one trajectory", "anchors": ["probayes/rf.py: RF.eval_tfun, RF.step", "probayes/sp_utils.py: metropolis_scores, hastings_scores", "probayes/sd.py: SD.sample"], "finding": "Without a transition probability the step made by a drawing function carries the constant probability 1, so the acceptance rule ignores the density of the draws and detailed balance holds only if that density is symmetric."}
{"id": "C145", "title": "A drawing function is refused on a process of one variable", "statement": "set_tfun on a process with a single variable raises an assertion error for any function, pair or number of steps.", "quantifier": "every variable, every function and argument", "why_tests_cant": "the refusal has to hold for all kinds of arguments", "anchors": ["probayes/rf.py: RF.set_tfun"]}
{"id": "C146", "title": "Samplers whose delta is a number, a list or a tuple follow the Metropolis chain of those moves", "statement": "After set_delta of a number, a list or a tuple, scaled by the lengths of the variables or not, the samples of a process with a transition function and metropolis scores are those of the Metropolis chain for its density whose proposals move by that number, by independent uniform draws within plus or minus it, or to a point on the sphere of that radius.", "quantifier": "every process over real variables, delta, scaling, transition function, number of samples and stream of random numbers", "why_tests_cant": "the law of the chain is a statement about all histories and random streams", "anchors": ["probayes/field.py: Field.set_delta, Field.eval_delta, Field.apply_delta", "probayes/sd.py: SD.sample, SD._sample_tran", "probayes/rf.py: RF.step"]}
{"id": "C147", "title": "Variables left out of a call get the documented default", "statement": "When a call gives values for some of the variables, values given under single names are used unchanged, and variables left out are sampled once ({0}) if a variable of the field is a float and no {0} was given, and otherwise stay unassigned.", "quantifier": "every field, every set of keyword values and every variable left out", "why_tests_cant": "the default depends on all variables and all the other values given", "anchors": ["probayes/field.py: Field.parse_args"]}
{"id": "C148", "title": "Proposals with a proposal function", "statement": "After set_prop(function), propose(values) on a stochastic dependence (leafs given roots) returns a distribution over all its variables under their names with the requested suffix, none of them conditional; each variable holds the values asked for, and the probability at each position is the function's value at the variables' values there, on the process's scale.", "quantifier": "all leafs and roots with distinct simple names, all requests (numbers, draws, arrays) for any of them, all elementwise proposal functions, all suffixes that keep names apart", "why_tests_cant": "Tests check a few calls with fixed shapes; the claim is about every set of variables, every mix of numbers and arrays and every function.", "anchors": ["probayes/rf.py:RF.propose", "probayes/rf.py:RF.set_prop", "probayes/sd.py:SD.set_prop", "probayes/dependence.py:Dependence.eval_dist_name"]}
{"id": "C149", "title": "Rejection sampling", "statement": "A sampler of a process with a proposal function, scores of (p, q) and an update s >= t yields at each step a point drawn uniformly between the limits of the variables with its probability (under the variables' names) and its proposal (under primed names), the score of the two, the threshold drawn, and an update that is True exactly if the score reaches the threshold.", "quantifier": "all processes over interval variables, all probability, proposal and score functions, all histories of samplers created and stepped in any order (no reset), all random draws", "why_tests_cant": "A random process cannot be exhausted by examples; samplers interleave arbitrarily.", "anchors": ["probayes/sp.py:SP.next", "probayes/sd.py:SD._sample_prop", "probayes/rf.py:RF.propose", "probayes/sp_utils.py:sample_generator"]}
{"id": "C150", "title": "Numbers given to a sampler are kept", "statement": "If a sampler is created with numbers for some of the variables, then all its samples have those numbers.", "quantifier": "all processes with a proposal function and no delta, all samplers", "why_tests_cant": "needs all histories and draws", "anchors": ["probayes/sp.py:SP.next", "probayes/sd.py:SD._sample_prop"], "finding": "Only the first sample has the numbers; the sampler then starts from {0} for every variable (sp.py next passes {0}), so that a number outside the limits of its variable never recurs."}
{"id": "C151", "title": "Samples are drawn from the proposal", "statement": "The values of the samples of a process with a proposal function follow the proposal distribution.", "quantifier": "all processes with a proposal function", "why_tests_cant": "a statement about the source of randomness, not about outputs of particular runs", "anchors": ["probayes/rf.py:RF.propose", "probayes/sd.py:SD._sample_prop"], "finding": "The values are drawn uniformly between the limits; the proposal function is only evaluated at them."}
{"id": "C152", "title": "A delta moves a sampler with a proposal", "statement": "After set_prop and set_delta, each sample of a sampler lies a delta away from the one before.", "quantifier": "all processes with a proposal function and a delta", "why_tests_cant": "needs all steps and draws", "anchors": ["probayes/sp.py:SP.next", "probayes/sd.py:SD._sample_prop"], "finding": "propose is called with the values of the last sample and never applies the delta: all samples are at the point of the first."}
{"id": "C153", "title": "Samplers may leave out the suffix", "statement": "A sampler may be created with suffix=False, in which case its proposals are under the variables' own names.", "quantifier": "all processes with a proposal function, with or without a delta", "why_tests_cant": "must fail for every process, not one", "anchors": ["probayes/sd.py:SD._sample_prop", "probayes/sd_utils.py:desuffix"], "finding": "desuffix cannot be applied to names without a suffix: TypeError at the first step of every such sampler."}
{"id": "C154", "title": "Summaries hold the accepted samples", "statement": "process(samples) returns distributions with one axis whose j-th position is the j-th accepted sample: values and probability (p and v), proposal (q), with the lists of scores and thresholds, in order; rejected samples leave no trace; if none is accepted all fields are None.", "quantifier": "all lists of samples of a process with a proposal function and update s >= t, of any length, with any mix of accepted and rejected", "why_tests_cant": "lists of any length and any pattern of rejections", "anchors": ["probayes/sp.py:SP.__call__", "probayes/pd_utils.py:summate"]}
{"id": "C155", "title": "A step of a random variable is the transition's conditional distribution of the primed variable given the variable", "statement": "For every random variable, every request for predecessors and every given successors, v.step(pred, succ) is a distribution named \"x'|x\" whose axes are the successors and then the predecessors (scalars take no axis), which keeps the scale and the values given, and whose number at each pair is the transition's: the function of (predecessor, successor), the matrix entry in the successor's row and the predecessor's column (values in increasing order), the backward one of two if reverse is requested, the uniform number inside the set and nought outside, and one without a transition.", "quantifier": "all random variables, kinds of transition, requests for predecessors, lists of successors, scalars or arrays, directions", "why_tests_cant": "A test checks one matrix or function and one shape; the axes, names and matrix positions must agree for every pair of values and every combination of scalars and arrays.", "anchors": ["probayes/rv.py: RV.step, RV.eval_step, RV.eval_tran, RV.eval_dist_name", "probayes/rv_utils.py: uniform_prob, lookup_square_matrix"]}
{"id": "C156", "title": "Steps of log-scaled variables hold log probabilities", "statement": "For every random variable on a log scale, the numbers of v.step(pred, succ) are logs of probabilities, at most one each.", "quantifier": "all log-scaled variables, predecessors and successors", "why_tests_cant": "A test of one linear variable cannot show it for log scales.", "anchors": ["probayes/rv.py: RV.step, RV.eval_tran", "probayes/rv_utils.py: uniform_prob"], "finding": "Without a transition the step holds the raw number 1., i.e. the probability e; with the uniform transition pairs outside the set hold the raw number 0., i.e. the probability one."}
{"id": "C157", "title": "The default probability is nought over unbounded intervals, and setting it anew makes the transition uniform", "statement": "A variable over an interval with an infinite end has the default probability nought (its log: the code's minus infinity) at every value, inside or not; v.set_prob() of any variable over a finite set leaves name and set alone and makes the transition one over the length of the set.", "quantifier": "all variables, sets and scales, all values", "why_tests_cant": "Unbounded sets and repeated assignments are states no finite set of calls covers.", "anchors": ["probayes/rv.py: RV.set_prob, RV._default_prob", "probayes/variable.py: Variable.length"]}
{"id": "C158", "title": "Matrix transitions are accepted exactly if they are square of the size of the set", "statement": "v.set_tran(matrix) raises nothing exactly if the variable is discrete and the matrix has one row and one column for each value of its set; a variable keeps its previous transition if a new one is rejected, and both of two matrices are checked.", "quantifier": "all variables and matrices", "why_tests_cant": "It ranges over every shape of matrix and every set.", "anchors": ["probayes/rv.py: RV.set_tran"], "finding": "A rejected transition is assigned before it is checked and stays; the second matrix of a pair is not checked."}
{"id": "C159", "title": "The uniform probability of several arguments is theirs where all are inside the set", "statement": "uniform_prob of any number of arrays that broadcast is the given probability where all of them are inside the set; elsewhere it is nought, and on a log scale at most the larger of the given number and nought plus the code's minus infinity.", "quantifier": "all numbers of arguments, shapes, probabilities and scales", "why_tests_cant": "It ranges over any number of arguments and all shapes that broadcast.", "anchors": ["probayes/rv_utils.py: uniform_prob"]}
{"id": "C160", "title": "The density of a multivariate distribution is taken at the variables' values", "statement": "A field of variables whose probability is set to a multivariate distribution of scipy.stats returns, when called with values, the distribution's density (its logarithm on a log scale) at each position, at the point whose coordinates are the variables' values there in the order of the field's variables.", "quantifier": "all fields of two or three variables, leafs and roots, requests with at least one array of two values or more, distributions, scales and positions", "why_tests_cant": "the examples in the repository use densities whose exchange of coordinates is only visible in a plot; a test compares finitely many numbers", "anchors": ["probayes/prob.py:Prob.eval_prob", "probayes/rf.py:RF.eval_prob", "probayes/rf.py:RF.__call__", "examples/cov/cov2dpmf.py"], "finding": "False of the code: the first two coordinates are exchanged (vals[::-1] undoes the transposition of meshgrid for the shape but not for the coordinates), so that the mean [0.5, -0.5] given for (x, y) is that of (y, x)."}
{"id": "C161", "title": "The probability of a point does not depend on the order in which its coordinates are named", "statement": "If all variables are given numbers, the probability a field with a multivariate distribution returns is the density at the point with these coordinates, whatever the order of the names in the request.", "quantifier": "all fields of two variables and more, all requests with a number for every variable in any order, all distributions and scales", "why_tests_cant": "a test names the coordinates in the order its author thought of", "anchors": ["probayes/prob.py:Prob.eval_prob", "probayes/field.py:Field.evaluate"], "finding": "False of the code: the coordinates are taken in the order of the request, then flipped: f({'x': a, 'y': b}) is the density at (b, a) and f({'y': b, 'x': a}) that at (a, b)."}
{"id": "C162", "title": "Fields of any number of variables can have a multivariate distribution", "statement": "With arrays for all variables, the probability at each position is the density at the values there, however many variables the field has.", "quantifier": "all fields of two variables and more, all arrays of two values or more, all distributions", "why_tests_cant": "needs all numbers of variables and sizes of arrays; with equal sizes the wrong result has the right shape", "anchors": ["probayes/prob.py:Prob.eval_prob"], "finding": "False of the code from four variables on: the axes of the grid are the variables in another order, so that the call raises AssertionError unless the sizes happen to agree, in which case the probabilities belong to other positions."}
{"id": "C163", "title": "A multivariate distribution can be evaluated at arrays of one value, and in a field of one variable", "statement": "An array of a single value is treated like other arrays, and a field of one variable can have a multivariate distribution of one component.", "quantifier": "all fields, requests with an array of one value, and all fields of one variable with any request", "why_tests_cant": "the failing requests are those with an array of one value; the sizes range over all numbers", "anchors": ["probayes/prob.py:Prob.eval_prob", "probayes/pd.py:PD.prob"], "finding": "False of the code: scipy squeezes the axis away and the call raises AssertionError; a field of one variable only accepts numbers."}
{"id": "C164", "title": "A distribution returned by a field is valid whatever the probability function", "statement": "Whatever function was set as the probability of a field or dependence, a call either raises or returns a valid distribution: leafs before and roots behind the bar, each variable with the values asked for, and as probabilities what the function returned, which has the shape of the arrays asked for.", "quantifier": "all fields and dependences, probability functions (also ones that return nonsense), scales and requests", "why_tests_cant": "the functions are arbitrary: no test suite has them all", "anchors": ["probayes/rf.py:RF.__call__", "probayes/pd.py:PD.prob", "probayes/sd.py:SD"]}
{"id": "C165", "title": "A variable with a distribution reports its density", "statement": "A random variable whose probability is a univariate distribution, called with values or with a request for values, returns the distribution of that variable over exactly those values, and each value's probability stands for the density of the distribution there: on the linear scale and on logarithmic ones alike, times the constant of the scale.", "quantifier": "all distributions whose logarithms are the logarithms of their density, all variables, names, scales, values (one or many) and requests", "why_tests_cant": "the densities are arbitrary functions, the values and scales unbounded", "anchors": ["probayes/prob.py:Prob.set_prob", "probayes/prob.py:Prob.eval_prob", "probayes/rv.py:RV.__call__"], "finding": "On a linear scale c the density is not divided by c, so that the probabilities stand for c times the density."}
{"id": "C166", "title": "Changing the scale of a variable keeps what its probabilities stand for", "statement": "Assigning pscale on a random variable changes the numbers its calls report, not the probabilities they stand for, up to the constants of the scales.", "quantifier": "all variables with a distribution or a number as probability, all scales, values and requests", "why_tests_cant": "needs all distributions and scales", "anchors": ["probayes/prob.py:Prob.pscale", "probayes/rv.py:RV.eval_prob"], "finding": "True of variables with a distribution. A number, also the default one, is kept as it is: after the scale 1 is replaced by logs the probability x becomes e^x, above 1."}
{"id": "C167", "title": "Values of a variable with quantiles follow its distribution", "statement": "For a float variable with finite limits and a pair of cumulative distribution and inverse functions, the request {n} gives n values inside the set at equal steps of probability, and {0} and {-n} draw from the distribution restricted to the set.", "quantifier": "all continuous distributions, intervals open or closed at each end, n and random numbers", "why_tests_cant": "continuous distributions and all random numbers", "anchors": ["probayes/rv.py:RV.evaluate", "probayes/prob.py:Prob.set_pfun", "probayes/vtypes.py:uniform"]}
{"id": "C168", "title": "Variables with a distribution can be sampled", "statement": "A variable whose probability is a distribution that can be sampled gives n values for the requests {n} and {-n}, also if it is an int or bool variable or its limits are infinite (set_sfun: necessary if sampling variables within infinite limits).", "quantifier": "all variables with quantile functions, requests {n} and random numbers", "why_tests_cant": "must hold for every variable and distribution", "anchors": ["probayes/rv.py:RV.evaluate", "probayes/prob.py:Prob.set_sfun", "probayes/variable.py:Variable._eval_ulims"], "finding": "Int and bool variables with a distribution that has cdf and ppf, and float variables with an infinite limit, always raise AssertionError: isfinite is False for all that are not floats, and the sampling function is never called."}
{"id": "C169", "title": "A variable called without values is drawn from its distribution", "statement": "A float variable called without values returns one value drawn from its distribution (documented as the same as {0}).", "quantifier": "all float variables with finite limits, distributions and random numbers", "why_tests_cant": "a statement about distributions of draws, for all distributions", "anchors": ["probayes/rv.py:RV.evaluate", "probayes/variable.py:Variable.evaluate"], "finding": "It is drawn uniformly from the set whatever the distribution, unlike {0}."}
{"id": "C170", "title": "A new probability replaces the old one in sampling", "statement": "After set_prob with a probability that has no quantile functions, values requested with {n} no longer follow the distribution set before.", "quantifier": "all variables with quantile functions, new probabilities without, requests and random numbers", "why_tests_cant": "histories of calls, all distributions", "anchors": ["probayes/prob.py:Prob.set_prob", "probayes/rv.py:RV.evaluate"], "finding": "The quantile functions of the old distribution stay, and every request {n} gives what it gave before."}
{"id": "C171", "title": "A new probability replaces the bias of a bool variable", "statement": "After set_prob(b) and then set_prob(0.5), or a function, a bool variable is drawn with the new probability.", "quantifier": "all bool variables, biases b away from 0.5, scales, requests {0} and {-n} and random numbers", "why_tests_cant": "histories of calls, all random numbers", "anchors": ["probayes/rv.py:RV.set_prob", "probayes/rv.py:RV.evaluate"], "finding": "The sampling function of the old bias stays: True is still drawn with the probability b while 1/2 is reported."}
{"id": "C172", "title": "Arguments of symbolic calls are read by name, the last one winning", "statement": "Values passed to an expression as dictionaries (keyed by strings, variables or symbols) and keywords are merged into one dictionary: under each name stands the last value given, keywords after dictionaries; the call is refused if and only if some argument is not a dictionary or some key has no name.", "quantifier": "all remaps, lists of arguments with any keys, and keywords", "why_tests_cant": "the merge depends on arbitrary sequences of repeated, renamed and joined keys", "anchors": ["probayes/variable_utils.py: parse_as_str_dict"]}
{"id": "C173", "title": "A symbolic expression called by name has its value, whatever the order of names and symbols", "statement": "Calling an expression with a number for every symbol, by keywords or a dictionary, returns the value of the expression at those numbers, for every order of the keywords and of the symbols; a missing symbol raises KeyError.", "quantifier": "all expressions, orders of symbols and keywords, and values", "why_tests_cant": "the order of a set of symbols differs between runs of the interpreter, so no test sees all of them", "anchors": ["probayes/expr.py: Expr.__call__, collate_symbols"]}
{"id": "C174", "title": "Positional arguments of a symbolic expression", "statement": "Positional arguments are bound to the symbols of the expression in a fixed order.", "quantifier": "all expressions, orders of iteration over the symbols, and values", "why_tests_cant": "the order is that of a Python set, which depends on hash randomisation", "anchors": ["probayes/expr.py: Expr.__call__, collate_symbols"], "finding": "False of the code: the arguments follow the iteration order of expr.free_symbols, a set; in the other order the same call exchanges its two arguments."}
{"id": "C175", "title": "Symbolic expressions of arrays are computed elementwise", "statement": "When sympy can make a function for arrays, the result has the broadcast shape of the arguments, and at every place the value of the expression at the values of the arguments there; shapes that do not broadcast raise.", "quantifier": "all expressions, shapes and values, mixtures of numbers, booleans and arrays", "why_tests_cant": "all shapes and numbers of symbols", "anchors": ["probayes/expr.py: Expr.__call__, Expr.add_efun"]}
{"id": "C176", "title": "Symbolic expressions of arrays without a function for arrays", "statement": "When sympy cannot make a function for arrays, the values are nevertheless those of the expression at the values of the arguments at the same place.", "quantifier": "all expressions of two symbols and all arrays; one array among any number of symbols", "why_tests_cant": "the result depends on shapes, the order of keywords and the unspecified order of sorting", "anchors": ["probayes/expr.py: Expr.__call__, sort_ordered_dict"], "finding": "False of the code: a single array loses its shape; two arrays along increasing axes have their values exchanged between the two symbols, unless the keywords come in the other order, which transposes the result instead; two arrays along the same axis give the table of all pairs."}
{"id": "C177", "title": "Remapped and assumed symbols", "statement": "An expression made with a remap can be called by the new name, and symbols made with assumptions can be given values like any others.", "quantifier": "all expressions, remaps and values", "why_tests_cant": "all remaps and all kinds of symbols", "anchors": ["probayes/expr.py: Expr.__call__", "probayes/variable_utils.py: parse_as_str_dict"], "finding": "False of the code: the new name is only understood in a dictionary, as a keyword it raises KeyError; symbols with assumptions are not substituted, so that numbers give back an expression and arrays may raise TypeError."}
{"id": "C178", "title": "Sorting an ordered dictionary by an order with gaps", "statement": "Sorting keeps all entries, leaves those without an order in their places and puts the others in ascending (or descending) order into the remaining places; orders given as a list or by key agree; other lengths or keys are refused.", "quantifier": "all dictionaries, orders with any Nones and ties, and every sorting algorithm", "why_tests_cant": "all permutations with ties and gaps, for an unstable sort", "anchors": ["probayes/expr.py: sort_ordered_dict"]}
{"id": "C179", "title": "Tuples of symbolic expressions are indexed like tuples of functions", "statement": "The expressions of a tuple are found by their index, and the last one also at -1.", "quantifier": "all tuples of symbolic expressions and all indices", "why_tests_cant": "all lengths and indices", "anchors": ["probayes/expression.py: Expression._set_partials, Expression.__getitem__"], "finding": "False of the code: -1 raises KeyError for symbolic tuples, although it is the last one for tuples of functions (C82)."}
{"id": "C180", "title": "The inverse of an invertible expression", "statement": "An expression declared invertible has itself at 0 and its inverse at 1 and -1, namely the first of the solutions printed shortest.", "quantifier": "all expressions and all lists of solutions", "why_tests_cant": "all lists of solutions, with ties", "anchors": ["probayes/expression.py: Expression._set_partials, Expression.__getitem__"], "finding": "False of the code for several symbols: the expression is accepted and solved, but its inverse cannot be reached."}
{"id": "C181", "title": "The distribution inside a sympy expression is found", "statement": "The object with a cumulative distribution function is found whenever there is one anywhere within the arguments, the first argument holding one winning; otherwise ValueError is raised.", "quantifier": "all trees of sympy objects", "why_tests_cant": "trees of any depth", "anchors": ["probayes/sympy_prob.py: sympy_obj_from_dist"]}
{"id": "C182", "title": "Which mappings an expression accepts", "statement": "A mapping is accepted as order or delta if and only if its values are integers without gaps (starting anywhere), names and None.", "quantifier": "all mappings", "why_tests_cant": "all sets of integers", "anchors": ["probayes/expression.py: Expression.set_order, Expression.set_delta, Expression._check_mapping"]}
{"id": "C183", "title": "Scalar perturbations act in the transformed space", "statement": "Perturbing values x of a real variable by a nonzero number d without bounds returns inverse(f(x)+d) for a variable with the transformation f, and x+d without one; on a logarithmic scale every positive value is multiplied by exp(d).", "quantifier": "every real variable, transformation, list of values and nonzero d", "why_tests_cant": "Tests try a few values and transformations; the law must hold for every value and every transformation.", "anchors": ["probayes/variable.py: Variable.apply_delta"]}
{"id": "C184", "title": "Products of repetitions add their counts", "statement": "If distributions sharing marginals are multiplied and the product is accepted, each variable that is a count in all of them holds the total of the counts, and every other variable holds the value they all hold.", "quantifier": "every list of distributions over the same variables, every list of counts", "why_tests_cant": "Depends on the number of factors and the counts, which are unbounded.", "anchors": ["probayes/pd_utils.py: product"], "finding": "False for the other variables: their values are never compared ('no need to recheck (I think)'), and the product silently holds the first factor's values: p(x=4,n={2})*p(x=5,n={3}) gives p(x=4,n={5})."}
{"id": "C185", "title": "Which explicit conditionals are accepted", "statement": "CF(field, OrderedDict, func) with entries 'outputs': 'inputs' is accepted exactly if the field has at least two variables, all inputs are variables, the outputs together are the variables and, with more than one entry, no entry has a variable among both its inputs and its outputs; an empty dictionary is accepted too. What is accepted is kept unchanged.", "quantifier": "every field, list of entries of names free of commas, function, arguments and keywords that the function accepts", "why_tests_cant": "An exact acceptance condition over all dictionaries cannot be enumerated.", "anchors": ["probayes/cf.py: CF.set_inp, CF.__init__"]}
{"id": "C186", "title": "Outputs and inputs as lists of variables and fields", "statement": "The outputs and the inputs of a conditional function may be given as a tuple or list of variables and fields.", "quantifier": "every list of variables and fields, inputs and function", "why_tests_cant": "The failure has to be shown for every list that contains a field.", "anchors": ["probayes/cf.py: _to_rf, CF.set_out, CF.set_inp"], "finding": "False of the code. A list of variables is accepted as outputs, but any list that contains a field raises AttributeError because the attribute is read from the list rather than from the field. A tuple or list as inputs is turned into a dictionary that is then refused with TypeError for not being ordered, although the documentation allows tuples."}
{"id": "C187", "title": "Asking a conditional function by name", "statement": "cf['x'](...) tells the function that 'x' is unknown, in this call and in no other, whatever was called or asked before.", "quantifier": "every conditional function with explicit inputs, every history of operations, every call", "why_tests_cant": "Depends on unbounded histories of a hidden member.", "anchors": ["probayes/cf.py: CF.__getitem__, CF._call"], "finding": "False of the code for plain calls: a name that was asked for and not used is handed to the next call of any kind. The rest holds: the last name asked for wins, it is handed over once, and refused calls do not use it up."}
{"id": "C188", "title": "Explicit conditionals are drawn one entry at a time", "statement": "A field with a sampling function with explicit inputs draws the outputs of each entry in turn, given the current values.", "quantifier": "every field, explicit inputs, functions, steps and history of evaluations", "why_tests_cant": "That nothing is ever drawn has to be shown for all functions and histories.", "anchors": ["probayes/rf.py: RF.eval_tfun", "probayes/cf.py: CF.__getitem__, CF._call"], "finding": "False of the code: an evaluation never draws anything. A single function is refused, and for several functions the tuple of them is called instead of one of them, which raises TypeError. With tsteps, the position is compared with the number of variables and not of entries, so some evaluations return the values unchanged."}
{"id": "C189", "title": "Conditional functions keep the order and delta of their functions", "statement": "A function given as a Func object to CF, or a CF given to set_tran or set_tfun, is called with the arguments in the order or with the differences it was set up with.", "quantifier": "every function, mapping, arguments and keywords", "why_tests_cant": "Ranges over all mappings and calls.", "anchors": ["probayes/cf.py: CF.set_func", "probayes/rf.py: RF.set_tran, RF.set_tfun"], "finding": "False of the code for set_tran and set_tfun: the conditional function is rebuilt from its function, arguments and keywords, and its order and delta are lost. Func objects are copied with their order and delta."}
{"id": "C190", "title": "Names of conditional functions", "statement": "The name of a conditional function is outputs|inputs; for a field with itself the outputs are marked with a prime, and the field must have two variables or more.", "quantifier": "every two fields and every function", "why_tests_cant": "Ranges over all fields.", "anchors": ["probayes/cf.py: CF.set_inp, CF.ret_name"]}
{"id": "C191", "title": "A process steps with the sub-field or function it was last given", "statement": "After process.set_tran(field), or set_prop, set_tfun or set_delta of one of its sub-fields, that sub-field steps and proposes, with the settings it has by then; giving the process a function of its own afterwards makes the process itself step and propose again.", "quantifier": "all processes and all histories of calls of the setters on the process and its sub-fields", "why_tests_cant": "All histories of calls, of any length.", "anchors": ["probayes/sd.py:SD.set_tran", "probayes/sd.py:SD.propose", "probayes/dependence.py:Dependence.step", "probayes/dependence.py:Dependence.set_prop_obj"], "finding": "The second half is false: no setter with a function resets the object that steps, so that once a sub-field has been named the functions set on the process afterwards are ignored by step and propose (C191_taken_back_refuted)."}
{"id": "C192", "title": "Setters of a process called without argument remove the setting", "statement": "process.set_prop(), set_tran(), set_tfun() and set_delta() remove the proposal, transition, drawing function or delta of the process, as they do on a field.", "quantifier": "all processes, all histories", "why_tests_cant": "All states of the process and all later histories.", "anchors": ["probayes/dependence.py:Dependence.leafs_roots", "probayes/dependence.py:Dependence.set_prop_obj", "probayes/sd.py:SD.set_prop"], "finding": "leafs_roots(None) returns the dictionary of the sub-fields, which is taken for a sub-field: the call raises AttributeError, removes nothing and leaves a process whose step and propose raise (C192_no_argument_refuted)."}
{"id": "C193", "title": "Samples of a process follow the settings of the sub-field it uses", "statement": "Whether process.sample() is a call, a proposal or a step follows the proposal and transition of the sub-field named, at the time of the sample.", "quantifier": "all processes and histories", "why_tests_cant": "All histories of changes to the sub-fields.", "anchors": ["probayes/sd.py:SD.sample", "probayes/sd.py:SD.set_tran"], "finding": "The setting is copied when the sub-field is named: what is set on or removed from it later does not change what samples are (C193_later_refuted), although steps use it."}
{"id": "C194", "title": "Proposals and transitions exclude each other", "statement": "A field or process never has both a proposal and a transition; a setter that refuses its argument leaves the object as it was.", "quantifier": "all fields, processes and histories of calls", "why_tests_cant": "All histories of calls, refused ones included.", "anchors": ["probayes/rf.py:RF.set_prop", "probayes/rf.py:RF.set_tran", "probayes/sd.py:SD.set_prop"], "finding": "Proved for histories of accepted calls with functions. The attribute is set before it is checked, so that a refused call leaves its argument: later proposals use the transition or raise. Naming a sub-field bypasses the check."}
{"id": "C195", "title": "Fields are equal if they have the same variables", "statement": "f == g if and only if f and g have the same variables, and f != g otherwise.", "quantifier": "all fields, random fields, dependences and processes", "why_tests_cant": "All pairs of objects.", "anchors": ["probayes/field.py:Field.__eq__", "probayes/field.py:Field.__ne__", "probayes/rf.py:RF.__eq__"], "finding": "Holds (by variable name) between two Fields and between two RFs. Between objects of different classes, and between dependences or processes, both f == g and f != g are False unless f is g: __ne__ negates NotImplemented."}
{"id": "C196", "title": "A field steps from arrays of values", "statement": "field.step(values) accepts, for each variable, a number or an array of values, and defaults for the variables left out, as calls of the field do.", "quantifier": "all random fields, values, deltas, transition functions and draws", "why_tests_cant": "All fields, arrays and means of stepping.", "anchors": ["probayes/rf.py:RF.step", "probayes/rf.py:RF.eval_step", "probayes/field.py:Field.parse_args"], "finding": "False: apart from a single variable that draws its own successors, the values of a step are passed on without dimensions, so that no step from an array succeeds (C196_arrays_refuted), and in a field of discrete variables none may be left out (C196_left_out_refuted)."}
{"id": "C197", "title": "A field steps from values given under shared keys", "statement": "field.step({'x,y': (a, b)}) steps from x = a and y = b.", "quantifier": "all random fields of two or more variables, values and draws", "why_tests_cant": "All fields, values and draws.", "anchors": ["probayes/rf.py:RF.step", "probayes/field.py:Field.parse_args"], "finding": "False: parse_args(pass_all=True) drops the shared keys, and the variables they name are then drawn at random (C197_shared_ignored_refuted)."}
{"id": "C198", "title": "Sub-fields", "statement": "field.subfield(vertices) is the field of the named member variables, in the order given; vertices may be names, variables or fields and must be members.", "quantifier": "all fields and vertices", "why_tests_cant": "All fields, all lists of vertices.", "anchors": ["probayes/field.py:Field.subfield"], "finding": "Proved for names of fields of plain variables. Fields as vertices always raise; variables that are not members are accepted; random fields and processes have no sub-fields, because the result is always a Field."}
{"id": "C199", "title": "Indexing fields", "statement": "field[name] is the variable of that name or None; field[i] is the variable at position i, negative positions counting from the end, or IndexError.", "quantifier": "all fields, names and integers", "why_tests_cant": "All fields and positions.", "anchors": ["probayes/field.py:Field.__getitem__"]}
{"id": "C200", "title": "Calling a field gives a distribution of the values asked for", "statement": "field(values), of a field of plain variables given one value for each, is a distribution over all of them: numbers without axis, arrays each on an axis of their own, arrays under a shared key on one axis.", "quantifier": "all fields, values and draws", "why_tests_cant": "All numbers of variables, all values, arrays of all sizes.", "anchors": ["probayes/field.py:Field.__call__", "probayes/field.py:Field.evaluate", "probayes/distribution.py:Distribution"]}
{"id": "C201", "title": "Variables are what was last asked of them", "statement": "The values and probabilities of a real random variable are determined by its name, scale, and the set, transformation, probability and quantile functions last given to it, whatever calls of set_ufun, set_pfun, set_prob and assignments of vset were made and in whatever order, if none was refused and no transformation was taken away.", "quantifier": "all histories of accepted calls, all transformations, values and draws", "why_tests_cant": "Histories of any length and order.", "anchors": ["probayes/rv.py:RV.set_ufun", "probayes/rv.py:RV._default_prob", "probayes/variable.py:Variable.set_ufun", "probayes/variable.py:Variable._eval_ulims", "probayes/prob.py:Prob.set_prob"]}
{"id": "C202", "title": "Values of transformed variables", "statement": "The values evaluated from a random variable with a monotonic transformation, rising or falling, are as many as asked for, lie within its limits, and have transforms evenly placed (or, for draws, uniformly drawn) between the transforms of the limits.", "quantifier": "all variables made by accepted calls, monotonic transformations, numbers of values and draws", "why_tests_cant": "All transformations, limits, numbers and histories.", "anchors": ["probayes/variable.py:Variable.evaluate", "probayes/rv.py:RV.evaluate", "probayes/vtypes.py:uniform"]}
{"id": "C203", "title": "The density of an expression without change of variables", "statement": "set_ufun(expression, no_ucov=True) with an increasing expression gives the default density that integrates to one over the set, and it is the density of the values drawn by a variable with the same expression and change of variables.", "quantifier": "all variables made by accepted calls, increasing expressions with continuous derivatives, scales and draws", "why_tests_cant": "Integrals over all reals of an interval, for all transformations.", "anchors": ["probayes/rv.py:RV._default_prob", "probayes/expression.py:Expression._set_partials", "probayes/variable.py:Variable.evaluate"]}
{"id": "C204", "title": "Default densities integrate to one", "statement": "The default density of a transformed random variable integrates to one over its set.", "quantifier": "all variables made by accepted calls and transformations", "why_tests_cant": "Integrals for all transformations and limits.", "anchors": ["probayes/rv.py:RV._default_prob", "probayes/variable.py:Variable._eval_ulims"], "finding": "False: with change of variables the default is one over the transformed length, which integrates to one just when that is the length of the set (C204_change_refuted); for decreasing expressions without it the density is negative and integrates to minus one (C204_decreasing_refuted)."}
{"id": "C205", "title": "Nought outside of the set", "statement": "The default probability of a transformed random variable is nought outside of its set.", "quantifier": "all variables made by accepted calls, expressions and values", "why_tests_cant": "All values outside of all sets.", "anchors": ["probayes/rv.py:RV.eval_prob", "probayes/rv.py:RV._default_prob"], "finding": "False: without change of variables the default is an expression, evaluated at every value with no test for the set (C205_outside_refuted)."}
{"id": "C206", "title": "Draws follow the default density", "statement": "The values drawn from a random variable with an expression and no_ucov=True follow its default density.", "quantifier": "all variables made by accepted calls, increasing expressions, thresholds and draws", "why_tests_cant": "A law of draws for all expressions and thresholds.", "anchors": ["probayes/variable.py:Variable.evaluate", "probayes/rv.py:RV._default_prob"], "finding": "False: the values are drawn uniformly over the set; draws up to a threshold have the probability of the density just when the threshold divides the limits as its transform divides theirs (C206_law_refuted)."}
{"id": "C207", "title": "Taking a transformation away", "statement": "set_ufun() takes the transformation of a random variable away: its values and default probability are then those of a variable never transformed.", "quantifier": "all variables made by accepted calls, transformations, numbers of values and draws", "why_tests_cant": "All histories and transformations.", "anchors": ["probayes/variable.py:Variable.set_ufun", "probayes/rv.py:RV.set_ufun"], "finding": "False: the limits and the default probability stay those of the transformation, so that values are spread between the transforms of the limits (C207_removed_refuted), until the set is assigned again (C207_assigned_again)."}
{"id": "C208", "title": "Refused calls leave variables as they were", "statement": "If set_pfun, set_ufun or set_prob of a random variable raises an exception because transformations and quantile functions or no_ucov and pairs of functions exclude each other, the variable is as it was before.", "quantifier": "all variables made by accepted calls, functions, distributions, sets and draws", "why_tests_cant": "All histories before and calls after the refusal.", "anchors": ["probayes/rv.py:RV.set_pfun", "probayes/rv.py:RV.set_ufun", "probayes/rv.py:RV.set_prob", "probayes/variable.py:Variable.set_ufun"], "finding": "False of each: functions, transformations and distributions are installed before they are refused and change values and probabilities from then on (C208_pfun_refuted, C208_ufun_refuted, C208_dist_refuted); after a pair refused for no_ucov the next assignment of the set fails and leaves no probability (C208_pair_refuted)."}
{"id": "C209", "title": "Writing replaces one file and no other", "statement": "write_dist and write_serialised replace the file of the given name as a whole: nothing of what it held is left or has influence on the result, its groups are those of the distributions and auxiliary data given, and files of other names are as they were, also when the call raises an exception.", "quantifier": "all distributions, auxiliary data, disks and names of files", "why_tests_cant": "All contents of the disk before and all points at which the call may raise.", "anchors": ["probayes/pd_utils.py:write_serialised", "probayes/pd.py:PD.write"]}
{"id": "C210", "title": "A write that fails leaves the file as it was", "statement": "If write_serialised raises an exception, the file under the given name is what it was before the call.", "quantifier": "all distributions, auxiliary data and disks", "why_tests_cant": "All points at which writing may raise.", "anchors": ["probayes/pd_utils.py:write_serialised"], "finding": "False: only auxiliary data of the wrong form are refused before the file is opened (C210_refused_first). All other exceptions, for text values, missing probabilities, names used twice and text in auxiliary arrays (C210_raises_iff), are raised after the old file was emptied (C210_lost_refuted)."}
{"id": "C211", "title": "What was written before a failure can be read", "statement": "If write_serialised raises an exception at one distribution, those written before it can be read from the file that is left, and no distribution in memory is changed.", "quantifier": "all lists of distributions and all positions of one that has a column and a later value that cannot be stored", "why_tests_cant": "All points of failure in lists of any length.", "anchors": ["probayes/pd_utils.py:write_serialised", "probayes/pd_utils.py:read_serialised", "probayes/pd_utils.py:deserialise", "probayes/pd_utils.py:read_dist"], "finding": "False: the group of the failing distribution lacks its dimensions, and reading the file raises an AssertionError for it, so that none can be read; the distributions before it have 'None' for None in their dims (C211_unreadable_refuted)."}
{"id": "C212", "title": "Auxiliary data come back as given", "statement": "Auxiliary data written together with distributions are read back by read_serialised with the same names and arrays, and the distributions are read back as without auxiliary data.", "quantifier": "all lists of distributions and all dictionaries of arrays", "why_tests_cant": "All numbers of distributions and arrays of all shapes, in the order of names of the file.", "anchors": ["probayes/pd_utils.py:write_serialised", "probayes/pd_utils.py:read_serialised", "probayes/pd_utils.py:read_dist"]}
{"id": "C213", "title": "Only auxiliary data are read as such", "statement": "The auxiliary data read_serialised returns are those that were given to write_serialised.", "quantifier": "all distributions with a space in a variable's name", "why_tests_cant": "All distributions and names.", "anchors": ["probayes/pd_utils.py:write_serialised", "probayes/pd_utils.py:read_serialised", "probayes/pd_utils.py:read_dist"], "finding": "False: a distribution with a space in the name of a variable is taken for auxiliary data: its values and probabilities come back among them and read_dist returns no distribution, with no exception (C213_becomes_data_refuted)."}
{"id": "C214", "title": "Writing again gives the same file", "statement": "Writing the same distributions and auxiliary data again, under any name, gives the same file and the same exception if any, and changes the distributions no further.", "quantifier": "all distributions, auxiliary data, disks and names of files", "why_tests_cant": "All distributions, whether changed by the first call or not.", "anchors": ["probayes/pd_utils.py:write_serialised", "probayes/pd_utils.py:serialise"]}
{"id": "C215", "title": "Reverse proposals of samples", "statement": "A sample of a process comes with a reverse proposal exactly if its transition was given as a pair of functions, whether it was given to the process or to the sub-field the process takes it from.", "quantifier": "all processes and histories of calls", "why_tests_cant": "All histories of calls on the process and its sub-fields.", "anchors": ["probayes/sd.py:SD._sample_tran", "probayes/sd.py:SD.set_tran", "probayes/rf.py:RF.set_tran"], "finding": "False for transitions of sub-fields: whether they are symmetric is not taken over, and all samples come with a reverse proposal (C215_delegated_refuted)."}
{"id": "C216", "title": "Names of variables", "statement": "A variable can be made with, or renamed to, exactly the identifiers beginning with a letter that are no keywords; a refused renaming leaves the variable as it was.", "quantifier": "all names and all programs", "why_tests_cant": "All strings, and all states a program can leave a variable in.", "anchors": ["probayes/variable.py:Variable.name", "probayes/rv.py:RV.name"], "finding": "False for refused renamings: the variable keeps the refused name, with the Delta class and the key of the next value of the former one (C216_refused_refuted)."}
{"id": "C217", "title": "Symbols follow names", "statement": "x[:] of a variable without expression is the symbol with the variable's name, or the one last given to set_icon.", "quantifier": "all programs of constructions, renamings, symbols and expressions", "why_tests_cant": "All sequences of calls.", "anchors": ["probayes/icon.py:Icon.set_icon", "probayes/variable.py:Variable.set_icon", "probayes/variable.py:Variable.__getitem__"], "finding": "False after a renaming: x[:] stays the symbol of the former name (C217_renamed_refuted); an object refused by set_icon is what x[:] gives afterwards (C217_symbol)."}
{"id": "C218", "title": "Attributes of symbols", "statement": "Attributes such as is_positive read from a variable are those of its symbol.", "quantifier": "all programs and attributes", "why_tests_cant": "All sequences of calls.", "anchors": ["probayes/icon.py:Icon.set_icon"], "finding": "False after another symbol is given: the attributes stay those of the first symbol (C218_first_refuted)."}
{"id": "C219", "title": "Expressions of variables", "statement": "x[:] of a deterministic variable is the expression last assigned to x.dexpr, which x.dexpr gives back; random variables take none.", "quantifier": "all programs", "why_tests_cant": "All sequences of calls.", "anchors": ["probayes/variable.py:Variable.dexpr", "probayes/variable.py:Variable.__getitem__"], "finding": "False for reading: x.dexpr gives the variable's name (C219_expression)."}
{"id": "C220", "title": "Deltas belong to their variable", "statement": "A Delta made by a variable moves its values by what it holds, whatever is drawn at random; a Delta of another variable is an error.", "quantifier": "all programs, variables, values, Deltas and random draws", "why_tests_cant": "All programs and all random draws.", "anchors": ["probayes/variable.py:Variable.Delta", "probayes/variable.py:Variable.apply_delta", "probayes/variable.py:Variable.eval_delta", "probayes/variable.py:Variable.name"], "finding": "False for Deltas of other variables and for Deltas made before a renaming: they are taken for tuples and move the values by a random sign of what they hold (C220_outdated_refuted)."}
{"id": "C221", "title": "A probability object gives its last probability", "statement": "After set_prob and any later changes of scale, distribution or quantile functions, calling a probability object gives the density or mass of the last probability, as logarithm exactly if the current scale is one of logarithms; the scale is the last one given.", "quantifier": "all histories of set_prob, pscale, distr and set_pfun, all probabilities and arguments", "why_tests_cant": "All sequences of calls.", "anchors": ["probayes/prob.py:Prob.set_prob", "probayes/prob.py:Prob.eval_prob", "probayes/prob.py:Prob.pscale"]}
{"id": "C222", "title": "Which probabilities are accepted", "statement": "set_prob accepts exactly: functions and numbers, distributions of scipy with a density or mass and its logarithm, and random symbols of sympy whose distribution can be found and has a density, with a scale that can be evaluated.", "quantifier": "all probabilities and scales", "why_tests_cant": "All inputs.", "anchors": ["probayes/prob.py:Prob.set_prob", "probayes/prob.py:Prob._set_partials", "probayes/sympy_prob.py:SympyProb.distr"]}
{"id": "C223", "title": "Quantile functions belong to the probability", "statement": "The quantile functions of a probability object are those that come with its last probability, or the ones set since.", "quantifier": "all histories and probabilities", "why_tests_cant": "All sequences of calls.", "anchors": ["probayes/prob.py:Prob.set_prob", "probayes/prob.py:Prob.set_pfun", "probayes/sympy_prob.py:SympyProb.distr"], "finding": "False if the last probability has none: those of a former one stay (C223_stale_refuted)."}
{"id": "C224", "title": "Parts of a probability object", "statement": "p[''] lists the names under which p[name] finds a part of the probability.", "quantifier": "all probability objects and histories", "why_tests_cant": "All sequences of calls.", "anchors": ["probayes/prob.py:Prob.__getitem__", "probayes/sympy_prob.py:SympyProb.distr"], "finding": "False for scipy: p[''] is always empty (C224_scipy_refuted)."}
{"id": "C225", "title": "One distribution at a time", "statement": "A probability object shows the distribution its calls use, also after distr is assigned, and a refused assignment changes nothing.", "quantifier": "all probability objects and assignments", "why_tests_cant": "All states and objects assigned.", "anchors": ["probayes/sympy_prob.py:SympyProb.distr", "probayes/prob.py:Prob.__getitem__", "probayes/prob.py:Prob.eval_prob"], "finding": "False of every assignment of distr: p[set()] and p[()] show the new distribution, or the refused object and no density, and calls use the old one (C225_two_refuted)."}
{"id": "C226", "title": "Sizes of samples", "statement": "The sampler of a sympy distribution gives one draw for size 0 and n converted draws in order for size n.", "quantifier": "all sizes, conversions and sequences of draws", "why_tests_cant": "All sizes and draws.", "anchors": ["probayes/sympy_prob.py:sympy_sfun"]}
{"id": "C227", "title": "The probability a field shows is that of its calls", "statement": "If the probabilities of all variables of a random field are numbers or sympy expressions, field.prob is an expression whose value at any values of the variables is the number that calling the field gives there.", "quantifier": "all numbers of variables, expressions, values; all linear scales, and the plain logarithmic one", "why_tests_cant": "Ranges over all fields and expressions, and needs the product of symbolic expressions compared with the product rule on every scale.", "anchors": ["probayes/rf.py:RF._default_prob", "probayes/rf.py:RF.set_prob", "probayes/rf.py:RF.eval_prob"], "finding": "False on logarithmic scales: prob is the product of the log-probabilities where calls give their sum (C227_logarithms_refuted)."}
{"id": "C228", "title": "Fields follow the probabilities of their variables", "statement": "After any changes of the probabilities and scales of its variables, additions of variables, and set_prob() without probability, calling a field that was given no probability of its own gives the product of what its variables give now.", "quantifier": "all histories of changes, all values", "why_tests_cant": "All histories of changes.", "anchors": ["probayes/rf.py:RF.eval_prob", "probayes/rf_utils.py:rv_prod_rule"]}
{"id": "C229", "title": "The probability a field shows is up to date", "statement": "field.prob is the product of the current probabilities of the field's variables.", "quantifier": "all histories of changes", "why_tests_cant": "All histories of changes.", "anchors": ["probayes/rf.py:RF._default_prob", "probayes/rf.py:RF._refresh"], "finding": "False: prob stays what it was when the field was made, whatever is set on its variables and whichever variables are added (C229_stale_refuted); field.set_prob() renews it (C229_renewed)."}
{"id": "C230", "title": "Which fields show a probability", "statement": "A field shows a probability of its own accord exactly if the probabilities of all its variables are expressions.", "quantifier": "all fields, and all ways variables got their probabilities", "why_tests_cant": "All histories of the variables.", "anchors": ["probayes/rf.py:RF._default_prob", "probayes/expression.py:Expression.isiconic", "probayes/prob.py:Prob.set_prob"], "finding": "False for variables made with a distribution of sympy, whose isiconic is None although their prob is an expression: no field with one shows a probability; if the variable is made first and then given the distribution, it does (C230_sympy_refuted)."}
{"id": "C231", "title": "Fields on a scale of their own", "statement": "A field whose pscale is assigned gives the probabilities of its values on that scale.", "quantifier": "all fields without a probability of their own, all scales", "why_tests_cant": "Ranges over all scales and fields.", "anchors": ["probayes/rf.py:RF.eval_prob", "probayes/rf_utils.py:rv_prod_rule", "probayes/pscales.py:prod_rule", "probayes/prob.py:Prob.pscale"], "finding": "False: the number never changes with the scale; if there are two or more variables, scales of the other kind raise ValueError, except the plain logarithmic scale, which is taken for none given (C231_scale_refuted)."}
{"id": "C232", "title": "Conditional summaries of samples", "statement": "Calling a process with its samples and conditionalise=True gives the distribution gathered from the accepted samples, conditioned on the leafs; without the keyword distributions at points are gathered as columns in their order.", "quantifier": "all processes with leafs and roots, all lists of samples of a sampler or of distributions at points, all iteration orders of the set of leafs", "why_tests_cant": "A test would need samples for every number of variables and accepted points; that it fails for all of them takes a proof.", "anchors": ["probayes/sp.py:SP.__call__", "probayes/pd.py:PD.conditionalise", "probayes/pd_utils.py:summate"], "finding": "False of the code: gathered samples share one axis, conditionalise places the leafs on an axis behind it that does not exist, and the call raises whenever a sample was accepted (or any distribution is given)."}
{"id": "C233", "title": "iterdict gathers values by key", "statement": "iterdict(dicts) has each key of the dictionaries once, with the values of those that have it, in the order of the dictionaries, so that the i-th value is that of the i-th dictionary.", "quantifier": "all lists of dictionaries, all iteration orders of the set of their keys", "why_tests_cant": "Depends on which dictionaries lack which keys, for any number of them.", "anchors": ["probayes/pd_utils.py:iterdict"], "finding": "Values are not aligned with the dictionaries as soon as one has a key that one before it lacks; an empty list raises TypeError."}
{"id": "C234", "title": "joint length of a field", "statement": "The joint length of a field is the root of the sum of the squares of the lengths of its variables, and steps given with scale=True are scaled by the lengths of the variables.", "quantifier": "all fields, all histories of assignments of sets and transformations to the variables, additions of variables and calls of eval_length", "why_tests_cant": "Histories of changes to shared variables are unbounded, and lengths range over a continuum.", "anchors": ["probayes/field.py: eval_length, _refresh, set_delta", "probayes/rf.py: eval_length", "probayes/variable.py: vset, set_ufun, length"], "finding": "False of scaled steps: a field keeps the lengths its variables had when one was last added or eval_length() last called, and scales by those, however the sets and transformations have changed since (C234_outdated_refuted); eval_length() itself returns the root for the present lengths (C234_value)."}
{"id": "C235", "title": "len, truth and membership of variables", "statement": "len(x) of a variable is its length, x can be tested for truth, and v in x tells if v is in its set.", "quantifier": "all variables, numbers and arrays", "why_tests_cant": "All sets, limits and values.", "anchors": ["probayes/variable.py: __len__, __contains__, length, _eval_ulims"], "finding": "False of real variables: len(x) and tests for truth raise TypeError, as the length is no integer (C235_real_refuted); v in x raises ValueError for arrays of more than one value (C235_in)."}
{"id": "C236", "title": "membership of repeated values", "statement": "x.inside(values) of a discrete variable tells of each value if it is in the set, and the default probability of values outside is nought.", "quantifier": "all discrete variables, all arrays of values with or without repetitions, each of the ways in which numpy.isin computes", "why_tests_cant": "The defect depends on the number of values and of members, on their types, and on repetitions.", "anchors": ["probayes/variable.py: _eval_ulims (inside)", "probayes/rv_utils.py: uniform_prob", "probayes/rv.py: eval_prob"], "finding": "False: numpy.isin is told that no value is repeated (assume_unique=True). Where it sorts, a value outside of the set counts as inside wherever it occurs again later (C236_repeated_refuted), and has the probability of a member (C236_probability_refuted)."}
{"id": "C237", "title": "variables do not affect each other's sets", "statement": "The set of a variable changes only if the variable itself is given another set.", "quantifier": "all programs that make variables, make and edit lists, assign lists, sets, tuples, arrays or the sets of other variables, and edit x.vset in place", "why_tests_cant": "Interference depends on the whole history of the program, and on which lists are the same object.", "anchors": ["probayes/variable.py: DEFAULT_VSETS, __init__, vset, vtype, _eval_vlims"], "finding": "False: lists are kept and converted in place. Giving x.vset to a variable of another type converts the set of x (C237_shared_refuted); editing x.vset of a variable without a set of its own edits the module's default, hence every such variable and those made later (C237_default_refuted); and leaves the length of x as it was (C237_outdated_refuted)."}
{"id": "C238", "title": "a refused assignment of probabilities changes nothing", "statement": "d.prob = values is accepted exactly if the values have the shape of the distribution; if refused, the distribution is as it was; after any number of accepted assignments it is as consistent as one that was made.", "quantifier": "all distributions, all arrays, all sequences of assignments of probabilities and scales", "why_tests_cant": "Sequences of assignments of any length, some refused, over distributions of every shape.", "anchors": ["probayes/pd.py: PD.prob, PD.pscale", "probayes/distribution.py: Distribution.ndim, shape"], "finding": "False in part: refused probabilities are kept all the same, so that a program which catches the error goes on with a distribution whose probabilities do not match its axes (C238_prob_refuted)."}
{"id": "C239", "title": "assigning a scale keeps what the probabilities stand for", "statement": "After d.pscale = s every probability, read on the scale of the distribution, is what it was before.", "quantifier": "all distributions, scales and positions", "why_tests_cant": "Every pair of scales and every probability.", "anchors": ["probayes/pd.py: PD.pscale, PD.rescaled", "probayes/pscales.py: eval_pscale"], "finding": "False: the numbers are kept and read on the new scale; between scales of one kind all probabilities are multiplied by the ratio of the scales (C239_ratio, C239_kept_iff_refuted). rescaled (C131) converts them."}
{"id": "C240", "title": "assigning a name sets the roles", "statement": "d.name = n makes the variables before the bar marginal and those after it conditional, and keeps everything else; a name that is refused leaves the distribution as it was.", "quantifier": "all distributions and names", "why_tests_cant": "All names over any number of variables, including refused ones.", "anchors": ["probayes/pd.py: PD.name", "probayes/named_dict.py: NamedDict.name", "probayes/pd_utils.py: str2key, margcond_str"], "finding": "False in part: a refused name is kept with the roles of the old one (C240_refused_refuted); names of other variables are accepted, and C240_name says exactly when the distribution is consistent afterwards."}
{"id": "C241", "title": "probabilities match the axes after assigning axes or values", "statement": "After d.dims = dims or d[k] = values the probabilities have one entry per combination of values.", "quantifier": "all distributions, all assignments of axes, all arrays of values", "why_tests_cant": "All numbers of variables and axes and all sizes.", "anchors": ["probayes/distribution.py: Distribution.dims, _set_shape", "probayes/pd.py: PD.prob"], "finding": "False: assignment of axes never looks at the probabilities, so exchanging the two axes of any distribution leaves them in the old shape (C241_exchanged_refuted); d[k] = values is never refused (C241_item)."}
{"id": "C242", "title": "the type of values given for a type", "statement": "x.vtype = values gives x the type numpy gives the values, in whatever order they are written; x.vtype = None keeps the type that the set of x has.", "quantifier": "all variables, all sets, tuples and lists of bools, integers, floats and infinities of any length", "why_tests_cant": "Mixed values of every length and order.", "anchors": ["probayes/vtypes.py: eval_vtype", "probayes/variable.py: Variable.vtype, DEFAULT_VSETS"], "finding": "False in part: x.vtype = None leaves a variable with an infinite limit with a type that is none of bool, int and float (C242_again_iff_refuted); values with an infinity given to a variable without a set raise KeyError (C242_first)."}
{"id": "C243", "title": "derived distributions have probabilities of their own", "statement": "If d is a distribution derived from p by marginalise, marginal, conditionalise, rekey, prod, sorted, rescaled or a call, then assigning to elements of d.prob changes the probabilities of d and of no other distribution, and assigning to elements of p.prob does not change those of d.", "quantifier": "all programs that derive distributions from distributions in any order and number and write to elements of their probabilities", "why_tests_cant": "Whether two distributions share an array depends on the method, the scale, the columns and the earlier history; a test sees the values before a write, which are the same either way.", "anchors": ["probayes/pd.py: PD.marginalise, PD.marginal, PD.conditionalise, PD.rekey, PD.prod, PD.sorted, PD.rescaled, PD.__call__", "probayes/pscales.py: rescale"], "finding": "False in part: rekey, sorted by a scalar variable, slices at values that occur once, and conditionalise on scale one when no marginal column is left over return distributions whose prob is a view of the original's, so that writing to one changes the other (C243_rekey_refuted, C243_rekey_together_refuted, C243_sorted_refuted, C243_slice_refuted, C243_conditionalise_refuted)."}
{"id": "C244", "title": "comparing distributions", "statement": "p == q tells whether the distributions p and q are the same: the same variables with the same values, in the same roles and with the same probabilities.", "quantifier": "all distributions whose values are numbers, strings and arrays, and all ways in which they share arrays", "why_tests_cant": "Equality depends on the values, the number of values and whether arrays are shared, for any number of variables.", "anchors": ["probayes/named_dict.py: NamedDict", "probayes/distribution.py: Distribution", "probayes/pd.py: PD"], "finding": "False: the comparison is that of ordered dictionaries. It is True of distributions made of the same values whatever their probabilities, scales and names (C244_probabilities_refuted), and raises ValueError for distributions with the same values in separate arrays of several values (C244_separate_refuted)."}
