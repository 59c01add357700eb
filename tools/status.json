{
"C01": [
"proved",
"All pairs of scales; the log scale with offset exactly 1 (1+0j) is mistaken for linear 1: refuted separately, excluded by hypothesis."
],
"C02": [
"proved",
"Round trip and path independence for representable probabilities."
],
"C03": [
"proved",
""
],
"C04": [
"proved",
""
],
"C05": [
"proved",
"All linear scales; any mix of plain linear and plain log scales."
],
"C06": [
"proved",
"The claim is false of the code. Proved: exact characterisation of when it holds (iff no log scale is involved or the factors cancel), plus a refutation."
],
"C07": [
"proved",
"False of the code. Proved exactly: which requested scales raise, and for the others that the result means the same if and only if the scale has the natural scale's factor (or the value is a linear zero)."
],
"C08": [
"proved",
"A requested plain log scale (0j) is ignored: refuted separately."
],
"C09": [
"proved",
""
],
"C10": [
"proved",
"The claim is false of the code: the negation is proved for every parenthesised name."
],
"C100": [
"proved",
"True if some key is primed (AssertionError exactly if two names coincide); false, for every dictionary, if none is."
],
"C101": [
"proved",
""
],
"C102": [
"proved",
"True in parallel on linear scales; false in series, for all chains. The constituents are abstract functions."
],
"C103": [
"proved",
""
],
"C104": [
"proved",
"False of the code: C104_omitted_dims_refuted gives a square table whose mean is computed as 3 instead of 2."
],
"C105": [
"proved",
"False of the code: proved that whenever remarginalise returns a distribution it has no conditional variable."
],
"C106": [
"proved",
"Exact on the first axis (C106_first_axis); refuted for every other axis, where the call always raises (C106_other_axis_refuted)."
],
"C107": [
"proved",
"Refuted: for every value the result is the distribution itself."
],
"C108": [
"proved",
"Tuples, lists and sets; closed and half-open float lists are C64."
],
"C109": [
"proved",
"Perturbations by callables are not modelled."
],
"C11": [
"proved",
"Construction accepted iff the values and dims describe a distribution; layout of the result in both modes. With dims omitted the j-th column only has j+1 axes, see C104."
],
"C110": [
"proved",
"The collection; the sum itself is summate (C28-C31)."
],
"C111": [
"proved",
"h5py behaviour (iteration by name, arrays unchanged) is an assumption of the model, see PDFile.v."
],
"C112": [
"proved",
"False of the code: proved that reading always raises KeyError."
],
"C113": [
"proved",
"False of the code: proved that all are read back iff no variable name has a space."
],
"C114": [
"proved",
"For q > 0, total probability at least the smallest positive float; exact reals."
],
"C115": [
"proved",
"False of the code: refuted for a family of distributions; proved (partial) for a single column with gentle probabilities and for the first of several axes."
],
"C116": [
"proved",
"False of the code: refuted for a family; proved (partial) for columns not on the last axis."
],
"C117": [
"proved",
"False of the code: proved that the result is always the set {1}."
],
"C118": [
"proved",
"Log scales with offsets are excluded (their products are wrong, C06), as are arrays of probabilities (cannot be evaluated, C73)."
],
"C119": [
"proved",
"The condition that no suffixed name equals an existing name is necessary for the in-place renaming of rf.py 595-601."
],
"C12": [
"proved",
"False of the code: proved that lengths never influence acceptance and that the later column's length is taken."
],
"C120": [
"proved",
"False of the code: C120_step gives the exact value, C120_not_successors_refuted the exact condition."
],
"C121": [
"proved",
"For other transitions the probability kept is that of the forward step, as the comment in the code says."
],
"C122": [
"proved",
"Proved whenever the side asked for has a variable; false of the code when it has none (refuted: everything is returned)."
],
"C123": [
"proved",
"lookup proved as an equation with a declarative answer; as_dist proved as an iff on the axes, with the values and axes of the result."
],
"C124": [
"proved",
""
],
"C125": [
"proved",
"True for roots given by number, array or number of samples (C125_joint). False of the code for roots left at None: C125_none_refuted shows that the joint call never returns."
],
"C126": [
"proved",
"False of the code: C126_default_refuted gives the product that is returned and shows that it is the leafs' probability exactly where the roots' is 1 (or the leafs' 0); C126_joint_refuted gives the joint result, leafs times roots squared."
],
"C127": [
"proved",
"False of the code: C127_counted_refuted proves both for all functions and requests."
],
"C128": [
"proved",
"False of the code: C128_overridden_refuted."
],
"C129": [
"proved",
"False of the code: C129_spelling_refuted (the columns of all factors that hold x being arrays; scalars are covered by C20 and C21)."
],
"C13": [
"proved",
"Axes in key order (what every constructor without explicit dims, and every product, produces); other layouts under C15."
],
"C130": [
"proved",
"False of the code: C130_zero_scale_refuted."
],
"C131": [
"proved",
"Scales other than 1+0j (see C01) and not within rounding of each other; probabilities in range."
],
"C132": [
"proved",
"The ratio is clamped below at the smallest positive float (C132_ratio says when that makes no difference)."
],
"C133": [
"proved",
"False of the code: C133_two_way_chain gives the chain that is sampled, C133_balance_refuted when it balances (iff)."
],
"C134": [
"proved",
"Intervals open at one end only are the subject of C40."
],
"C135": [
"proved",
"False of the code for bools: the theorem gives the step of real variables and shows that bools stay."
],
"C136": [
"proved",
"False of the code only where q is not positive: the theorem gives the chain in all cases."
],
"C137": [
"proved",
"Proved for single numbers; the arrays of a field's step are modelled only for the variable itself (C42)."
],
"C138": [
"proved",
"for every history of the samplers; variables real with given sets, functions elementwise"
],
"C139": [
"proved",
"False of the code with several samplers: proved for a single sampler (C139_alone, C139_each_once); C139_in_turn_refuted shows for every process that samplers in turn never change their other variables"
],
"C14": [
"proved",
"Axes in key order."
],
"C140": [
"proved",
"matrix inversion and the normal cdf and quantile are parameters; conditional mean and deviation are characterised through the precision matrix"
],
"C141": [
"proved",
"False of the code: C141_by_position says exactly which draw is made for every order, C141_order_refuted gives a bivariate normal where the two orders give different values of y"
],
"C142": [
"proved",
"False of the code: C142_negative_refuted and C142_never_again characterise the behaviour for every negative tsteps"
],
"C143": [
"proved",
"False of the code: C143_reverse_refuted says for every pair that the reverse step is made of draws by the first function; C143_tuple_refuted says only a function or a CF is accepted"
],
"C144": [
"proved",
"False of the code: C144_metropolis_chain and C144_hastings_chain give the rule for every process, C144_balance_refuted shows balance iff the density of the draws is symmetric"
],
"C145": [
"proved",
""
],
"C146": [
"proved",
""
],
"C147": [
"proved",
""
],
"C148": [
"proved",
"Proposal function over all variables (set_prop(function)); proposals of the leafs or roots alone are not modelled."
],
"C149": [
"proved",
"Variables whose vset is an interval; one proposal function for all variables."
],
"C15": [
"proved",
"False of the code, characterised exactly: C15_correct_iff says for which layouts the result is correct, C15_placed where every remaining variable goes in any distribution, shared axes included; the statement is refuted on the transposed, exchanged and shared families."
],
"C150": [
"proved",
"False of the code: C150_forgotten_refuted shows that for every process and every given number outside the limits, the first sample has it and no later one does. C149 gives the points exactly."
],
"C151": [
"proved",
"False of the code: C151_not_drawn_refuted, the same random numbers give the same values whatever the proposal function and scores."
],
"C152": [
"proved",
"False of the code: C152_stuck_refuted, every sampler stays at its first point for ever."
],
"C153": [
"proved",
"False of the code: C153_no_suffix_refuted, every such sampler raises TypeError first and is exhausted afterwards."
],
"C154": [
"proved",
"conditionalise is not modelled."
],
"C155": [
"proved",
"Successors given as values (C77, C80 are about drawn ones); values of matrix transitions must be in the set."
],
"C156": [
"proved",
"False of the code: for every such variable every pair has the probability e without a transition, and every pair outside the set the probability one with the uniform transition."
],
"C157": [
"proved",
""
],
"C158": [
"proved",
"Acceptance is proved as stated; the rest is false of the code: the transition of the variable is the rejected one, and the outcome does not depend on the second matrix."
],
"C159": [
"proved",
""
],
"C16": [
"proved",
"Proved as stated whenever a marginal column is left; when none is left the code leaves the probabilities undivided, proved as C16_no_column_left_refuted."
],
"C160": [
"proved",
"False of the code: C160_coordinates_refuted gives the probability exactly, the density at the point with its first two coordinates exchanged."
],
"C161": [
"proved",
"False of the code: C161_numbers_refuted gives the probability exactly for every order of the request."
],
"C162": [
"proved",
"False of the code: C162_axes_refuted says exactly when the call raises and what the probabilities are otherwise."
],
"C163": [
"proved",
"False of the code: C163_single_refuted and C163_one_variable_refuted."
],
"C164": [
"proved",
"C164_accepted, for calls without iid."
],
"C165": [
"proved",
""
],
"C166": [
"proved",
"False of the code for numbers: C166_number_refuted; proved for distributions."
],
"C167": [
"proved",
"An excluded lower limit is returned if the number drawn is 0, as in C65."
],
"C168": [
"proved",
"False of the code: C168_sampled_iff says exactly when values are returned."
],
"C169": [
"proved",
"False of the code: C169_default_draw_refuted gives the distribution of the draw."
],
"C17": [
"proved",
"False of the code: proved is the exact condition for success (C17_conditionalise_iff, for distributions in name order) and that every inner column raises."
],
"C170": [
"proved",
"False of the code: C170_stale_quantiles_refuted."
],
"C171": [
"proved",
"False of the code: C171_stale_bias_refuted."
],
"C172": [
"proved",
"exact: value of every name, and acceptance as an equivalence"
],
"C173": [
"proved",
"for symbols that sympy reads back from their names; C177 says what happens otherwise"
],
"C174": [
"proved",
"False of the code: C174_position_refuted holds for every expression of two symbols; C174_positional says what a positional call does"
],
"C175": [
"proved",
""
],
"C176": [
"proved",
"False of the code: the theorems say exactly what is computed for two arrays in every case and for one array among any number of symbols; three arrays and more are not characterised"
],
"C177": [
"proved",
"False of the code: shown for all such expressions; simplified in that sympy may drop symbols that are left, as in 0*x"
],
"C178": [
"proved",
"for every argsort that returns a sorting permutation"
],
"C179": [
"proved",
"False of the code at negative indices, for every tuple; non-negative indices are exact"
],
"C18": [
"proved",
"Proved for any number of factors, sizes and axis orders, with disjoint marginals, counted variables (x={n}) each in one factor only, columns spelled alike (all x or all x=[]) in the factors that share them, and unbound column conditionals in one factor only; False of the code for common column conditionals (refuted). Factors all of scalars are covered if there are at least two, each with a marginal."
],
"C180": [
"proved",
"True for one symbol; false for several, shown for all of them"
],
"C181": [
"proved",
""
],
"C182": [
"proved",
"for an expression that does not have the other kind of mapping already (C83)"
],
"C183": [
"proved",
"For bound=False; C40 and C68-C70 cover the bounds."
],
"C184": [
"proved",
"Counts: proved. Other values: False of the code: the first factor's single values are kept whatever the others hold (C184_other_values_refuted). For factors listing their variables in the same order."
],
"C185": [
"proved",
""
],
"C186": [
"proved",
"False of the code: lists of variables are characterised, lists with fields and inputs as lists are refuted universally."
],
"C187": [
"proved",
"The last name is handed over exactly once, for all histories; that plain calls are unaffected is refuted."
],
"C188": [
"proved",
"False of the code: refuted for every function and history."
],
"C189": [
"proved",
"Proved for Func objects; for set_tran and set_tfun calls are characterised and the loss of the order is proved for every field and function."
],
"C19": [
"proved",
"For every prior and likelihood to which the product rule applies (any number of variables and sizes, factors in either order) product then conditionalise gives prior*likelihood/evidence, and product / prior gives the likelihood. Within the floating point range npz..npi, the code's clamps, stated as hypotheses."
],
"C190": [
"proved",
""
],
"C191": [
"proved",
"First half proved for all histories; the second half is false of the code and refuted for all histories."
],
"C192": [
"proved",
"False of the code; the negation is proved for all processes, setters and later histories."
],
"C193": [
"proved",
"Proved at the time of the call; false of the code afterwards, for all later histories."
],
"C194": [
"proved",
"First half proved for accepted histories of functions; the rest is false of the code, refuted for all states."
],
"C195": [
"proved",
"Proved between objects of the same class Field or RF; false of the code otherwise, with the exact values proved."
],
"C196": [
"proved",
"False of the code: no step from an array of values succeeds, whatever moves the field."
],
"C197": [
"proved",
"False of the code: values under shared keys are silently replaced by random draws."
],
"C198": [
"proved",
"Proved for names; the rest is refuted: fields as vertices, members only, random fields."
],
"C199": [
"proved",
""
],
"C20": [
"proved",
""
],
"C200": [
"proved",
""
],
"C201": [
"proved",
"For histories without set_ufun(None), see C207, and without refused calls, see C208."
],
"C202": [
"proved",
"For variables without quantile functions."
],
"C203": [
"proved",
"Expressions whose derivative depends on the value; on logarithmic scales the derivative must be positive."
],
"C204": [
"proved",
"False of the code with change of variables unless lengths agree, and of decreasing expressions; true of increasing ones without change of variables (C203)."
],
"C205": [
"proved",
"False of the code without change of variables; with it, C204_change_refuted has the probability outside of the set."
],
"C206": [
"proved",
"False of the code: draws are uniform whatever the density."
],
"C207": [
"proved",
"False of the code until the set is assigned again."
],
"C208": [
"proved",
"False of the code for all four calls."
],
"C209": [
"proved",
"All calls, also those that raise; distributions as objects that may share names or be listed twice."
],
"C21": [
"proved",
"Proved for array-valued variables (named plainly in both factors) which differ beyond np.allclose's tolerance from the first holder. False of the code for scalars: C21_scalar_mismatch_refuted says that any accepted product holds the first holder's value whatever the others hold, C21_scalars_accepted_refuted that such products are accepted."
],
"C210": [
"proved",
"False of the code: the file is emptied before values are written; exact conditions for the exceptions proved."
],
"C211": [
"proved",
"False of the code."
],
"C212": [
"proved",
"Names of auxiliary data contain a space, as write_serialised demands; arrays are numeric."
],
"C213": [
"proved",
"False of the code for names with spaces; C212 has the case without."
],
"C214": [
"proved",
"The first call may change None to 'None' in dims (C113); later ones change nothing."
],
"C215": [
"proved",
"True of transitions given to the process (C215_own); false of those of sub-fields."
],
"C216": [
"proved",
"Which names are accepted: C216_accepted_iff; what a renaming changes: C216_renamed; refused renamings leave a mixture."
],
"C217": [
"proved",
"True after construction and set_icon (C217_symbol); false after renamings."
],
"C218": [
"proved",
"The attributes are those of the first symbol for ever."
],
"C219": [
"proved",
"x[:]: C219_expression, C219_random; reading dexpr gives the name."
],
"C22": [
"proved",
"False of the code as stated. Proved exactly: which divisions of matching distributions succeed (iff), what the quotient is for every axis order, that it is pointwise when the orders agree, and that it exchanges the variables when they do not."
],
"C220": [
"proved",
"True exactly for Deltas of the variable made since its last renaming (C220_own_iff, C220_moves)."
],
"C221": [
"proved",
"For functions and numbers the scale makes no difference to the value."
],
"C222": [
"proved",
"C222_accepted_iff."
],
"C223": [
"proved",
"True if it has some (C223_taken: of sympy's solutions for the inverse the first of those printed shortest)."
],
"C224": [
"proved",
"True for sympy (C224_sympy)."
],
"C225": [
"proved",
"Exact description of what is shown and what calls give."
],
"C226": [
"proved",
"C226_samples."
],
"C227": [
"proved",
"False of the code for logarithms: refuted for all fields; proved for linear scales with any coefficients."
],
"C228": [
"proved",
"If the field's scale is that of the product of the current scales, which are all linear or plain (C231 for others)."
],
"C229": [
"proved",
"False of the code: refuted for all histories without set_prob on the field."
],
"C23": [
"proved",
"Slicing by values that occur exactly once, any set of keys, axes in key order."
],
"C230": [
"proved",
"False of the code: a field has it exactly if isiconic is true of all variables (C230_present_iff), which sympy distributions given at once do not make it."
],
"C231": [
"proved",
"False of the code: the exact behaviour is proved for every scale."
],
"C232": [
"proved",
"False of the code: C232_samples_refuted is the exact condition under which the call returns (no accepted sample); C232_distributions_refuted the same for distributions."
],
"C233": [
"proved",
"C233_gathered; alignment holds exactly without gaps (C233_aligned_iff)."
],
"C234": [
"proved",
"False of the code for scaled steps after a set or transformation has changed; the value of eval_length and what refreshes the lengths are proved."
],
"C235": [
"proved",
"False of the code for real variables; exactly when len(x) returns and what, and what v in x tells, are proved."
],
"C236": [
"proved",
"False of the code for repeated values where numpy.isin sorts (sets of ten members or more, unless it makes a table of integers); membership of distinct values is proved."
],
"C237": [
"proved",
"False of the code for shared lists; proved are independence over every program that does not use the list of the variable (C237_independent), that sets which are no lists are not shared (C237_fresh), and that assignments of lists refine the model of the setter used elsewhere (C237_assigned)."
],
"C238": [
"proved",
"False of the code for refused assignments (C238_prob_refuted, for every distribution and every array of another shape); acceptance, what stays and consistency after any accepted sequence are proved."
],
"C239": [
"proved",
"False of the code: the exact effect is proved, with the iff for probabilities that stay. The logarithmic scale of factor one written as a complex number is excluded, as elsewhere."
],
"C24": [
"proved",
"Exponents are natural numbers in the model. Weighted mean, bounds and invariance under scaling are proved for every distribution whose columns have axes of their own."
],
"C240": [
"proved",
"False of the code for refused names; the effect of accepted names and an iff for consistency are proved."
],
"C241": [
"proved",
"False of the code; when assignments are accepted, what follows them and what stays is proved (C241_dims), with an iff for d[k] = values. The state left by a refused assignment of axes is not modelled."
],
"C242": [
"proved",
"Proved for values that are given; False of the code for x.vtype = None exactly if the set has an infinity, by an iff. numpy's choice of a type for mixed lists is modelled by VariableModel.promote and stated in VType_Spec."
],
"C243": [
"proved",
"Proved for marginalise, marginal, prod, rescaled, sorted by a variable with an axis, and conditionalise off scale one or with a marginal column left over, for programs of any length (C243_own, C243_others). False of the code for the others. Which numpy operations return views is modelled in ShareModel, not derived from numpy."
],
"C244": [
"proved",
"False of the code, by an iff for when it is True (C244_true_iff). What does hold: if it is False then values or the order of variables differ (C244_false). Comparison of values of different kinds, of sets and of arrays of different shapes is an arbitrary function."
],
"C25": [
"proved",
"Proved for every distribution whose axes are non-negative numbers, columns sharing axes included. For axes given as negative numbers it is false of the code: C25_negative_axis_refuted."
],
"C26": [
"proved",
"For distributions without conditionals over any column grid with ordered edges: each probability goes to the one cell that holds its values, entries are the sums over their cells, the total is unchanged (linear scales; under log scales the entries are proved where the sums reach the smallest float)."
],
"C27": [
"proved",
"False of the code for scales other than linear 1 and log 0: proved as stated for the plain scales (C27_product), and that it gives the product exactly if the factor is one or the product zero (C27_product_iff), with axes in key order."
],
"C28": [
"proved",
"Holds for injective renamings; false of the code when a scalar is renamed to the name of a later unmapped marginal (C28_rekey_drops_refuted)."
],
"C29": [
"proved",
"False of the code: the negation is proved for every distribution with a column."
],
"C30": [
"proved",
"For several distributions at once; the text of scalars' names is rebuilt."
],
"C31": [
"proved",
"False of the code: exact characterisation proved."
],
"C32": [
"proved",
"False of the code: proved that writing leaves a distribution unchanged iff it has no scalar variable, exactly what changes, and that afterwards no distribution can be built on its dims. h5py behaviour is an assumption stated in PDFile.v."
],
"C33": [
"proved",
"Proved for samples with at least one numeric variable; the all-counts case is proved to raise."
],
"C34": [
"proved",
""
],
"C35": [
"proved",
"Round trip proved exactly for n < 2^63 (iff); digits minimal; arrays too."
],
"C36": [
"proved",
""
],
"C37": [
"proved",
"False of the code: negation proved for all tables."
],
"C38": [
"proved",
"n = 1 without exclusions is the middle point; n <= 0 or None draws from [a,b)."
],
"C39": [
"proved",
"False of the code for one-element bool sets (refuted separately)."
],
"C40": [
"proved",
"Arrays and symmetric intervals proved; half-open scalars characterised exactly. Callable deltas not modelled."
],
"C41": [
"proved",
"For int and interval variables in every scale, bool variables in the default scale; the violation for bool variables in other scales is C41_bool_log_refuted and C41_bool_linear_refuted."
],
"C42": [
"proved",
"np.random.uniform is an arbitrary number u; the values of the set are distinct. Entries and sampled steps for single matrices and pairs."
],
"C43": [
"proved",
"False of the code: C43_vtype_alone_refuted proves the error for every name and type; C43_positional that the type works in the place of the set."
],
"C44": [
"proved",
"Routed call proved for all non-interfering mappings (C44_order_call); False of the code otherwise: a keyword overwritten by an earlier entry reaches nobody (C44_overwritten_keyword_refuted); a mapped keyword that is not supplied raises."
],
"C45": [
"proved",
"Differences proved for all non-interfering mappings; False of the code when the mapping also passes x itself (C45_value_and_difference_refuted)."
],
"C46": [
"proved",
"False of the code. Proved: the exact condition (iff) under which the dependences are unchanged, that outputs of a rejected call are taken for good, and what an accepted call does."
],
"C47": [
"proved",
"False of the code for collections added to an existing field and for plain variables in random fields; construction and single additions proved."
],
"C48": [
"proved",
"Proved for all fields and values in which shared keys hold arrays and every value is scalar exactly if it is a number or {0}; the two excluded cases are refuted."
],
"C49": [
"proved",
"Proved without scaling; exact (wrong) norm proved with scaling; the dictionary case refuted."
],
"C50": [
"proved",
"The statement is false of chains and true otherwise; both are proved: classification for x|y (exactly when disjoint), parallel compositions, all graphs that are neither serial nor parallel; refuted for every chain."
],
"C51": [
"proved",
"Any number of samplers, any schedule, without reset() (see C55)."
],
"C52": [
"proved",
"The engine (proposal, transition and probability evaluation) is a parameter."
],
"C53": [
"proved",
"For engines that do not raise; the counters and chain state are reset when the sampler ends."
],
"C54": [
"proved",
"False of the code. Proved exactly: what a walk of a sampler stepped k times returns and the state it leaves, for every bound, k and n."
],
"C55": [
"proved",
"False of the code: the negation is proved for all histories."
],
"C56": [
"proved",
"All linear scales, all non-negative probabilities (also below the smallest positive float)."
],
"C57": [
"proved",
"False of the code: proved that balance holds iff q = r (linear), and on the log scale iff the density is 1 or the probabilities are equal."
],
"C58": [
"proved",
"False of the code for small probabilities: the exact condition is proved (iff)."
],
"C59": [
"proved",
"np.linalg.inv enters as a function assumed to invert the one minor it is applied to; scipy's normal distribution function enters as Phi."
],
"C60": [
"proved",
"False of the code: proved exactly when it holds (conditional mean equals unconditional mean), and the shifted interval the samples do lie in."
],
"C61": [
"proved",
"False of the code: the negation is proved for all histories."
],
"C62": [
"proved",
"np.empty rows give 0/0, which the real model reads as 0."
],
"C63": [
"proved",
"False of the code: characterised for two labels; dims required always."
],
"C64": [
"proved",
""
],
"C65": [
"proved",
"Grid: all transformations mapping the limits to numbers; draws: untransformed, exact iff."
],
"C66": [
"proved",
"False of the code: equality with the default call proved for all states."
],
"C67": [
"proved",
"Construction and vset assignment proved; vtype assignment refuted for every variable with a value in its set."
],
"C68": [
"proved",
"False of the code: universal refutation."
],
"C69": [
"proved",
"False of the code: universal refutation."
],
"C70": [
"proved",
"False of the code: universal refutation."
],
"C71": [
"proved",
"Ranges proved; tuple behaviour of bools characterised exactly."
],
"C72": [
"proved",
"False of the code: independence of the flag proved."
],
"C73": [
"proved",
"False of the code: C73_array_refuted proves that no call returns."
],
"C74": [
"proved",
"False of the code: C74_prob_scale_refuted. scipy and sympy distributions are not modelled."
],
"C75": [
"proved",
"False of the code: C75_log_scale_ignored_refuted proves that the variable is the one made without a scale."
],
"C76": [
"proved",
"Linear scales: C76_default_step; the violation in log scale is C76_log_refuted."
],
"C77": [
"proved",
"False of the code: C77_float_refuted, C77_many_refuted."
],
"C78": [
"proved",
"C78_reassign for uniformity; C78_transition_lost_refuted for the lost transition."
],
"C79": [
"proved",
"C79_bernoulli and C79_draws in the default scale, C79_log_refuted for log scale."
],
"C80": [
"proved",
""
],
"C81": [
"proved",
"False of the code: len is n+1 for every n (C81_tuple_length_refuted), and an empty tuple always raises (C81_empty_tuple_refuted)."
],
"C82": [
"proved",
""
],
"C83": [
"proved",
"False of the code: after a rejected set_order every call behaves as that of an expression constructed with the rejected order (C83_rejected_order_refuted)."
],
"C84": [
"proved",
"Proved for Expression (C84_given_keywords_override); False of Func, where stored keywords win (C84_func_stored_override_refuted)."
],
"C85": [
"proved",
""
],
"C86": [
"proved",
"False of the code for parameterless lambdas (C86_keywords_dropped_refuted), which refuse positional arguments (C86_arguments_refused); for all other functions C84_given_keywords_override shows every keyword is passed."
],
"C87": [
"proved",
"Immediate calls func[i](...) proved independent of any history (C87_indexed_call_history); False of the code for held handles (C87_held_handle_refuted, C87_second_call_refuted)."
],
"C88": [
"proved",
"False of the code. Proved: always rejected; closes the functional for ever in the two cases."
],
"C89": [
"proved",
"Proved: the exact positional and keyword arguments passed when all unneeded inputs are supplied; the call raises when one is missing."
],
"C90": [
"proved",
"False of the code. Proved: every attempt in every history raises and changes nothing."
],
"C91": [
"proved",
"Proved, and stronger: even a rejected function fixes the kind."
],
"C92": [
"proved",
"False of the code for random variables united with plain ones; proved for operands of one kind."
],
"C93": [
"proved",
"False of the code: proved that the steps do not depend on the dictionary at all, and that there is none if the variables have no default."
],
"C94": [
"proved",
"Numbers (not one-element lists)."
],
"C95": [
"proved",
"Proved for single names; refuted for shared keys."
],
"C96": [
"proved",
"Explicit dependences (add_deps) are not modelled."
],
"C97": [
"proved",
"False of the code: the exact failures are proved for all argument lists."
],
"C98": [
"proved",
"For variables and fields see also C50_conditional; false of the code for every dependence operand."
],
"C99": [
"proved",
"Both the valid case and the failures are proved for all operands."
]
}