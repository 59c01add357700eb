{
 "claims": [
  {
   "property": "C01",
   "status": "proved",
   "theorems": [
    "C01_rescale_preserves_denotation",
    "C01_rescale_nearly_preserves_denotation",
    "C01_unit_log_scale_refuted"
   ],
   "note": "All pairs of scales; the log scale with offset exactly 1 (1+0j) is mistaken for linear 1: refuted separately, excluded by hypothesis."
  },
  {
   "property": "C02",
   "status": "proved",
   "theorems": [
    "C02_rescale_path_independent",
    "C02_rescale_round_trip"
   ],
   "note": "Round trip and path independence for representable probabilities."
  },
  {
   "property": "C03",
   "status": "proved",
   "theorems": [
    "C03_log_exp_safe_monotone_inverse"
   ],
   "note": ""
  },
  {
   "property": "C04",
   "status": "proved",
   "theorems": [
    "C04_eval_pscale_canonical",
    "C04_eval_pscale_meaning"
   ],
   "note": ""
  },
  {
   "property": "C05",
   "status": "proved",
   "theorems": [
    "C05_prod_rule_linear",
    "C05_prod_rule_plain_mix"
   ],
   "note": "All linear scales; any mix of plain linear and plain log scales."
  },
  {
   "property": "C06",
   "status": "proved",
   "theorems": [
    "C06_prod_pscale_correct_iff",
    "C06_prod_pscale_refuted"
   ],
   "note": "The claim is false of the code. Proved: exact characterisation of when it holds (iff no log scale is involved or the factors cancel), plus a refutation."
  },
  {
   "property": "C07",
   "status": "proved",
   "theorems": [
    "C07_requested_natural_scale",
    "C07_requested_linear_scale_refuted",
    "C07_requested_log_scale_raises_refuted",
    "C07_requested_scale_iff"
   ],
   "note": "False of the code. Proved exactly: which requested scales raise, and for the others that the result means the same if and only if the scale has the natural scale's factor (or the value is a linear zero)."
  },
  {
   "property": "C08",
   "status": "proved",
   "theorems": [
    "C08_div_prob_quotient",
    "C08_div_prob_linear_never_divides_by_zero",
    "C08_requested_plain_log_scale_refuted"
   ],
   "note": "A requested plain log scale (0j) is ignored: refuted separately."
  },
  {
   "property": "C09",
   "status": "proved",
   "theorems": [
    "C09_name_round_trip"
   ],
   "note": ""
  },
  {
   "property": "C10",
   "status": "proved",
   "theorems": [
    "C10_parenthesised_names_refuted"
   ],
   "note": "The claim is false of the code: the negation is proved for every parenthesised name."
  },
  {
   "property": "C11",
   "status": "proved",
   "theorems": [
    "C11_accepts_iff",
    "C11_layout",
    "C11_shape_lists_sizes",
    "C11_dims_omitted"
   ],
   "note": "Construction accepted iff the values and dims describe a distribution; layout of the result in both modes. With dims omitted the j-th column only has j+1 axes, see C104."
  },
  {
   "property": "C12",
   "status": "proved",
   "theorems": [
    "C12_length_never_matters",
    "C12_shared_axis_refuted"
   ],
   "note": "False of the code: proved that lengths never influence acceptance and that the later column's length is taken."
  },
  {
   "property": "C13",
   "status": "proved",
   "theorems": [
    "C13_marginalise_sums_out",
    "C13_marginal_complements"
   ],
   "note": "Axes in key order (what every constructor without explicit dims, and every product, produces); other layouts under C15."
  },
  {
   "property": "C14",
   "status": "proved",
   "theorems": [
    "C14_total_conserved",
    "C14_composes"
   ],
   "note": "Axes in key order."
  },
  {
   "property": "C15",
   "status": "proved",
   "theorems": [
    "C15_aligned_layouts",
    "C15_correct_iff",
    "C15_placed",
    "C15_shared_counted_refuted",
    "C15_transposed_raises_refuted",
    "C15_exchanged_refuted",
    "C15_shared_axis_raises_refuted"
   ],
   "note": "False of the code, characterised exactly: C15_correct_iff says for which layouts the result is correct, C15_placed where every remaining variable goes in any distribution, shared axes included; the statement is refuted on the transposed, exchanged and shared families."
  },
  {
   "property": "C16",
   "status": "proved",
   "theorems": [
    "C16_conditional",
    "C16_normalised",
    "C16_no_column_left_refuted"
   ],
   "note": "Proved as stated whenever a marginal column is left; when none is left the code leaves the probabilities undivided, proved as C16_no_column_left_refuted."
  },
  {
   "property": "C17",
   "status": "proved",
   "theorems": [
    "C17_conditionalise_iff",
    "C17_inner_column_refuted",
    "C17_first_column_refuted"
   ],
   "note": "False of the code: proved is the exact condition for success (C17_conditionalise_iff, for distributions in name order) and that every inner column raises."
  },
  {
   "property": "C18",
   "status": "proved",
   "theorems": [
    "C18_product_pointwise",
    "C18_common_column_refuted"
   ],
   "note": "Proved for any number of factors, sizes and axis orders, with disjoint marginals, counted variables (x={n}) each in one factor only, columns spelled alike (all x or all x=[]) in the factors that share them, and unbound column conditionals in one factor only; False of the code for common column conditionals (refuted). Factors all of scalars are covered if there are at least two, each with a marginal."
  },
  {
   "property": "C19",
   "status": "proved",
   "theorems": [
    "C19_bayes",
    "C19_division_returns_likelihood"
   ],
   "note": "For every prior and likelihood to which the product rule applies (any number of variables and sizes, factors in either order) product then conditionalise gives prior*likelihood/evidence, and product / prior gives the likelihood. Within the floating point range npz..npi, the code's clamps, stated as hypotheses."
  },
  {
   "property": "C20",
   "status": "proved",
   "theorems": [
    "C20_product_overlap_raises"
   ],
   "note": ""
  },
  {
   "property": "C21",
   "status": "proved",
   "theorems": [
    "C21_product_mismatch_raises",
    "C21_scalar_mismatch_refuted",
    "C21_scalars_accepted_refuted"
   ],
   "note": "Proved for array-valued variables (named plainly in both factors) which differ beyond np.allclose's tolerance from the first holder. False of the code for scalars: C21_scalar_mismatch_refuted says that any accepted product holds the first holder's value whatever the others hold, C21_scalars_accepted_refuted that such products are accepted."
  },
  {
   "property": "C22",
   "status": "proved",
   "theorems": [
    "C22_division_pointwise",
    "C22_conditional_column_refuted",
    "C22_division_iff",
    "C22_division_places",
    "C22_axis_order_refuted"
   ],
   "note": "False of the code as stated. Proved exactly: which divisions of matching distributions succeed (iff), what the quotient is for every axis order, that it is pointwise when the orders agree, and that it exchanges the variables when they do not."
  },
  {
   "property": "C23",
   "status": "proved",
   "theorems": [
    "C23_slice"
   ],
   "note": "Slicing by values that occur exactly once, any set of keys, axes in key order."
  },
  {
   "property": "C24",
   "status": "proved",
   "theorems": [
    "C24_weighted_mean",
    "C24_between",
    "C24_scale_invariant",
    "C24_vanishing"
   ],
   "note": "Exponents are natural numbers in the model. Weighted mean, bounds and invariance under scaling are proved for every distribution whose columns have axes of their own."
  },
  {
   "property": "C25",
   "status": "proved",
   "theorems": [
    "C25_sorted",
    "C25_valid_laid_out",
    "C25_sorted_scalar",
    "C25_negative_axis_refuted"
   ],
   "note": "Proved for every distribution whose axes are non-negative numbers, columns sharing axes included. For axes given as negative numbers it is false of the code: C25_negative_axis_refuted."
  },
  {
   "property": "C26",
   "status": "proved",
   "theorems": [
    "C26_one_cell",
    "C26_cells_sum",
    "C26_total",
    "C26_scalar_refused"
   ],
   "note": "For distributions without conditionals over any column grid with ordered edges: each probability goes to the one cell that holds its values, entries are the sums over their cells, the total is unchanged (linear scales; under log scales the entries are proved where the sums reach the smallest float)."
  },
  {
   "property": "C27",
   "status": "proved",
   "theorems": [
    "C27_product",
    "C27_extra_factor",
    "C27_product_iff",
    "C27_log_as_linear_refuted",
    "C27_scalar_refused"
   ],
   "note": "False of the code for scales other than linear 1 and log 0: proved as stated for the plain scales (C27_product), and that it gives the product exactly if the factor is one or the product zero (C27_product_iff), with axes in key order."
  },
  {
   "property": "C28",
   "status": "proved",
   "theorems": [
    "C28_rekey_renames",
    "C28_rekey_drops_refuted"
   ],
   "note": "Holds for injective renamings; false of the code when a scalar is renamed to the name of a later unmapped marginal (C28_rekey_drops_refuted)."
  },
  {
   "property": "C29",
   "status": "proved",
   "theorems": [
    "C29_redim_raises_refuted",
    "C29_redim_attribute_error"
   ],
   "note": "False of the code: the negation is proved for every distribution with a column."
  },
  {
   "property": "C30",
   "status": "proved",
   "theorems": [
    "C30_serialise_round_trip"
   ],
   "note": "For several distributions at once; the text of scalars' names is rebuilt."
  },
  {
   "property": "C31",
   "status": "proved",
   "theorems": [
    "C31_serialise_loses_refuted",
    "C31_last_one_is_kept"
   ],
   "note": "False of the code: exact characterisation proved."
  },
  {
   "property": "C32",
   "status": "proved",
   "theorems": [
    "C32_effect_of_writing",
    "C32_unchanged_iff",
    "C32_written_is_unusable_refuted"
   ],
   "note": "False of the code: proved that writing leaves a distribution unchanged iff it has no scalar variable, exactly what changes, and that afterwards no distribution can be built on its dims. h5py behaviour is an assumption stated in PDFile.v."
  },
  {
   "property": "C33",
   "status": "proved",
   "theorems": [
    "C33_summate_concatenates",
    "C33_counts_raise_refuted"
   ],
   "note": "Proved for samples with at least one numeric variable; the all-counts case is proved to raise."
  },
  {
   "property": "C34",
   "status": "proved",
   "theorems": [
    "C34_ismonotonic_exact"
   ],
   "note": ""
  },
  {
   "property": "C35",
   "status": "proved",
   "theorems": [
    "C35_code_round_trip",
    "C35_no_superfluous_digits",
    "C35_code_array"
   ],
   "note": "Round trip proved exactly for n < 2^63 (iff); digits minimal; arrays too."
  },
  {
   "property": "C36",
   "status": "proved",
   "theorems": [
    "C36_counts"
   ],
   "note": ""
  },
  {
   "property": "C37",
   "status": "proved",
   "theorems": [
    "C37_smoothing_refuted"
   ],
   "note": "False of the code: negation proved for all tables."
  },
  {
   "property": "C38",
   "status": "proved",
   "theorems": [
    "C38_uniform_points",
    "C38_uniform_one",
    "C38_uniform_random"
   ],
   "note": "n = 1 without exclusions is the middle point; n <= 0 or None draws from [a,b)."
  },
  {
   "property": "C39",
   "status": "proved",
   "theorems": [
    "C39_evenly",
    "C39_zero_and_none",
    "C39_single_bool_refuted"
   ],
   "note": "False of the code for one-element bool sets (refuted separately)."
  },
  {
   "property": "C40",
   "status": "proved",
   "theorems": [
    "C40_bounded_interval",
    "C40_bounded_answers",
    "C40_half_open_low_refuted",
    "C40_half_open_high_refuted",
    "C40_bounded_discrete",
    "C40_discrete_membership_refuted"
   ],
   "note": "Arrays and symmetric intervals proved; half-open scalars characterised exactly. Callable deltas not modelled."
  },
  {
   "property": "C41",
   "status": "proved",
   "theorems": [
    "C41_default_uniform",
    "C41_sums_to_one",
    "C41_bool_log_refuted",
    "C41_bool_linear_refuted"
   ],
   "note": "For int and interval variables in every scale, bool variables in the default scale; the violation for bool variables in other scales is C41_bool_log_refuted and C41_bool_linear_refuted."
  },
  {
   "property": "C42",
   "status": "proved",
   "theorems": [
    "C42_sampling_interval",
    "C42_step_samples",
    "C42_step_given"
   ],
   "note": "np.random.uniform is an arbitrary number u; the values of the set are distinct. Entries and sampled steps for single matrices and pairs."
  },
  {
   "property": "C43",
   "status": "proved",
   "theorems": [
    "C43_vtype_alone_refuted",
    "C43_positional"
   ],
   "note": "False of the code: C43_vtype_alone_refuted proves the error for every name and type; C43_positional that the type works in the place of the set."
  },
  {
   "property": "C44",
   "status": "proved",
   "theorems": [
    "C44_order_call",
    "C44_overwritten_keyword_refuted",
    "C44_missing_keyword"
   ],
   "note": "Routed call proved for all non-interfering mappings (C44_order_call); False of the code otherwise: a keyword overwritten by an earlier entry reaches nobody (C44_overwritten_keyword_refuted); a mapped keyword that is not supplied raises."
  },
  {
   "property": "C45",
   "status": "proved",
   "theorems": [
    "C45_delta_call",
    "C45_value_and_difference_refuted"
   ],
   "note": "Differences proved for all non-interfering mappings; False of the code when the mapping also passes x itself (C45_value_and_difference_refuted)."
  },
  {
   "property": "C46",
   "status": "proved",
   "theorems": [
    "C46_accepted_function",
    "C46_rejected_call_unchanged_refuted",
    "C46_outputs_taken"
   ],
   "note": "False of the code. Proved: the exact condition (iff) under which the dependences are unchanged, that outputs of a rejected call are taken for good, and what an accepted call does."
  },
  {
   "property": "C47",
   "status": "proved",
   "theorems": [
    "C47_construction",
    "C47_plain_refuted",
    "C47_add_one",
    "C47_add_again",
    "C47_add_collection_refuted",
    "C47_refused_variables_appear"
   ],
   "note": "False of the code for collections added to an existing field and for plain variables in random fields; construction and single additions proved."
  },
  {
   "property": "C48",
   "status": "proved",
   "theorems": [
    "C48_axes",
    "C48_axes_distinct",
    "C48_scalars",
    "C48_scalar_takes_axis_refuted",
    "C48_shared_scalars_take_axis_refuted"
   ],
   "note": "Proved for all fields and values in which shared keys hold arrays and every value is scalar exactly if it is a number or {0}; the two excluded cases are refuted."
  },
  {
   "property": "C49",
   "status": "proved",
   "theorems": [
    "C49_radius",
    "C49_scaled_refuted",
    "C49_scaled_equal_lengths",
    "C49_exempt_refuted"
   ],
   "note": "Proved without scaling; exact (wrong) norm proved with scaling; the dictionary case refuted."
  },
  {
   "property": "C50",
   "status": "proved",
   "theorems": [
    "C50_conditional",
    "C50_any_graph",
    "C50_parallel",
    "C50_chain_refuted",
    "C50_chain_accepted",
    "C50_long_chain_refuted"
   ],
   "note": "The statement is false of chains and true otherwise; both are proved: classification for x|y (exactly when disjoint), parallel compositions, all graphs that are neither serial nor parallel; refuted for every chain."
  },
  {
   "property": "C51",
   "status": "proved",
   "theorems": [
    "C51_samplers_independent"
   ],
   "note": "Any number of samplers, any schedule, without reset() (see C55)."
  },
  {
   "property": "C52",
   "status": "proved",
   "theorems": [
    "C52_samples_form_a_trajectory"
   ],
   "note": "The engine (proposal, transition and probability evaluation) is a parameter."
  },
  {
   "property": "C53",
   "status": "proved",
   "theorems": [
    "C53_stop_bounds_samples"
   ],
   "note": "For engines that do not raise; the counters and chain state are reset when the sampler ends."
  },
  {
   "property": "C54",
   "status": "proved",
   "theorems": [
    "C54_walk_of_bounded_sampler",
    "C54_walk_discards_a_sample_refuted",
    "C54_walk_exact"
   ],
   "note": "False of the code. Proved exactly: what a walk of a sampler stepped k times returns and the state it leaves, for every bound, k and n."
  },
  {
   "property": "C55",
   "status": "proved",
   "theorems": [
    "C55_old_samplers_raise_after_reset_refuted",
    "C55_reset_entangles_samplers_refuted"
   ],
   "note": "False of the code: the negation is proved for all histories."
  },
  {
   "property": "C56",
   "status": "proved",
   "theorems": [
    "C56_metropolis_detailed_balance",
    "C56_metropolis_accepts_iff"
   ],
   "note": "All linear scales, all non-negative probabilities (also below the smallest positive float)."
  },
  {
   "property": "C57",
   "status": "proved",
   "theorems": [
    "C57_hastings_inverted_refuted",
    "C57_hastings_log_scale_refuted"
   ],
   "note": "False of the code: proved that balance holds iff q = r (linear), and on the log scale iff the density is 1 or the probabilities are equal."
  },
  {
   "property": "C58",
   "status": "proved",
   "theorems": [
    "C58_log_metropolis_iff"
   ],
   "note": "False of the code for small probabilities: the exact condition is proved (iff)."
  },
  {
   "property": "C59",
   "status": "proved",
   "theorems": [
    "C59_samples_conditional_gaussian",
    "C59_conditional_unique"
   ],
   "note": "np.linalg.inv enters as a function assumed to invert the one minor it is applied to; scipy's normal distribution function enters as Phi."
  },
  {
   "property": "C60",
   "status": "proved",
   "theorems": [
    "C60_limits_move_with_mean",
    "C60_within_limits_iff"
   ],
   "note": "False of the code: proved exactly when it holds (conditional mean equals unconditional mean), and the shifted interval the samples do lie in."
  },
  {
   "property": "C61",
   "status": "proved",
   "theorems": [
    "C61_proposal_without_transition_accepts_all_refuted",
    "C61_scores_without_predecessor"
   ],
   "note": "False of the code: the negation is proved for all histories."
  },
  {
   "property": "C62",
   "status": "proved",
   "theorems": [
    "C62_likelihood_of_request"
   ],
   "note": "np.empty rows give 0/0, which the real model reads as 0."
  },
  {
   "property": "C63",
   "status": "proved",
   "theorems": [
    "C63_other_axis_order_refuted",
    "C63_dims_required_refuted"
   ],
   "note": "False of the code: characterised for two labels; dims required always."
  },
  {
   "property": "C64",
   "status": "proved",
   "theorems": [
    "C64_interval_membership",
    "C64_discrete_membership"
   ],
   "note": ""
  },
  {
   "property": "C65",
   "status": "proved",
   "theorems": [
    "C65_grid_inside",
    "C65_draw_inside_iff"
   ],
   "note": "Grid: all transformations mapping the limits to numbers; draws: untransformed, exact iff."
  },
  {
   "property": "C66",
   "status": "proved",
   "theorems": [
    "C66_zero_delta_refuted",
    "C66_zero_delta_moves_refuted"
   ],
   "note": "False of the code: equality with the default call proved for all states."
  },
  {
   "property": "C67",
   "status": "proved",
   "theorems": [
    "C67_constructor_well_made",
    "C67_assignment_well_made",
    "C67_either_order",
    "C67_retype_refuted"
   ],
   "note": "Construction and vset assignment proved; vtype assignment refuted for every variable with a value in its set."
  },
  {
   "property": "C68",
   "status": "proved",
   "theorems": [
    "C68_documented_forms_refuted"
   ],
   "note": "False of the code: universal refutation."
  },
  {
   "property": "C69",
   "status": "proved",
   "theorems": [
    "C69_refused_set_stored_refuted"
   ],
   "note": "False of the code: universal refutation."
  },
  {
   "property": "C70",
   "status": "proved",
   "theorems": [
    "C70_lhv_refuted"
   ],
   "note": "False of the code: universal refutation."
  },
  {
   "property": "C71",
   "status": "proved",
   "theorems": [
    "C71_bool_parity",
    "C71_random_ranges",
    "C71_bool_tuple_refuted"
   ],
   "note": "Ranges proved; tuple behaviour of bools characterised exactly."
  },
  {
   "property": "C72",
   "status": "proved",
   "theorems": [
    "C72_scale_refuted"
   ],
   "note": "False of the code: independence of the flag proved."
  },
  {
   "property": "C73",
   "status": "proved",
   "theorems": [
    "C73_array_refuted"
   ],
   "note": "False of the code: C73_array_refuted proves that no call returns."
  },
  {
   "property": "C74",
   "status": "proved",
   "theorems": [
    "C74_prob_scale_refuted"
   ],
   "note": "False of the code: C74_prob_scale_refuted. scipy and sympy distributions are not modelled."
  },
  {
   "property": "C75",
   "status": "proved",
   "theorems": [
    "C75_log_scale_ignored_refuted"
   ],
   "note": "False of the code: C75_log_scale_ignored_refuted proves that the variable is the one made without a scale."
  },
  {
   "property": "C76",
   "status": "proved",
   "theorems": [
    "C76_default_step",
    "C76_log_refuted"
   ],
   "note": "Linear scales: C76_default_step; the violation in log scale is C76_log_refuted."
  },
  {
   "property": "C77",
   "status": "proved",
   "theorems": [
    "C77_float_refuted",
    "C77_many_refuted"
   ],
   "note": "False of the code: C77_float_refuted, C77_many_refuted."
  },
  {
   "property": "C78",
   "status": "proved",
   "theorems": [
    "C78_reassign",
    "C78_transition_lost_refuted"
   ],
   "note": "C78_reassign for uniformity; C78_transition_lost_refuted for the lost transition."
  },
  {
   "property": "C79",
   "status": "proved",
   "theorems": [
    "C79_bernoulli",
    "C79_draws",
    "C79_log_refuted"
   ],
   "note": "C79_bernoulli and C79_draws in the default scale, C79_log_refuted for log scale."
  },
  {
   "property": "C80",
   "status": "proved",
   "theorems": [
    "C80_functional_samples"
   ],
   "note": ""
  },
  {
   "property": "C81",
   "status": "proved",
   "theorems": [
    "C81_tuple_length_refuted",
    "C81_empty_tuple_refuted"
   ],
   "note": "False of the code: len is n+1 for every n (C81_tuple_length_refuted), and an empty tuple always raises (C81_empty_tuple_refuted)."
  },
  {
   "property": "C82",
   "status": "proved",
   "theorems": [
    "C82_tuple_index",
    "C82_multiple_not_called",
    "C82_single"
   ],
   "note": ""
  },
  {
   "property": "C83",
   "status": "proved",
   "theorems": [
    "C83_rejected_order_refuted"
   ],
   "note": "False of the code: after a rejected set_order every call behaves as that of an expression constructed with the rejected order (C83_rejected_order_refuted)."
  },
  {
   "property": "C84",
   "status": "proved",
   "theorems": [
    "C84_given_keywords_override",
    "C84_func_stored_override_refuted"
   ],
   "note": "Proved for Expression (C84_given_keywords_override); False of Func, where stored keywords win (C84_func_stored_override_refuted)."
  },
  {
   "property": "C85",
   "status": "proved",
   "theorems": [
    "C85_sole_dictionary"
   ],
   "note": ""
  },
  {
   "property": "C86",
   "status": "proved",
   "theorems": [
    "C86_keywords_dropped_refuted",
    "C86_arguments_refused"
   ],
   "note": "False of the code for parameterless lambdas (C86_keywords_dropped_refuted), which refuse positional arguments (C86_arguments_refused); for all other functions C84_given_keywords_override shows every keyword is passed."
  },
  {
   "property": "C87",
   "status": "proved",
   "theorems": [
    "C87_indexed_call_history",
    "C87_held_handle_refuted",
    "C87_second_call_refuted"
   ],
   "note": "Immediate calls func[i](...) proved independent of any history (C87_indexed_call_history); False of the code for held handles (C87_held_handle_refuted, C87_second_call_refuted)."
  },
  {
   "property": "C88",
   "status": "proved",
   "theorems": [
    "C88_delta_function_rejected",
    "C88_delta_function_closes",
    "C88_missing_inputs_close"
   ],
   "note": "False of the code. Proved: always rejected; closes the functional for ever in the two cases."
  },
  {
   "property": "C89",
   "status": "proved",
   "theorems": [
    "C89_call_drops_unneeded_inputs",
    "C89_unneeded_inputs_are_required"
   ],
   "note": "Proved: the exact positional and keyword arguments passed when all unneeded inputs are supplied; the call raises when one is missing."
  },
  {
   "property": "C90",
   "status": "proved",
   "theorems": [
    "C90_dependence_add_func_never_works"
   ],
   "note": "False of the code. Proved: every attempt in every history raises and changes nothing."
  },
  {
   "property": "C91",
   "status": "proved",
   "theorems": [
    "C91_kinds_never_mix"
   ],
   "note": "Proved, and stronger: even a rejected function fixes the kind."
  },
  {
   "property": "C92",
   "status": "proved",
   "theorems": [
    "C92_union",
    "C92_mixed_refuted",
    "C92_associative",
    "C92_idempotent"
   ],
   "note": "False of the code for random variables united with plain ones; proved for operands of one kind."
  },
  {
   "property": "C93",
   "status": "proved",
   "theorems": [
    "C93_dictionary_refuted",
    "C93_dictionary_no_step"
   ],
   "note": "False of the code: proved that the steps do not depend on the dictionary at all, and that there is none if the variables have no default."
  },
  {
   "property": "C94",
   "status": "proved",
   "theorems": [
    "C94_number",
    "C94_own_default"
   ],
   "note": "Numbers (not one-element lists)."
  },
  {
   "property": "C95",
   "status": "proved",
   "theorems": [
    "C95_shared_key_unchecked_refuted",
    "C95_single_key_checked"
   ],
   "note": "Proved for single names; refuted for shared keys."
  },
  {
   "property": "C96",
   "status": "proved",
   "theorems": [
    "C96_union"
   ],
   "note": "Explicit dependences (add_deps) are not modelled."
  },
  {
   "property": "C97",
   "status": "proved",
   "theorems": [
    "C97_three_arguments_refuted",
    "C97_first_field_changed_refuted",
    "C97_rootless_refuted",
    "C97_mixed"
   ],
   "note": "False of the code: the exact failures are proved for all argument lists."
  },
  {
   "property": "C98",
   "status": "proved",
   "theorems": [
    "C98_kinds",
    "C98_or_refuted"
   ],
   "note": "For variables and fields see also C50_conditional; false of the code for every dependence operand."
  },
  {
   "property": "C99",
   "status": "proved",
   "theorems": [
    "C99_field_and",
    "C99_dependence_and_refuted",
    "C99_variable_and_refuted",
    "C99_variable_conditioned_refuted"
   ],
   "note": "Both the valid case and the failures are proved for all operands."
  },
  {
   "property": "C100",
   "status": "proved",
   "theorems": [
    "C100_desuffix",
    "C100_no_suffix_refuted"
   ],
   "note": "True if some key is primed (AssertionError exactly if two names coincide); false, for every dictionary, if none is."
  },
  {
   "property": "C101",
   "status": "proved",
   "theorems": [
    "C101_get_suffixed"
   ],
   "note": ""
  },
  {
   "property": "C102",
   "status": "proved",
   "theorems": [
    "C102_parallel",
    "C102_serial_refuted"
   ],
   "note": "True in parallel on linear scales; false in series, for all chains. The constituents are abstract functions."
  },
  {
   "property": "C103",
   "status": "proved",
   "theorems": [
    "C103_two_sets_rejected",
    "C103_no_set_rejected"
   ],
   "note": ""
  },
  {
   "property": "C104",
   "status": "proved",
   "theorems": [
    "C104_omitted_dims_refuted"
   ],
   "note": "False of the code: C104_omitted_dims_refuted gives a square table whose mean is computed as 3 instead of 2."
  },
  {
   "property": "C105",
   "status": "proved",
   "theorems": [
    "C105_conditionals_kept_refuted"
   ],
   "note": "False of the code: proved that whenever remarginalise returns a distribution it has no conditional variable."
  },
  {
   "property": "C106",
   "status": "proved",
   "theorems": [
    "C106_first_axis",
    "C106_other_axis_refuted"
   ],
   "note": "Exact on the first axis (C106_first_axis); refuted for every other axis, where the call always raises (C106_other_axis_refuted)."
  },
  {
   "property": "C107",
   "status": "proved",
   "theorems": [
    "C107_scalar_ignored_refuted"
   ],
   "note": "Refuted: for every value the result is the distribution itself."
  },
  {
   "property": "C108",
   "status": "proved",
   "theorems": [
    "C108_tuple_open",
    "C108_list_discrete",
    "C108_set_sorted"
   ],
   "note": "Tuples, lists and sets; closed and half-open float lists are C64."
  },
  {
   "property": "C109",
   "status": "proved",
   "theorems": [
    "C109_type_kept",
    "C109_int_by_float"
   ],
   "note": "Perturbations by callables are not modelled."
  },
  {
   "property": "C110",
   "status": "proved",
   "theorems": [
    "C110_all_counted",
    "C110_named_updates",
    "C110_false_not_counted"
   ],
   "note": "The collection; the sum itself is summate (C28-C31)."
  },
  {
   "property": "C111",
   "status": "proved",
   "theorems": [
    "C111_file_round_trip"
   ],
   "note": "h5py behaviour (iteration by name, arrays unchanged) is an assumption of the model, see PDFile.v."
  },
  {
   "property": "C112",
   "status": "proved",
   "theorems": [
    "C112_order_unreadable_refuted"
   ],
   "note": "False of the code: proved that reading always raises KeyError."
  },
  {
   "property": "C113",
   "status": "proved",
   "theorems": [
    "C113_spaces_lost_iff"
   ],
   "note": "False of the code: proved that all are read back iff no variable name has a space."
  },
  {
   "property": "C114",
   "status": "proved",
   "theorems": [
    "C114_quantiles",
    "C114_one_position",
    "C114_within_range",
    "C114_last_value",
    "C114_scalars"
   ],
   "note": "For q > 0, total probability at least the smallest positive float; exact reals."
  },
  {
   "property": "C115",
   "status": "proved",
   "theorems": [
    "C115_monotone_refuted",
    "C115_monotone_gentle_partial",
    "C115_monotone_first_axis_partial"
   ],
   "note": "False of the code: refuted for a family of distributions; proved (partial) for a single column with gentle probabilities and for the first of several axes."
  },
  {
   "property": "C116",
   "status": "proved",
   "theorems": [
    "C116_scale_invariant_refuted",
    "C116_scale_invariant_inner_partial"
   ],
   "note": "False of the code: refuted for a family; proved (partial) for columns not on the last axis."
  },
  {
   "property": "C117",
   "status": "proved",
   "theorems": [
    "C117_single_value_refuted"
   ],
   "note": "False of the code: proved that the result is always the set {1}."
  },
  {
   "property": "C118",
   "status": "proved",
   "theorems": [
    "C118_independent"
   ],
   "note": "Log scales with offsets are excluded (their products are wrong, C06), as are arrays of probabilities (cannot be evaluated, C73)."
  },
  {
   "property": "C119",
   "status": "proved",
   "theorems": [
    "C119_propose"
   ],
   "note": "The condition that no suffixed name equals an existing name is necessary for the in-place renaming of rf.py 595-601."
  },
  {
   "property": "C120",
   "status": "proved",
   "theorems": [
    "C120_step",
    "C120_not_successors_refuted"
   ],
   "note": "False of the code: C120_step gives the exact value, C120_not_successors_refuted the exact condition."
  },
  {
   "property": "C121",
   "status": "proved",
   "theorems": [
    "C121_exchanges",
    "C121_step_back"
   ],
   "note": "For other transitions the probability kept is that of the forward step, as the comment in the code says."
  },
  {
   "property": "C122",
   "status": "proved",
   "theorems": [
    "C122_parts",
    "C122_no_conditionals_refuted"
   ],
   "note": "Proved whenever the side asked for has a variable; false of the code when it has none (refuted: everything is returned)."
  },
  {
   "property": "C123",
   "status": "proved",
   "theorems": [
    "C123_lookup",
    "C123_as_distribution"
   ],
   "note": "lookup proved as an equation with a declarative answer; as_dist proved as an iff on the axes, with the values and axes of the result."
  },
  {
   "property": "C124",
   "status": "proved",
   "theorems": [
    "C124_conditional"
   ],
   "note": ""
  },
  {
   "property": "C125",
   "status": "proved",
   "theorems": [
    "C125_joint",
    "C125_none_refuted"
   ],
   "note": "True for roots given by number, array or number of samples (C125_joint). False of the code for roots left at None: C125_none_refuted shows that the joint call never returns."
  },
  {
   "property": "C126",
   "status": "proved",
   "theorems": [
    "C126_default_refuted",
    "C126_joint_refuted"
   ],
   "note": "False of the code: C126_default_refuted gives the product that is returned and shows that it is the leafs' probability exactly where the roots' is 1 (or the leafs' 0); C126_joint_refuted gives the joint result, leafs times roots squared."
  },
  {
   "property": "C127",
   "status": "proved",
   "theorems": [
    "C127_counted_refuted"
   ],
   "note": "False of the code: C127_counted_refuted proves both for all functions and requests."
  },
  {
   "property": "C128",
   "status": "proved",
   "theorems": [
    "C128_overridden_refuted"
   ],
   "note": "False of the code: C128_overridden_refuted."
  },
  {
   "property": "C129",
   "status": "proved",
   "theorems": [
    "C129_spelling_refuted"
   ],
   "note": "False of the code: C129_spelling_refuted (the columns of all factors that hold x being arrays; scalars are covered by C20 and C21)."
  },
  {
   "property": "C130",
   "status": "proved",
   "theorems": [
    "C130_zero_scale_refuted"
   ],
   "note": "False of the code: C130_zero_scale_refuted."
  },
  {
   "property": "C131",
   "status": "proved",
   "theorems": [
    "C131_rescaled",
    "C131_round_trip"
   ],
   "note": "Scales other than 1+0j (see C01) and not within rounding of each other; probabilities in range."
  },
  {
   "property": "C132",
   "status": "proved",
   "theorems": [
    "C132_metropolis_chain",
    "C132_balance",
    "C132_ratio"
   ],
   "note": "The ratio is clamped below at the smallest positive float (C132_ratio says when that makes no difference)."
  },
  {
   "property": "C133",
   "status": "proved",
   "theorems": [
    "C133_two_way_chain",
    "C133_balance_refuted"
   ],
   "note": "False of the code: C133_two_way_chain gives the chain that is sampled, C133_balance_refuted when it balances (iff)."
  },
  {
   "property": "C134",
   "status": "proved",
   "theorems": [
    "C134_bounded_chain",
    "C134_set_delta_chain",
    "C134_within"
   ],
   "note": "Intervals open at one end only are the subject of C40."
  },
  {
   "property": "C135",
   "status": "proved",
   "theorems": [
    "C135_bool_stays_refuted"
   ],
   "note": "False of the code for bools: the theorem gives the step of real variables and shows that bools stay."
  },
  {
   "property": "C136",
   "status": "proved",
   "theorems": [
    "C136_hastings_chain"
   ],
   "note": "False of the code only where q is not positive: the theorem gives the chain in all cases."
  },
  {
   "property": "C137",
   "status": "proved",
   "theorems": [
    "C137_own_transition"
   ],
   "note": "Proved for single numbers; the arrays of a field's step are modelled only for the variable itself (C42)."
  },
  {
   "property": "C138",
   "status": "proved",
   "theorems": [
    "C138_gibbs_chain"
   ],
   "note": "for every history of the samplers; variables real with given sets, functions elementwise"
  },
  {
   "property": "C139",
   "status": "proved",
   "theorems": [
    "C139_alone",
    "C139_each_once",
    "C139_in_turn_refuted"
   ],
   "note": "False of the code with several samplers: proved for a single sampler (C139_alone, C139_each_once); C139_in_turn_refuted shows for every process that samplers in turn never change their other variables"
  },
  {
   "property": "C140",
   "status": "proved",
   "theorems": [
    "C140_conditional_draws"
   ],
   "note": "matrix inversion and the normal cdf and quantile are parameters; conditional mean and deviation are characterised through the precision matrix"
  },
  {
   "property": "C141",
   "status": "proved",
   "theorems": [
    "C141_by_position",
    "C141_order_refuted"
   ],
   "note": "False of the code: C141_by_position says exactly which draw is made for every order, C141_order_refuted gives a bivariate normal where the two orders give different values of y"
  },
  {
   "property": "C142",
   "status": "proved",
   "theorems": [
    "C142_negative_refuted",
    "C142_never_again"
   ],
   "note": "False of the code: C142_negative_refuted and C142_never_again characterise the behaviour for every negative tsteps"
  },
  {
   "property": "C143",
   "status": "proved",
   "theorems": [
    "C143_reverse_refuted",
    "C143_tuple_refuted"
   ],
   "note": "False of the code: C143_reverse_refuted says for every pair that the reverse step is made of draws by the first function; C143_tuple_refuted says only a function or a CF is accepted"
  },
  {
   "property": "C144",
   "status": "proved",
   "theorems": [
    "C144_metropolis_chain",
    "C144_hastings_chain",
    "C144_balance_refuted"
   ],
   "note": "False of the code: C144_metropolis_chain and C144_hastings_chain give the rule for every process, C144_balance_refuted shows balance iff the density of the draws is symmetric"
  },
  {
   "property": "C145",
   "status": "proved",
   "theorems": [
    "C145_single_rejected"
   ],
   "note": ""
  },
  {
   "property": "C146",
   "status": "proved",
   "theorems": [
    "C146_set_delta_chain"
   ],
   "note": ""
  },
  {
   "property": "C147",
   "status": "proved",
   "theorems": [
    "C147_left_out"
   ],
   "note": ""
  },
  {
   "property": "C148",
   "status": "proved",
   "theorems": [
    "C148_propose"
   ],
   "note": "Proposal function over all variables (set_prop(function)); proposals of the leafs or roots alone are not modelled."
  },
  {
   "property": "C149",
   "status": "proved",
   "theorems": [
    "C149_rejection"
   ],
   "note": "Variables whose vset is an interval; one proposal function for all variables."
  },
  {
   "property": "C150",
   "status": "proved",
   "theorems": [
    "C150_forgotten_refuted"
   ],
   "note": "False of the code: C150_forgotten_refuted shows that for every process and every given number outside the limits, the first sample has it and no later one does. C149 gives the points exactly."
  },
  {
   "property": "C151",
   "status": "proved",
   "theorems": [
    "C151_not_drawn_refuted"
   ],
   "note": "False of the code: C151_not_drawn_refuted, the same random numbers give the same values whatever the proposal function and scores."
  },
  {
   "property": "C152",
   "status": "proved",
   "theorems": [
    "C152_stuck_refuted"
   ],
   "note": "False of the code: C152_stuck_refuted, every sampler stays at its first point for ever."
  },
  {
   "property": "C153",
   "status": "proved",
   "theorems": [
    "C153_no_suffix_refuted"
   ],
   "note": "False of the code: C153_no_suffix_refuted, every such sampler raises TypeError first and is exhausted afterwards."
  },
  {
   "property": "C154",
   "status": "proved",
   "theorems": [
    "C154_summary",
    "C154_left_out"
   ],
   "note": "conditionalise is not modelled."
  },
  {
   "property": "C155",
   "status": "proved",
   "theorems": [
    "C155_step"
   ],
   "note": "Successors given as values (C77, C80 are about drawn ones); values of matrix transitions must be in the set."
  },
  {
   "property": "C156",
   "status": "proved",
   "theorems": [
    "C156_log_refuted",
    "C156_outside_refuted"
   ],
   "note": "False of the code: for every such variable every pair has the probability e without a transition, and every pair outside the set the probability one with the uniform transition."
  },
  {
   "property": "C157",
   "status": "proved",
   "theorems": [
    "C157_unbounded",
    "C157_reset"
   ],
   "note": ""
  },
  {
   "property": "C158",
   "status": "proved",
   "theorems": [
    "C158_accepted",
    "C158_kept_refuted",
    "C158_second_refuted"
   ],
   "note": "Acceptance is proved as stated; the rest is false of the code: the transition of the variable is the rejected one, and the outcome does not depend on the second matrix."
  },
  {
   "property": "C159",
   "status": "proved",
   "theorems": [
    "C159_uniform"
   ],
   "note": ""
  },
  {
   "property": "C160",
   "status": "proved",
   "theorems": [
    "C160_coordinates_refuted"
   ],
   "note": "False of the code: C160_coordinates_refuted gives the probability exactly, the density at the point with its first two coordinates exchanged."
  },
  {
   "property": "C161",
   "status": "proved",
   "theorems": [
    "C161_numbers_refuted"
   ],
   "note": "False of the code: C161_numbers_refuted gives the probability exactly for every order of the request."
  },
  {
   "property": "C162",
   "status": "proved",
   "theorems": [
    "C162_axes_refuted"
   ],
   "note": "False of the code: C162_axes_refuted says exactly when the call raises and what the probabilities are otherwise."
  },
  {
   "property": "C163",
   "status": "proved",
   "theorems": [
    "C163_single_refuted",
    "C163_one_variable_refuted"
   ],
   "note": "False of the code: C163_single_refuted and C163_one_variable_refuted."
  },
  {
   "property": "C164",
   "status": "proved",
   "theorems": [
    "C164_accepted"
   ],
   "note": "C164_accepted, for calls without iid."
  },
  {
   "property": "C165",
   "status": "proved",
   "theorems": [
    "C165_density"
   ],
   "note": ""
  },
  {
   "property": "C166",
   "status": "proved",
   "theorems": [
    "C166_distribution_rescaled",
    "C166_number_refuted"
   ],
   "note": "False of the code for numbers: C166_number_refuted; proved for distributions."
  },
  {
   "property": "C167",
   "status": "proved",
   "theorems": [
    "C167_grid",
    "C167_draws"
   ],
   "note": "An excluded lower limit is returned if the number drawn is 0, as in C65."
  },
  {
   "property": "C168",
   "status": "proved",
   "theorems": [
    "C168_sampled_iff",
    "C168_discrete_refuted",
    "C168_infinite_refuted"
   ],
   "note": "False of the code: C168_sampled_iff says exactly when values are returned."
  },
  {
   "property": "C169",
   "status": "proved",
   "theorems": [
    "C169_default_draw_refuted"
   ],
   "note": "False of the code: C169_default_draw_refuted gives the distribution of the draw."
  },
  {
   "property": "C170",
   "status": "proved",
   "theorems": [
    "C170_stale_quantiles_refuted",
    "C170_scale",
    "C170_removed"
   ],
   "note": "False of the code: C170_stale_quantiles_refuted."
  },
  {
   "property": "C171",
   "status": "proved",
   "theorems": [
    "C171_stale_bias_refuted"
   ],
   "note": "False of the code: C171_stale_bias_refuted."
  },
  {
   "property": "C172",
   "status": "proved",
   "theorems": [
    "C172_last_value_given",
    "C172_accepted_iff",
    "C172_not_a_dictionary"
   ],
   "note": "exact: value of every name, and acceptance as an equivalence"
  },
  {
   "property": "C173",
   "status": "proved",
   "theorems": [
    "C173_value_by_name",
    "C173_keyword_order",
    "C173_symbol_order",
    "C173_dictionary",
    "C173_missing_symbol"
   ],
   "note": "for symbols that sympy reads back from their names; C177 says what happens otherwise"
  },
  {
   "property": "C174",
   "status": "proved",
   "theorems": [
    "C174_positional",
    "C174_other_number",
    "C174_position_refuted"
   ],
   "note": "False of the code: C174_position_refuted holds for every expression of two symbols; C174_positional says what a positional call does"
  },
  {
   "property": "C175",
   "status": "proved",
   "theorems": [
    "C175_arrays_elementwise"
   ],
   "note": ""
  },
  {
   "property": "C176",
   "status": "proved",
   "theorems": [
    "C176_one_array_flattened",
    "C176_exchanged_refuted",
    "C176_table",
    "C176_keyword_order_refuted"
   ],
   "note": "False of the code: the theorems say exactly what is computed for two arrays in every case and for one array among any number of symbols; three arrays and more are not characterised"
  },
  {
   "property": "C177",
   "status": "proved",
   "theorems": [
    "C177_remapped_keyword_refuted",
    "C177_left_unevaluated_refuted",
    "C177_array_unevaluated_refuted"
   ],
   "note": "False of the code: shown for all such expressions; simplified in that sympy may drop symbols that are left, as in 0*x"
  },
  {
   "property": "C178",
   "status": "proved",
   "theorems": [
    "C178_sorted",
    "C178_order_by_key",
    "C178_other_keys",
    "C178_other_length"
   ],
   "note": "for every argsort that returns a sorting permutation"
  },
  {
   "property": "C179",
   "status": "proved",
   "theorems": [
    "C179_index",
    "C179_last_refuted",
    "C179_key",
    "C179_empty"
   ],
   "note": "False of the code at negative indices, for every tuple; non-negative indices are exact"
  },
  {
   "property": "C180",
   "status": "proved",
   "theorems": [
    "C180_inverse",
    "C180_several_symbols_refuted",
    "C180_several_refused"
   ],
   "note": "True for one symbol; false for several, shown for all of them"
  },
  {
   "property": "C181",
   "status": "proved",
   "theorems": [
    "C181_found_iff",
    "C181_found",
    "C181_first_argument"
   ],
   "note": ""
  },
  {
   "property": "C182",
   "status": "proved",
   "theorems": [
    "C182_order_accepted_iff",
    "C182_delta_accepted_iff"
   ],
   "note": "for an expression that does not have the other kind of mapping already (C83)"
  },
  {
   "property": "C183",
   "status": "proved",
   "theorems": [
    "C183_transformed_space",
    "C183_logarithmic"
   ],
   "note": "For bound=False; C40 and C68-C70 cover the bounds."
  },
  {
   "property": "C184",
   "status": "proved",
   "theorems": [
    "C184_counts_add",
    "C184_other_values_refuted"
   ],
   "note": "Counts: proved. Other values: False of the code: the first factor's single values are kept whatever the others hold (C184_other_values_refuted). For factors listing their variables in the same order."
  },
  {
   "property": "C185",
   "status": "proved",
   "theorems": [
    "C185_accepted_iff",
    "C185_kept"
   ],
   "note": ""
  },
  {
   "property": "C186",
   "status": "proved",
   "theorems": [
    "C186_variables",
    "C186_dependences",
    "C186_fields_refuted",
    "C186_inputs_refuted"
   ],
   "note": "False of the code: lists of variables are characterised, lists with fields and inputs as lists are refuted universally."
  },
  {
   "property": "C187",
   "status": "proved",
   "theorems": [
    "C187_last_key",
    "C187_once",
    "C187_never_asked",
    "C187_plain_call_refuted"
   ],
   "note": "The last name is handed over exactly once, for all histories; that plain calls are unaffected is refuted."
  },
  {
   "property": "C188",
   "status": "proved",
   "theorems": [
    "C188_never_drawn_refuted",
    "C188_windows"
   ],
   "note": "False of the code: refuted for every function and history."
  },
  {
   "property": "C189",
   "status": "proved",
   "theorems": [
    "C189_copied",
    "C189_adopted",
    "C189_order_refuted"
   ],
   "note": "Proved for Func objects; for set_tran and set_tfun calls are characterised and the loss of the order is proved for every field and function."
  },
  {
   "property": "C190",
   "status": "proved",
   "theorems": [
    "C190_names",
    "C190_itself"
   ],
   "note": ""
  },
  {
   "property": "C191",
   "status": "proved",
   "theorems": [
    "C191_delegated",
    "C191_current",
    "C191_handed_over",
    "C191_proposer",
    "C191_itself",
    "C191_taken_back_refuted"
   ],
   "note": "First half proved for all histories; the second half is false of the code and refuted for all histories."
  },
  {
   "property": "C192",
   "status": "proved",
   "theorems": [
    "C192_no_argument_refuted"
   ],
   "note": "False of the code; the negation is proved for all processes, setters and later histories."
  },
  {
   "property": "C193",
   "status": "proved",
   "theorems": [
    "C193_at_once",
    "C193_own",
    "C193_later_refuted"
   ],
   "note": "Proved at the time of the call; false of the code afterwards, for all later histories."
  },
  {
   "property": "C194",
   "status": "proved",
   "theorems": [
    "C194_exclusive",
    "C194_refused_kept_refuted",
    "C194_refused_breaks_refuted",
    "C194_named_refuted"
   ],
   "note": "First half proved for accepted histories of functions; the rest is false of the code, refuted for all states."
  },
  {
   "property": "C195",
   "status": "proved",
   "theorems": [
    "C195_same_class",
    "C195_neither_refuted"
   ],
   "note": "Proved between objects of the same class Field or RF; false of the code otherwise, with the exact values proved."
  },
  {
   "property": "C196",
   "status": "proved",
   "theorems": [
    "C196_arrays_refuted",
    "C196_left_out_refuted"
   ],
   "note": "False of the code: no step from an array of values succeeds, whatever moves the field."
  },
  {
   "property": "C197",
   "status": "proved",
   "theorems": [
    "C197_shared_ignored_refuted"
   ],
   "note": "False of the code: values under shared keys are silently replaced by random draws."
  },
  {
   "property": "C198",
   "status": "proved",
   "theorems": [
    "C198_names",
    "C198_unknown",
    "C198_field_refuted",
    "C198_foreign_refuted",
    "C198_stochastic_refuted"
   ],
   "note": "Proved for names; the rest is refuted: fields as vertices, members only, random fields."
  },
  {
   "property": "C199",
   "status": "proved",
   "theorems": [
    "C199_name",
    "C199_index"
   ],
   "note": ""
  },
  {
   "property": "C200",
   "status": "proved",
   "theorems": [
    "C200_axes",
    "C200_numbers"
   ],
   "note": ""
  },
  {
   "property": "C201",
   "status": "proved",
   "theorems": [
    "C201_order_free"
   ],
   "note": "For histories without set_ufun(None), see C207, and without refused calls, see C208."
  },
  {
   "property": "C202",
   "status": "proved",
   "theorems": [
    "C202_transformed_values"
   ],
   "note": "For variables without quantile functions."
  },
  {
   "property": "C203",
   "status": "proved",
   "theorems": [
    "C203_density_one",
    "C203_same_law"
   ],
   "note": "Expressions whose derivative depends on the value; on logarithmic scales the derivative must be positive."
  },
  {
   "property": "C204",
   "status": "proved",
   "theorems": [
    "C204_change_refuted",
    "C204_decreasing_refuted"
   ],
   "note": "False of the code with change of variables unless lengths agree, and of decreasing expressions; true of increasing ones without change of variables (C203)."
  },
  {
   "property": "C205",
   "status": "proved",
   "theorems": [
    "C205_outside_refuted"
   ],
   "note": "False of the code without change of variables; with it, C204_change_refuted has the probability outside of the set."
  },
  {
   "property": "C206",
   "status": "proved",
   "theorems": [
    "C206_law_refuted"
   ],
   "note": "False of the code: draws are uniform whatever the density."
  },
  {
   "property": "C207",
   "status": "proved",
   "theorems": [
    "C207_removed_refuted",
    "C207_assigned_again"
   ],
   "note": "False of the code until the set is assigned again."
  },
  {
   "property": "C208",
   "status": "proved",
   "theorems": [
    "C208_pfun_refuted",
    "C208_ufun_refuted",
    "C208_dist_refuted",
    "C208_pair_refuted"
   ],
   "note": "False of the code for all four calls."
  },
  {
   "property": "C209",
   "status": "proved",
   "theorems": [
    "C209_other_files",
    "C209_replaced"
   ],
   "note": "All calls, also those that raise; distributions as objects that may share names or be listed twice."
  },
  {
   "property": "C210",
   "status": "proved",
   "theorems": [
    "C210_refused_first",
    "C210_raises_iff",
    "C210_lost_refuted"
   ],
   "note": "False of the code: the file is emptied before values are written; exact conditions for the exceptions proved."
  },
  {
   "property": "C211",
   "status": "proved",
   "theorems": [
    "C211_unreadable_refuted"
   ],
   "note": "False of the code."
  },
  {
   "property": "C212",
   "status": "proved",
   "theorems": [
    "C212_data_round_trip"
   ],
   "note": "Names of auxiliary data contain a space, as write_serialised demands; arrays are numeric."
  },
  {
   "property": "C213",
   "status": "proved",
   "theorems": [
    "C213_becomes_data_refuted"
   ],
   "note": "False of the code for names with spaces; C212 has the case without."
  },
  {
   "property": "C214",
   "status": "proved",
   "theorems": [
    "C214_repeatable"
   ],
   "note": "The first call may change None to 'None' in dims (C113); later ones change nothing."
  },
  {
   "property": "C215",
   "status": "proved",
   "theorems": [
    "C215_own",
    "C215_delegated_refuted"
   ],
   "note": "True of transitions given to the process (C215_own); false of those of sub-fields."
  },
  {
   "property": "C216",
   "status": "proved",
   "theorems": [
    "C216_accepted_iff",
    "C216_renamed",
    "C216_refused_refuted"
   ],
   "note": "Which names are accepted: C216_accepted_iff; what a renaming changes: C216_renamed; refused renamings leave a mixture."
  },
  {
   "property": "C217",
   "status": "proved",
   "theorems": [
    "C217_symbol",
    "C217_renamed_refuted"
   ],
   "note": "True after construction and set_icon (C217_symbol); false after renamings."
  },
  {
   "property": "C218",
   "status": "proved",
   "theorems": [
    "C218_first_refuted",
    "C218_own"
   ],
   "note": "The attributes are those of the first symbol for ever."
  },
  {
   "property": "C219",
   "status": "proved",
   "theorems": [
    "C219_expression",
    "C219_withdrawn",
    "C219_random"
   ],
   "note": "x[:]: C219_expression, C219_random; reading dexpr gives the name."
  },
  {
   "property": "C220",
   "status": "proved",
   "theorems": [
    "C220_own_iff",
    "C220_moves",
    "C220_outdated_refuted"
   ],
   "note": "True exactly for Deltas of the variable made since its last renaming (C220_own_iff, C220_moves)."
  },
  {
   "property": "C221",
   "status": "proved",
   "theorems": [
    "C221_value",
    "C221_scale",
    "C221_refused"
   ],
   "note": "For functions and numbers the scale makes no difference to the value."
  },
  {
   "property": "C222",
   "status": "proved",
   "theorems": [
    "C222_accepted_iff"
   ],
   "note": "C222_accepted_iff."
  },
  {
   "property": "C223",
   "status": "proved",
   "theorems": [
    "C223_taken",
    "C223_stale_refuted",
    "C223_sampler"
   ],
   "note": "True if it has some (C223_taken: of sympy's solutions for the inverse the first of those printed shortest)."
  },
  {
   "property": "C224",
   "status": "proved",
   "theorems": [
    "C224_refused",
    "C224_sympy",
    "C224_scipy_refuted"
   ],
   "note": "True for sympy (C224_sympy)."
  },
  {
   "property": "C225",
   "status": "proved",
   "theorems": [
    "C225_two_refuted"
   ],
   "note": "Exact description of what is shown and what calls give."
  },
  {
   "property": "C226",
   "status": "proved",
   "theorems": [
    "C226_samples"
   ],
   "note": "C226_samples."
  },
  {
   "property": "C227",
   "status": "proved",
   "theorems": [
    "C227_product",
    "C227_logarithms_refuted"
   ],
   "note": "False of the code for logarithms: refuted for all fields; proved for linear scales with any coefficients."
  },
  {
   "property": "C228",
   "status": "proved",
   "theorems": [
    "C228_current",
    "C228_others"
   ],
   "note": "If the field's scale is that of the product of the current scales, which are all linear or plain (C231 for others)."
  },
  {
   "property": "C229",
   "status": "proved",
   "theorems": [
    "C229_stale_refuted",
    "C229_renewed",
    "C229_own",
    "C229_scale_refuted"
   ],
   "note": "False of the code: refuted for all histories without set_prob on the field."
  },
  {
   "property": "C230",
   "status": "proved",
   "theorems": [
    "C230_present_iff",
    "C230_sympy_refuted"
   ],
   "note": "False of the code: a field has it exactly if isiconic is true of all variables (C230_present_iff), which sympy distributions given at once do not make it."
  },
  {
   "property": "C231",
   "status": "proved",
   "theorems": [
    "C231_scale_refuted"
   ],
   "note": "False of the code: the exact behaviour is proved for every scale."
  },
  {
   "property": "C232",
   "status": "proved",
   "theorems": [
    "C232_samples_refuted",
    "C232_distributions_refuted"
   ],
   "note": "False of the code: C232_samples_refuted is the exact condition under which the call returns (no accepted sample); C232_distributions_refuted the same for distributions."
  },
  {
   "property": "C233",
   "status": "proved",
   "theorems": [
    "C233_gathered",
    "C233_aligned_iff"
   ],
   "note": "C233_gathered; alignment holds exactly without gaps (C233_aligned_iff)."
  },
  {
   "property": "C234",
   "status": "proved",
   "theorems": [
    "C234_value",
    "C234_outdated_refuted",
    "C234_refreshed",
    "C234_transformed"
   ],
   "note": "False of the code for scaled steps after a set or transformation has changed; the value of eval_length and what refreshes the lengths are proved."
  },
  {
   "property": "C235",
   "status": "proved",
   "theorems": [
    "C235_len_iff",
    "C235_real_refuted",
    "C235_in"
   ],
   "note": "False of the code for real variables; exactly when len(x) returns and what, and what v in x tells, are proved."
  },
  {
   "property": "C236",
   "status": "proved",
   "theorems": [
    "C236_distinct",
    "C236_repeated_refuted",
    "C236_probability_refuted"
   ],
   "note": "False of the code for repeated values where numpy.isin sorts (sets of ten members or more, unless it makes a table of integers); membership of distinct values is proved."
  },
  {
   "property": "C237",
   "status": "proved",
   "theorems": [
    "C237_assigned",
    "C237_given_refuted",
    "C237_independent",
    "C237_fresh",
    "C237_shared_refuted",
    "C237_default_refuted",
    "C237_outdated_refuted"
   ],
   "note": "False of the code for shared lists; proved are independence over every program that does not use the list of the variable (C237_independent), that sets which are no lists are not shared (C237_fresh), and that assignments of lists refine the model of the setter used elsewhere (C237_assigned)."
  },
  {
   "property": "C238",
   "status": "proved",
   "theorems": [
    "C238_made",
    "C238_prob",
    "C238_prob_refuted",
    "C238_removed",
    "C238_accepted",
    "C238_last"
   ],
   "note": "False of the code for refused assignments (C238_prob_refuted, for every distribution and every array of another shape); acceptance, what stays and consistency after any accepted sequence are proved."
  },
  {
   "property": "C239",
   "status": "proved",
   "theorems": [
    "C239_scale",
    "C239_meaning",
    "C239_ratio",
    "C239_kept_iff_refuted"
   ],
   "note": "False of the code: the exact effect is proved, with the iff for probabilities that stay. The logarithmic scale of factor one written as a complex number is excluded, as elsewhere."
  },
  {
   "property": "C240",
   "status": "proved",
   "theorems": [
    "C240_name",
    "C240_refused_refuted"
   ],
   "note": "False of the code for refused names; the effect of accepted names and an iff for consistency are proved."
  },
  {
   "property": "C241",
   "status": "proved",
   "theorems": [
    "C241_dims",
    "C241_exchanged_refuted",
    "C241_item"
   ],
   "note": "False of the code; when assignments are accepted, what follows them and what stays is proved (C241_dims), with an iff for d[k] = values. The state left by a refused assignment of axes is not modelled."
  },
  {
   "property": "C242",
   "status": "proved",
   "theorems": [
    "C242_type",
    "C242_order",
    "C242_first",
    "C242_again_iff_refuted"
   ],
   "note": "Proved for values that are given; False of the code for x.vtype = None exactly if the set has an infinity, by an iff. numpy's choice of a type for mixed lists is modelled by VariableModel.promote and stated in VType_Spec."
  },
  {
   "property": "C243",
   "status": "proved",
   "theorems": [
    "C243_derived",
    "C243_own",
    "C243_others",
    "C243_rekey_refuted",
    "C243_rekey_together_refuted",
    "C243_sorted_refuted",
    "C243_slice_refuted",
    "C243_conditionalise_refuted"
   ],
   "note": "Proved for marginalise, marginal, prod, rescaled, sorted by a variable with an axis, and conditionalise off scale one or with a marginal column left over, for programs of any length (C243_own, C243_others). False of the code for the others. Which numpy operations return views is modelled in ShareModel, not derived from numpy."
  },
  {
   "property": "C244",
   "status": "proved",
   "theorems": [
    "C244_true_iff",
    "C244_false",
    "C244_probabilities_refuted",
    "C244_separate_refuted"
   ],
   "note": "False of the code, by an iff for when it is True (C244_true_iff). What does hold: if it is False then values or the order of variables differ (C244_false). Comparison of values of different kinds, of sets and of arrays of different shapes is an arbitrary function."
  }
 ]
}