# Formal model of probayes in Rocq (Coq 8.16.1)

Source of truth: `/repo/probayes/*.py` (pinned commit, read as text only).
The properties are listed in `properties.jsonl`; `MANIFEST.json` maps them to theorems.
(This file is written by `tools/design.py` from `tools/design_head.md` and `tools/plan.json`.)

## 1. Shape of the development (`rocq/theories`)

| file | contents |
|---|---|
| `Base.v` | Python exceptions as values, insertion-ordered dictionaries, small list tools |
| `Num.v` | numeric environment: operations on numbers, instances at the reals `R` and the rationals `Q` |
| `Tensor.v` | the numpy operations the code uses (shape, reshape, moveaxis, sum, broadcasting, indexing) |
| `PScales.v`, `Names.v`, `Distr.v`, `PDModel.v`, `PDUtils.v`, `PDFile.v`, `PDQuantile.v`, `Likelihoods.v`, `VariableModel.v`, `RVModel.v`, `ExprModel.v`, `FunctionalModel.v`, `FieldModel.v`, `DependenceModel.v`, `SDUtils.v`, `CondCovModel.v`, `SPModel.v`, `RFModel.v` | the model (see section 3 for what each covers) |
| `*_Spec.v` | independent specifications used in the theorem statements |
| `*_Proofs.v` and other `X_*.v` | lemmas and proofs about the model `X` |
| `Thm_*.v` | the property theorems only, each closed by `exact`, each followed by `Print Assumptions` and an `Example` that its hypotheses are met |

Conventions

* Every model definition has a comment with the file and lines it models and the simplifications made.
* Exceptions are values: `Ok x` or `Err e` with `e` the Python exception class. The order of checks is that of the code.
* Numbers: the model is written against a record of operations (`Num`). Theorems are about the instance at the
  real numbers, i.e. **floating point rounding is not modelled** (neither are NaN/inf); the safety thresholds
  (smallest positive / largest float) are kept as exact constants, because the code branches on them.
  The instance at `Q` only serves to run the model inside Coq on concrete examples.
* numpy arrays: a shape and a total function from index lists to elements; two arrays are the same when shapes are
  equal and elements agree on in-range indices. Scalars and 0-d arrays are identified.
* Python sets are iterated in an unspecified order: the model takes the keys as a duplicate-free list and the
  theorems quantify over that list, hence over all iteration orders.
* Text formatting of a number in names (`"{}={}"`) is an arbitrary function `fmt` that never emits the reserved
  characters `, | = ( )`.
* Random numbers are explicit arguments; theorems quantify over all outcomes.
* A claim that is false of the code keeps its user-facing statement in `properties.jsonl` (with a `finding`) and is
  answered by a theorem named `..._refuted` (a universal negative statement, an iff, or a failing input) beside what does hold.
  Theorems that establish only part of a claim end in `_partial`; the manifest says what is missing.

## 2. Plan per property

| id | property | model and method | theorems |
|---|---|---|---|
| C01 | rescale preserves the probability a number denotes | PScales.v; case analysis on scales, exp/ln identities over R | C01_rescale_preserves_denotation, C01_rescale_nearly_preserves_denotation, C01_unit_log_scale_refuted |
| C02 | rescale round trips and is path independent | PScales.v; case analysis on scales, exp/ln identities over R | C02_rescale_path_independent, C02_rescale_round_trip |
| C03 | probability/log-probability conversions are safe, monotone and mutually inverse | PScales.v; case analysis on scales, exp/ln identities over R | C03_log_exp_safe_monotone_inverse |
| C04 | pscale evaluation is canonical | PScales.v; case analysis on scales, exp/ln identities over R | C04_eval_pscale_canonical, C04_eval_pscale_meaning |
| C05 | the product rule multiplies the denoted probabilities | prod_pscale and prod_rule on arrays; induction over the factors; what fails is refuted by witnesses or an iff | C05_prod_rule_linear, C05_prod_rule_plain_mix |
| C06 | the product scale denotes the product of the scales for arbitrary scales | prod_pscale and prod_rule on arrays; induction over the factors; what fails is refuted by witnesses or an iff | C06_prod_pscale_correct_iff, C06_prod_pscale_refuted |
| C07 | a requested output scale of the product rule is honoured | prod_pscale and prod_rule on arrays; induction over the factors; what fails is refuted by witnesses or an iff | C07_requested_natural_scale, C07_requested_linear_scale_refuted, C07_requested_log_scale_raises_refuted, C07_requested_scale_iff |
| C08 | safe division denotes the quotient | div_prob; algebra over R | C08_div_prob_quotient, C08_div_prob_linear_never_divides_by_zero, C08_requested_plain_log_scale_refuted |
| C09 | distribution names round trip | Names.v on strings; induction over strings and lists (split/join) | C09_name_round_trip |
| C10 | parenthesised names are understood | Names.v on strings; induction over strings and lists (split/join) | C10_parenthesised_names_refuted |
| C11 | a Distribution's shape is the one its values and dims describe | Distr.v, the dims setter; invariant of the loop over keys | C11_accepts_iff, C11_layout, C11_shape_lists_sizes, C11_dims_omitted |
| C12 | variables sharing an axis have matching lengths | Distr.v, the dims setter; invariant of the loop over keys | C12_length_never_matters, C12_shared_axis_refuted |
| C13 | marginalise sums out exactly the named variables | PDModel.v marginalise; loop invariant relating new to old axes, then masked sums | C13_marginalise_sums_out, C13_marginal_complements |
| C14 | marginalisation conserves total probability and composes | PDModel.v marginalise; loop invariant relating new to old axes, then masked sums | C14_total_conserved, C14_composes |
| C15 | marginalise works whatever axes the variables occupy | PDModel.v marginalise; loop invariant relating new to old axes, then masked sums | C15_aligned_layouts, C15_correct_iff, C15_placed, C15_shared_counted_refuted, C15_transposed_raises_refuted, C15_exchanged_refuted, C15_shared_axis_raises_refuted |
| C16 | conditionalise yields a normalised conditional distribution | PDModel.v conditionalise; new axes for leading/trailing blocks, sums with kept axes; iff for when it returns | C16_conditional, C16_normalised, C16_no_column_left_refuted |
| C17 | conditionalise works for every choice of marginal keys | PDModel.v conditionalise; new axes for leading/trailing blocks, sums with kept axes; iff for when it returns | C17_conditionalise_iff, C17_inner_column_refuted, C17_first_column_refuted |
| C18 | product gives the pointwise product of the factors | PDUtils.v product; every factor read at an assignment of positions to variables, induction over factors | C18_product_pointwise, C18_common_column_refuted |
| C19 | Bayes' theorem holds through the API | conditionalise and product composed; Bayes' rule from the pointwise theorems | C19_bayes, C19_division_returns_likelihood |
| C20 | product rejects distributions over the same marginal | PDUtils.v product; induction over factors, refutation by witness | C20_product_overlap_raises |
| C21 | product detects mismatched values of a conditioning variable | PDUtils.v product; induction over factors, refutation by witness | C21_product_mismatch_raises, C21_scalar_mismatch_refuted, C21_scalars_accepted_refuted |
| C22 | division divides pointwise | PDModel.v division; same-order case proved, permuted order refuted | C22_division_pointwise, C22_conditional_column_refuted, C22_division_iff, C22_division_places, C22_axis_order_refuted |
| C23 | slicing selects the right probabilities | PDModel.v __call__; loop invariant over the sliced keys | C23_slice |
| C24 | expectation is a probability-weighted mean | expectation; convexity of weighted means | C24_weighted_mean, C24_between, C24_scale_invariant, C24_vanishing |
| C25 | sorted reorders values and probabilities together | sorted; argsort is a permutation | C25_sorted, C25_valid_laid_out, C25_sorted_scalar, C25_negative_axis_refuted |
| C26 | remarginalise conserves total probability | remarginalise; induction over cells | C26_one_cell, C26_cells_sum, C26_total, C26_scalar_refused |
| C27 | prod reduces independent repetitions | prod, rekey, redim; induction over the positions multiplied, refutations by iff | C27_product, C27_extra_factor, C27_product_iff, C27_log_as_linear_refuted, C27_scalar_refused |
| C28 | rekey renames without changing anything else | prod, rekey, redim; induction over the positions multiplied, refutations by iff | C28_rekey_renames, C28_rekey_drops_refuted |
| C29 | redim permutes axes | prod, rekey, redim; induction over the positions multiplied, refutations by iff | C29_redim_raises_refuted, C29_redim_attribute_error |
| C30 | serialise/deserialise round trips | serialise, deserialise, write_serialised with an explicit file; round trips, refutations | C30_serialise_round_trip |
| C31 | serialising several distributions keeps all of them | serialise, deserialise, write_serialised with an explicit file; round trips, refutations | C31_serialise_loses_refuted, C31_last_one_is_kept |
| C32 | writing a distribution does not modify it | serialise, deserialise, write_serialised with an explicit file; round trips, refutations | C32_effect_of_writing, C32_unchanged_iff, C32_written_is_unusable_refuted |
| C33 | summing single samples concatenates them in order | summate, ismonotonic; induction over samples / the array | C33_summate_concatenates, C33_counts_raise_refuted |
| C34 | monotonicity test is exact | summate, ismonotonic; induction over samples / the array | C34_ismonotonic_exact |
| C35 | binary code round trip | Likelihoods.v; induction over bits and rows, linspace algebra | C35_code_round_trip, C35_no_superfluous_digits, C35_code_array |
| C36 | boolean permutation frequencies count the rows | Likelihoods.v; induction over bits and rows, linspace algebra | C36_counts |
| C37 | frequency smoothing has an effect | Likelihoods.v; induction over bits and rows, linspace algebra | C37_smoothing_refuted |
| C38 | uniform grids respect limits and exclusions | Likelihoods.v; induction over bits and rows, linspace algebra | C38_uniform_points, C38_uniform_one, C38_uniform_random |
| C39 | requesting n values of a discrete variable covers its set evenly | VariableModel.v evaluate / apply_delta; counting modulo, case analysis | C39_evenly, C39_zero_and_none, C39_single_bool_refuted |
| C40 | bounded perturbation stays inside the variable's set | VariableModel.v evaluate / apply_delta; counting modulo, case analysis | C40_bounded_interval, C40_bounded_answers, C40_half_open_low_refuted, C40_half_open_high_refuted, C40_bounded_discrete, C40_discrete_membership_refuted |
| C41 | the default probability of a random variable is the uniform distribution | RVModel.v; sums over finite sets, cumulative sums, argument flow of the constructor | C41_default_uniform, C41_sums_to_one, C41_bool_log_refuted, C41_bool_linear_refuted |
| C42 | transition matrix sampling follows the matrix column | RVModel.v; sums over finite sets, cumulative sums, argument flow of the constructor | C42_sampling_interval, C42_step_samples, C42_step_given |
| C43 | a random variable can be declared by its type alone | RVModel.v; sums over finite sets, cumulative sums, argument flow of the constructor | C43_vtype_alone_refuted, C43_positional |
| C44 | ordered calls route every argument to its declared place | ExprModel.v call routing; fold invariant | C44_order_call, C44_overwritten_keyword_refuted, C44_missing_keyword |
| C45 | delta calls pass differences | ExprModel.v call routing; fold invariant | C45_delta_call, C45_value_and_difference_refuted |
| C46 | a rejected add_func leaves the functional unchanged | FunctionalModel.v add_func as a state transformer | C46_accepted_function, C46_rejected_call_unchanged_refuted, C46_outputs_taken |
| C47 | adding variables to a field | FieldModel.v; state transformer, fold invariant, norm algebra | C47_construction, C47_plain_refuted, C47_add_one, C47_add_again, C47_add_collection_refuted, C47_refused_variables_appear |
| C48 | field evaluation assigns one axis per independent variable | FieldModel.v; state transformer, fold invariant, norm algebra | C48_axes, C48_axes_distinct, C48_scalars, C48_scalar_takes_axis_refuted, C48_shared_scalars_take_axis_refuted |
| C49 | spherical steps have the requested length | FieldModel.v; state transformer, fold invariant, norm algebra | C49_radius, C49_scaled_refuted, C49_scaled_equal_lengths, C49_exempt_refuted |
| C50 | leafs, stems and roots partition the dependence graph | DependenceModel.v; degrees of the graph of a dependence | C50_conditional, C50_any_graph, C50_parallel, C50_chain_refuted, C50_chain_accepted, C50_long_chain_refuted |
| C51 | concurrent samplers of a process are independent | SPModel.v as a transition system over samplers; invariants by induction over all schedules | C51_samplers_independent |
| C52 | the verdicts of a sampler form a Markov chain trajectory | SPModel.v as a transition system over samplers; invariants by induction over all schedules | C52_samples_form_a_trajectory |
| C53 | a stop specification bounds the number of samples | SPModel.v as a transition system over samplers; invariants by induction over all schedules | C53_stop_bounds_samples |
| C54 | walk(stop=n) advances the sampler by n samples | SPModel.v as a transition system over samplers; invariants by induction over all schedules | C54_walk_of_bounded_sampler, C54_walk_discards_a_sample_refuted, C54_walk_exact |
| C55 | resetting a process does not entangle its samplers | SPModel.v as a transition system over samplers; invariants by induction over all schedules | C55_old_samplers_raise_after_reset_refuted, C55_reset_entangles_samplers_refuted |
| C56 | Metropolis acceptance satisfies detailed balance | SPModel.v scores; real algebra, refutations | C56_metropolis_detailed_balance, C56_metropolis_accepts_iff |
| C57 | Hastings acceptance satisfies detailed balance | SPModel.v scores; real algebra, refutations | C57_hastings_inverted_refuted, C57_hastings_log_scale_refuted |
| C58 | log-scale Metropolis acceptance equals the exponentiated difference | SPModel.v scores; real algebra, refutations | C58_log_metropolis_iff |
| C59 | conditional Gaussian moments follow the Schur complement | CondCovModel.v; linear algebra, monotone cdf | C59_samples_conditional_gaussian, C59_conditional_unique |
| C60 | limited conditional Gaussian samples stay within limits | CondCovModel.v; linear algebra, monotone cdf | C60_limits_move_with_mean, C60_within_limits_iff |
| C61 | a Metropolis rule rejects proposals of a process without transitions | SPModel.v updates; case analysis for every score and threshold | C61_proposal_without_transition_accepts_all_refuted, C61_scores_without_predecessor |
| C62 | likelihood functions answer every request with the relative frequency | Likelihoods.v and slice_by_keyvals; induction over labels and requested axes | C62_likelihood_of_request |
| C63 | slicing by values respects the requested axes | Likelihoods.v and slice_by_keyvals; induction over labels and requested axes | C63_other_axis_order_refuted, C63_dims_required_refuted |
| C64 | a variable contains what lies between its limits | VariableModel.v; invariants of the setters over all histories, order algebra over R, exact exceptions | C64_interval_membership, C64_discrete_membership |
| C65 | values a variable gives belong to it | VariableModel.v; invariants of the setters over all histories, order algebra over R, exact exceptions | C65_grid_inside, C65_draw_inside_iff |
| C66 | a zero perturbation changes nothing | VariableModel.v; invariants of the setters over all histories, order algebra over R, exact exceptions | C66_zero_delta_refuted, C66_zero_delta_moves_refuted |
| C67 | variables are consistent after construction and assignment | VariableModel.v; invariants of the setters over all histories, order algebra over R, exact exceptions | C67_constructor_well_made, C67_assignment_well_made, C67_either_order, C67_retype_refuted |
| C68 | documented ways of declaring variables work | VariableModel.v; invariants of the setters over all histories, order algebra over R, exact exceptions | C68_documented_forms_refuted |
| C69 | a refused set leaves the variable unchanged | VariableModel.v; invariants of the setters over all histories, order algebra over R, exact exceptions | C69_refused_set_stored_refuted |
| C70 | log hypervolume | VariableModel.v; invariants of the setters over all histories, order algebra over R, exact exceptions | C70_lhv_refuted |
| C71 | random perturbations stay in their documented range | VariableModel.v; invariants of the setters over all histories, order algebra over R, exact exceptions | C71_bool_parity, C71_random_ranges, C71_bool_tuple_refuted |
| C72 | the scale flag scales the default perturbation | VariableModel.v; invariants of the setters over all histories, order algebra over R, exact exceptions | C72_scale_refuted |
| C73 | array probabilities of a discrete random variable can be evaluated | RVModel.v; universal negative statements where every call raises, sums over sets, cumulative sums | C73_array_refuted |
| C74 | probabilities can be evaluated in a requested scale | RVModel.v; universal negative statements where every call raises, sums over sets, cumulative sums | C74_prob_scale_refuted |
| C75 | the log scale may be given as 0j | RVModel.v; universal negative statements where every call raises, sums over sets, cumulative sums | C75_log_scale_ignored_refuted |
| C76 | the default transition is uniform | RVModel.v; universal negative statements where every call raises, sums over sets, cumulative sums | C76_default_step, C76_log_refuted |
| C77 | successors can be requested as unit sets | RVModel.v; universal negative statements where every call raises, sums over sets, cumulative sums | C77_float_refuted, C77_many_refuted |
| C78 | a new set keeps a random variable consistent | RVModel.v; universal negative statements where every call raises, sums over sets, cumulative sums | C78_reassign, C78_transition_lost_refuted |
| C79 | scalar probabilities of bool variables are Bernoulli | RVModel.v; universal negative statements where every call raises, sums over sets, cumulative sums | C79_bernoulli, C79_draws, C79_log_refuted |
| C80 | functional transitions sample within the limits | RVModel.v; universal negative statements where every call raises, sums over sets, cumulative sums | C80_functional_samples |
| C81 | length of a multiple expression | ExprModel.v; invariants over all call sequences, exact routing of arguments | C81_tuple_length_refuted, C81_empty_tuple_refuted |
| C82 | indexing a multiple expression | ExprModel.v; invariants over all call sequences, exact routing of arguments | C82_tuple_index, C82_multiple_not_called, C82_single |
| C83 | a rejected mapping leaves an expression unchanged | ExprModel.v; invariants over all call sequences, exact routing of arguments | C83_rejected_order_refuted |
| C84 | keywords given at the call override stored ones | ExprModel.v; invariants over all call sequences, exact routing of arguments | C84_given_keywords_override, C84_func_stored_override_refuted |
| C85 | a sole dictionary argument stands for keywords | ExprModel.v; invariants over all call sequences, exact routing of arguments | C85_sole_dictionary |
| C86 | no argument is dropped silently | ExprModel.v; invariants over all call sequences, exact routing of arguments | C86_keywords_dropped_refuted, C86_arguments_refused |
| C87 | indexed functions are independent of history | ExprModel.v; invariants over all call sequences, exact routing of arguments | C87_indexed_call_history, C87_held_handle_refuted, C87_second_call_refuted |
| C88 | functions with a delta mapping in a functional | FunctionalModel.v; state transformer, exact exceptions | C88_delta_function_rejected, C88_delta_function_closes, C88_missing_inputs_close |
| C89 | calls of a function of a functional | FunctionalModel.v; state transformer, exact exceptions | C89_call_drops_unneeded_inputs, C89_unneeded_inputs_are_required |
| C90 | functions can be added to a dependence | FunctionalModel.v; state transformer, exact exceptions | C90_dependence_add_func_never_works |
| C91 | symbolic and ordinary functions are not mixed | FunctionalModel.v; state transformer, exact exceptions | C91_kinds_never_mix |
| C92 | union of fields with & | FieldModel.v; set algebra on names, exact exceptions | C92_union, C92_mixed_refuted, C92_associative, C92_idempotent |
| C93 | a dictionary of deltas sets the steps | FieldModel.v; set algebra on names, exact exceptions | C93_dictionary_refuted, C93_dictionary_no_step |
| C94 | a number as delta of a field | FieldModel.v; set algebra on names, exact exceptions | C94_number, C94_own_default |
| C95 | names in field arguments are checked | FieldModel.v; set algebra on names, exact exceptions | C95_shared_key_unchecked_refuted, C95_single_key_checked |
| C96 | composition unites the graphs | DependenceModel.v; graph union, induction over the arguments | C96_union |
| C97 | dependences of any number of fields or dependences | DependenceModel.v; graph union, induction over the arguments | C97_three_arguments_refuted, C97_first_field_changed_refuted, C97_rootless_refuted, C97_mixed |
| C98 | conditioning with \| | DependenceModel.v; graph union, induction over the arguments | C98_kinds, C98_or_refuted |
| C99 | joining with & | DependenceModel.v; graph union, induction over the arguments | C99_field_and, C99_dependence_and_refuted, C99_variable_and_refuted, C99_variable_conditioned_refuted |
| C100 | removing primes from keys | SDUtils.v; induction over strings and keys, product of factors | C100_desuffix, C100_no_suffix_refuted |
| C101 | selecting primed keys | SDUtils.v; induction over strings and keys, product of factors | C101_get_suffixed |
| C102 | probability of composed dependences | SDUtils.v; induction over strings and keys, product of factors | C102_parallel, C102_serial_refuted |
| C103 | conditional sampling takes exactly one variable to sample | CondCovModel.v; case analysis over requests | C103_two_sets_rejected, C103_no_set_rejected |
| C104 | omitting dims does not change expectations | Distr.v with PDModel.v expectation; witness and exact value | C104_omitted_dims_refuted |
| C105 | remarginalise keeps the conditional variables | PDModel.v remarginalise and __call__; computation for all values of the remaining arguments | C105_conditionals_kept_refuted |
| C106 | slicing can keep the axis | PDModel.v remarginalise and __call__; computation for all values of the remaining arguments | C106_first_axis, C106_other_axis_refuted |
| C107 | slicing at a value a scalar variable does not have | PDModel.v remarginalise and __call__; computation for all values of the remaining arguments | C107_scalar_ignored_refuted |
| C108 | the form of a variable's set decides its meaning | VariableModel.v, PDUtils.v; case analysis over the forms, induction over samples | C108_tuple_open, C108_list_discrete, C108_set_sorted |
| C109 | perturbed values have the type of the variable | VariableModel.v, PDUtils.v; case analysis over the forms, induction over samples | C109_type_kept, C109_int_by_float |
| C110 | which samples a summation counts | VariableModel.v, PDUtils.v; case analysis over the forms, induction over samples | C110_all_counted, C110_named_updates, C110_false_not_counted |
| C111 | saving to and loading from a file gives the distributions back | PDFile.v; store of named groups, sortedness of iteration | C111_file_round_trip |
| C112 | a variable may be called order | PDFile.v; store of named groups, sortedness of iteration | C112_order_unreadable_refuted |
| C113 | every distribution in a file is read back | PDFile.v; store of named groups, sortedness of iteration | C113_spaces_lost_iff |
| C114 | quantiles are values of their variables | PDQuantile.v; cumulative sums and first crossing, order algebra over R | C114_quantiles, C114_one_position, C114_within_range, C114_last_value, C114_scalars |
| C115 | quantiles grow with q | PDQuantile.v; cumulative sums and first crossing, order algebra over R | C115_monotone_refuted, C115_monotone_gentle_partial, C115_monotone_first_axis_partial |
| C116 | quantiles do not depend on normalisation | PDQuantile.v; cumulative sums and first crossing, order algebra over R | C116_scale_invariant_refuted, C116_scale_invariant_inner_partial |
| C117 | the quantile of a constant is the constant | PDQuantile.v; cumulative sums and first crossing, order algebra over R | C117_single_value_refuted |
| C118 | A field of variables without a probability of its own treats them as independent | RFModel.v __call__ / propose; every variable's own distribution read on its axis, induction over variables | C118_independent |
| C119 | Proposing from a field renames the variables and changes nothing else | RFModel.v __call__ / propose; every variable's own distribution read on its axis, induction over variables | C119_propose |
| C120 | The default transition from one set of numbers to another has the probability of the independent successors | RFModel.v step / reval_tran; product rule for two sets of numbers, real algebra, iff | C120_step, C120_not_successors_refuted |
| C121 | Reversing a transition exchanges given and told variables; for the default transition it is the step back | RFModel.v step / reval_tran; product rule for two sets of numbers, real algebra, iff | C121_exchanges, C121_step_back |
| C122 | Calling a distribution with 'marg' or 'cond' returns that side | LookupModel.v lookup, p('marg'), p('cond'); induction over the key list with the seen set, prefix argument for the axes | C122_parts, C122_no_conditionals_refuted |
| C123 | Looking up variables groups columns by axis and keeps values | LookupModel.v lookup, p('marg'), p('cond'); induction over the key list with the seen set, prefix argument for the axes | C123_lookup, C123_as_distribution |
| C124 | A dependence with a probability function returns the conditional distribution of its leafs given its roots | SDModel.v make_sd / set_prob / __call__ / joint; values evaluated position by position, the roots called again and multiplied with C18 | C124_conditional |
| C125 | joint=True multiplies the conditional distribution by the roots' own probabilities | SDModel.v make_sd / set_prob / __call__ / joint; values evaluated position by position, the roots called again and multiplied with C18 | C125_joint, C125_none_refuted |
| C126 | Without a probability function a dependence returns the distribution of its leafs | SDModel.v make_sd / set_prob / __call__ / joint; values evaluated position by position, the roots called again and multiplied with C18 | C126_default_refuted, C126_joint_refuted |
| C127 | iid with a function that already multiplies over its variables | SDModel.v eval_iid; induction over the iid keys, axes left with a gap are refused (C11) | C127_counted_refuted |
| C128 | set_prob replaces the probability of a composed dependence | SDModel.v sd_set_prob; case analysis of the two assignments | C128_overridden_refuted |
| C129 | A product does not depend on how a column is written in the names of its factors | PDUtils.v product; a key collected twice leaves a gap in the axes, refused by C11 | C129_spelling_refuted |
| C130 | A scale passed with the probability function is used | SDModel.v base_set_prob; truth value of a scale | C130_zero_scale_refuted |
| C131 | Putting a distribution on another scale keeps its probabilities | PD.rescaled on distributions whose columns may share axes: the constructor on unchanged values (remake) and C01/C02 on the array. | C131_rescaled, C131_round_trip |
| C132 | A Metropolis sampler is the Metropolis chain of the process's density | ChainModel.v assembles deltas of fields, steps with a transition function and named scores into an engine for the sampler model. One generic lemma (Chain_Run.sampler_chain): by induction over the steps of a sampler, its samples are those of the chain given by a move and an acceptance rule; then the moves (Chain_Thm, Chain_Uniform) and the scores are computed, and the rules studied on their own (Chain_Rules). | C132_metropolis_chain, C132_balance, C132_ratio |
| C133 | Hastings sampling with a pair of transition functions targets the density | ChainModel.v assembles deltas of fields, steps with a transition function and named scores into an engine for the sampler model. One generic lemma (Chain_Run.sampler_chain): by induction over the steps of a sampler, its samples are those of the chain given by a move and an acceptance rule; then the moves (Chain_Thm, Chain_Uniform) and the scores are computed, and the rules studied on their own (Chain_Rules). | C133_two_way_chain, C133_balance_refuted |
| C134 | Bounded chains never leave the limits of their variables | ChainModel.v assembles deltas of fields, steps with a transition function and named scores into an engine for the sampler model. One generic lemma (Chain_Run.sampler_chain): by induction over the steps of a sampler, its samples are those of the chain given by a move and an acceptance rule; then the moves (Chain_Thm, Chain_Uniform) and the scores are computed, and the rules studied on their own (Chain_Rules). | C134_bounded_chain, C134_set_delta_chain, C134_within |
| C135 | A uniform delta moves every variable of a field | ChainModel.v assembles deltas of fields, steps with a transition function and named scores into an engine for the sampler model. One generic lemma (Chain_Run.sampler_chain): by induction over the steps of a sampler, its samples are those of the chain given by a move and an acceptance rule; then the moves (Chain_Thm, Chain_Uniform) and the scores are computed, and the rules studied on their own (Chain_Rules). | C135_bool_stays_refuted |
| C136 | With one transition function Hastings scores are Metropolis scores | ChainModel.v assembles deltas of fields, steps with a transition function and named scores into an engine for the sampler model. One generic lemma (Chain_Run.sampler_chain): by induction over the steps of a sampler, its samples are those of the chain given by a move and an acceptance rule; then the moves (Chain_Thm, Chain_Uniform) and the scores are computed, and the rules studied on their own (Chain_Rules). | C136_hastings_chain |
| C137 | A field of one variable steps with the variable's own transition | RFModel.v rf_step with the variable's eval_tran; the step of a field for any transition probability (RF_Step.step_gen), then the transition computed at a pair of numbers | C137_own_transition |
| C138 | A Gibbs sampler draws its variables in order, each from the current values of the others | GibbsModel.v: eval_tfun with its window of keys and the position kept by the process, steps and samples made of it, sample_cond_cov. The same generic lemma about samplers as C132 with the position as additional shared state (Gibbs_Run); the schedule of blocks by arithmetic of quotients (Gibbs_Proofs); CondCov through C59. | C138_gibbs_chain |
| C139 | With tsteps every variable of a Gibbs sampler is drawn once per cycle | GibbsModel.v: eval_tfun with its window of keys and the position kept by the process, steps and samples made of it, sample_cond_cov. The same generic lemma about samplers as C132 with the position as additional shared state (Gibbs_Run); the schedule of blocks by arithmetic of quotients (Gibbs_Proofs); CondCov through C59. | C139_alone, C139_each_once, C139_in_turn_refuted |
| C140 | A scipy multivariate normal as drawing function draws from its conditional distributions | GibbsModel.v: eval_tfun with its window of keys and the position kept by the process, steps and samples made of it, sample_cond_cov. The same generic lemma about samplers as C132 with the position as additional shared state (Gibbs_Run); the schedule of blocks by arithmetic of quotients (Gibbs_Proofs); CondCov through C59. | C140_conditional_draws |
| C141 | Values drawn do not depend on the order in which the variables are named | GibbsModel.v: eval_tfun with its window of keys and the position kept by the process, steps and samples made of it, sample_cond_cov. The same generic lemma about samplers as C132 with the position as additional shared state (Gibbs_Run); the schedule of blocks by arithmetic of quotients (Gibbs_Proofs); CondCov through C59. | C141_by_position, C141_order_refuted |
| C142 | A negative number of variables per sample is rejected | GibbsModel.v: eval_tfun with its window of keys and the position kept by the process, steps and samples made of it, sample_cond_cov. The same generic lemma about samplers as C132 with the position as additional shared state (Gibbs_Run); the schedule of blocks by arithmetic of quotients (Gibbs_Proofs); CondCov through C59. | C142_negative_refuted, C142_never_again |
| C143 | A step in reverse draws by the second function of a pair | GibbsModel.v: eval_tfun with its window of keys and the position kept by the process, steps and samples made of it, sample_cond_cov. The same generic lemma about samplers as C132 with the position as additional shared state (Gibbs_Run); the schedule of blocks by arithmetic of quotients (Gibbs_Proofs); CondCov through C59. | C143_reverse_refuted, C143_tuple_refuted |
| C144 | Metropolis and Hastings scores account for the density of the function that proposes | GibbsModel.v: eval_tfun with its window of keys and the position kept by the process, steps and samples made of it, sample_cond_cov. The same generic lemma about samplers as C132 with the position as additional shared state (Gibbs_Run); the schedule of blocks by arithmetic of quotients (Gibbs_Proofs); CondCov through C59. | C144_metropolis_chain, C144_hastings_chain, C144_balance_refuted |
| C145 | A drawing function is refused on a process of one variable | GibbsModel.v: eval_tfun with its window of keys and the position kept by the process, steps and samples made of it, sample_cond_cov. The same generic lemma about samplers as C132 with the position as additional shared state (Gibbs_Run); the schedule of blocks by arithmetic of quotients (Gibbs_Proofs); CondCov through C59. | C145_single_rejected |
| C146 | Samplers whose delta is a number, a list or a tuple follow the Metropolis chain of those moves | Chain_Set.v: FieldModel.f_set_delta and the steps it stores, evaluated with the random numbers of the step, give the numbers of Chain_Spec.set_moves; then the law of C132 (or of C134 with bounds), which is generic in how the numbers of a step come about. | C146_set_delta_chain |
| C147 | Variables left out of a call get the documented default | FieldModel.f_parse_args: entries under single names pass unchanged (parse_entry), the loop over the keys of the field adds defaults; the condition for {0} against None is stated over the variables and the caller's entries. | C147_left_out |
| C148 | Proposals with a proposal function | OmcModel.sd_propose (rf.py 584-602 as called by sd.py); Omc_Proofs.propose_gen reuses the evaluation and assembly lemmas of C118/C124 with an empty conditional part. | C148_propose |
| C149 | Rejection sampling | OmcModel.om_engine and om_config instantiate the process of SPModel; one step from any dictionary is computed (Omc_Run.sample_at_point), then induction over the steps of a sampler among any others (SP_Proofs.sampler_view). | C149_rejection |
| C150 | Numbers given to a sampler are kept | OmcModel.om_engine and om_config instantiate the process of SPModel; one step from any dictionary is computed (Omc_Run.sample_at_point), then induction over the steps of a sampler among any others (SP_Proofs.sampler_view). | C150_forgotten_refuted |
| C151 | Samples are drawn from the proposal | OmcModel.om_engine and om_config instantiate the process of SPModel; one step from any dictionary is computed (Omc_Run.sample_at_point), then induction over the steps of a sampler among any others (SP_Proofs.sampler_view). | C151_not_drawn_refuted |
| C152 | A delta moves a sampler with a proposal | OmcModel.om_engine and om_config instantiate the process of SPModel; one step from any dictionary is computed (Omc_Run.sample_at_point), then induction over the steps of a sampler among any others (SP_Proofs.sampler_view). | C152_stuck_refuted |
| C153 | Samplers may leave out the suffix | OmcModel.om_engine and om_config instantiate the process of SPModel; one step from any dictionary is computed (Omc_Run.sample_at_point), then induction over the steps of a sampler among any others (SP_Proofs.sampler_view). | C153_no_suffix_refuted |
| C154 | Summaries hold the accepted samples | OmcModel.summarise (sp.py 150-197): the accepted samples are the filter of the points; each summed list is handed to the law of C33. | C154_summary, C154_left_out |
| C155 | A step of a random variable is the transition's conditional distribution of the primed variable given the variable | RVModel.step: RV_Step.step_made builds the distribution (PD_Make.make_pd_ok) from the values RV_More.reshape_lists lays out; the number of each pair is the transition law proved for eval_tran. | C155_step |
| C156 | Steps of log-scaled variables hold log probabilities | RVModel.step: RV_Step.step_made builds the distribution (PD_Make.make_pd_ok) from the values RV_More.reshape_lists lays out; the number of each pair is the transition law proved for eval_tran. | C156_log_refuted, C156_outside_refuted |
| C157 | The default probability is nought over unbounded intervals, and setting it anew makes the transition uniform | Direct computation on RVModel.default_prob, rv_reset_prob, rv_set_tran; C159 by induction over the arguments (TensorBcast.tbin_fold). | C157_unbounded, C157_reset |
| C158 | Matrix transitions are accepted exactly if they are square of the size of the set | Direct computation on RVModel.default_prob, rv_reset_prob, rv_set_tran; C159 by induction over the arguments (TensorBcast.tbin_fold). | C158_accepted, C158_kept_refuted, C158_second_refuted |
| C159 | The uniform probability of several arguments is theirs where all are inside the set | Direct computation on RVModel.default_prob, rv_reset_prob, rv_set_tran; C159 by induction over the arguments (TensorBcast.tbin_fold). | C159_uniform |
| C160 | The density of a multivariate distribution is taken at the variables' values | MVModel.mv_eval (meshgrid, stack, squeeze); MV_Proofs.grid_ok gives its shape and entries, SD_Proofs.sd_call_ok the call; PDModel.check_prob refuses every other shape (shape_checked). | C160_coordinates_refuted |
| C161 | The probability of a point does not depend on the order in which its coordinates are named | MVModel.mv_eval (meshgrid, stack, squeeze); MV_Proofs.grid_ok gives its shape and entries, SD_Proofs.sd_call_ok the call; PDModel.check_prob refuses every other shape (shape_checked). | C161_numbers_refuted |
| C162 | Fields of any number of variables can have a multivariate distribution | MVModel.mv_eval (meshgrid, stack, squeeze); MV_Proofs.grid_ok gives its shape and entries, SD_Proofs.sd_call_ok the call; PDModel.check_prob refuses every other shape (shape_checked). | C162_axes_refuted |
| C163 | A multivariate distribution can be evaluated at arrays of one value, and in a field of one variable | MVModel.mv_eval (meshgrid, stack, squeeze); MV_Proofs.grid_ok gives its shape and entries, SD_Proofs.sd_call_ok the call; PDModel.check_prob refuses every other shape (shape_checked). | C163_single_refuted, C163_one_variable_refuted |
| C164 | A distribution returned by a field is valid whatever the probability function | MVModel.mv_eval (meshgrid, stack, squeeze); MV_Proofs.grid_ok gives its shape and entries, SD_Proofs.sd_call_ok the call; PDModel.check_prob refuses every other shape (shape_checked). | C164_accepted |
| C165 | A variable with a distribution reports its density | DistModel.dv_call; Dist_Proofs.call_made builds the distribution with PD_Make.make_pd_ok, density_call and scalar_call read its entries. | C165_density |
| C166 | Changing the scale of a variable keeps what its probabilities stand for | DistModel.dv_call; Dist_Proofs.call_made builds the distribution with PD_Make.make_pd_ok, density_call and scalar_call read its entries. | C166_distribution_rescaled, C166_number_refuted |
| C167 | Values of a variable with quantiles follow its distribution | DistModel.dv_evaluate with Likelihoods.uniform; Lik_Slice.uniform_grid gives the cuts, share_cdf takes them through the inverse. | C167_grid, C167_draws |
| C168 | Variables with a distribution can be sampled | Case analysis of DistModel.dv_evaluate and dv_set_prob; C168 is an equivalence, the others hold for all draws. | C168_sampled_iff, C168_discrete_refuted, C168_infinite_refuted |
| C169 | A variable called without values is drawn from its distribution | Case analysis of DistModel.dv_evaluate and dv_set_prob; C168 is an equivalence, the others hold for all draws. | C169_default_draw_refuted |
| C170 | A new probability replaces the old one in sampling | Case analysis of DistModel.dv_evaluate and dv_set_prob; C168 is an equivalence, the others hold for all draws. | C170_stale_quantiles_refuted, C170_scale, C170_removed |
| C171 | A new probability replaces the bias of a bool variable | Case analysis of DistModel.dv_evaluate and dv_set_prob; C168 is an equivalence, the others hold for all draws. | C171_stale_bias_refuted |
| C172 | Arguments of symbolic calls are read by name, the last one winning | SymModel.parse_as_str_dict; the loops are related to lists of named entries by induction (Sym_Parse). | C172_last_value_given, C172_accepted_iff, C172_not_a_dictionary |
| C173 | A symbolic expression called by name has its value, whatever the order of names and symbols | SymModel.se_call for arbitrary expressions given by their value as a function of their symbols; case analysis of lookups, broadcasting and meshgrid (Sym_Proofs, Sym_More). | C173_value_by_name, C173_keyword_order, C173_symbol_order, C173_dictionary, C173_missing_symbol |
| C174 | Positional arguments of a symbolic expression | SymModel.se_call for arbitrary expressions given by their value as a function of their symbols; case analysis of lookups, broadcasting and meshgrid (Sym_Proofs, Sym_More). | C174_positional, C174_other_number, C174_position_refuted |
| C175 | Symbolic expressions of arrays are computed elementwise | SymModel.se_call for arbitrary expressions given by their value as a function of their symbols; case analysis of lookups, broadcasting and meshgrid (Sym_Proofs, Sym_More). | C175_arrays_elementwise |
| C176 | Symbolic expressions of arrays without a function for arrays | SymModel.se_call for arbitrary expressions given by their value as a function of their symbols; case analysis of lookups, broadcasting and meshgrid (Sym_Proofs, Sym_More). | C176_one_array_flattened, C176_exchanged_refuted, C176_table, C176_keyword_order_refuted |
| C177 | Remapped and assumed symbols | SymModel.se_call for arbitrary expressions given by their value as a function of their symbols; case analysis of lookups, broadcasting and meshgrid (Sym_Proofs, Sym_More). | C177_remapped_keyword_refuted, C177_left_unevaluated_refuted, C177_array_unevaluated_refuted |
| C178 | Sorting an ordered dictionary by an order with gaps | SymModel.sort_ordered_dict for every argsort that sorts; an explicit list of filled places is proved equal to the loop (Sym_Parse). | C178_sorted, C178_order_by_key, C178_other_keys, C178_other_length |
| C179 | Tuples of symbolic expressions are indexed like tuples of functions | SymModel.icon_item; induction over the tuple and over the solutions. | C179_index, C179_last_refuted, C179_key, C179_empty |
| C180 | The inverse of an invertible expression | SymModel.icon_item; induction over the tuple and over the solutions. | C180_inverse, C180_several_symbols_refuted, C180_several_refused |
| C181 | The distribution inside a sympy expression is found | SymModel.find_cdf; induction over the tree of arguments. | C181_found_iff, C181_found, C181_first_argument |
| C182 | Which mappings an expression accepts | ExprModel.check_mapping; contiguous is shown to mean that no integer is missing (Expr_Map). | C182_order_accepted_iff, C182_delta_accepted_iff |
| C183 | Scalar perturbations act in the transformed space | VariableModel.apply_delta at R; unfolding (Var_Move). | C183_transformed_space, C183_logarithmic |
| C184 | Products of repetitions add their counts | PDUtils.product; induction over the factors in fast_vals and add_counts, and the constructor keeps single values (PD_Counts). | C184_counts_add, C184_other_values_refuted |
| C185 | Which explicit conditionals are accepted | CFModel.make_cf, to_rf, set_inp; what is accepted is characterised exactly from Names_Proofs.split_join (CF_Proofs). | C185_accepted_iff, C185_kept |
| C186 | Outputs and inputs as lists of variables and fields | CFModel.make_cf, to_rf, set_inp; what is accepted is characterised exactly from Names_Proofs.split_join (CF_Proofs). | C186_variables, C186_dependences, C186_fields_refuted, C186_inputs_refuted |
| C187 | Asking a conditional function by name | CFModel.cf_run; induction over the history of operations (CF_Calls). | C187_last_key, C187_once, C187_never_asked, C187_plain_call_refuted |
| C188 | Explicit conditionals are drawn one entry at a time | CFModel.evals; induction over the evaluations, with the invariant that no index is pending (CF_Calls). | C188_never_drawn_refuted, C188_windows |
| C189 | Conditional functions keep the order and delta of their functions | CFModel.adopt, cf_set_func, make_cf; case analysis (CF_Calls). | C189_copied, C189_adopted, C189_order_refuted |
| C190 | Names of conditional functions | CFModel.adopt, cf_set_func, make_cf; case analysis (CF_Calls). | C190_names, C190_itself |
| C191 | A process steps with the sub-field or function it was last given | DelegModel: the setters as functions from states to states and exceptions; induction over histories, the object that steps being changed only by calls that name a sub-field or have no argument (Deleg_Proofs). | C191_delegated, C191_current, C191_handed_over, C191_proposer, C191_itself, C191_taken_back_refuted |
| C192 | Setters of a process called without argument remove the setting | DelegModel: the setters as functions from states to states and exceptions; induction over histories, the object that steps being changed only by calls that name a sub-field or have no argument (Deleg_Proofs). | C192_no_argument_refuted |
| C193 | Samples of a process follow the settings of the sub-field it uses | DelegModel: the setters as functions from states to states and exceptions; induction over histories, the object that steps being changed only by calls that name a sub-field or have no argument (Deleg_Proofs). | C193_at_once, C193_own, C193_later_refuted |
| C194 | Proposals and transitions exclude each other | DelegModel: the setters as functions from states to states and exceptions; induction over histories, the object that steps being changed only by calls that name a sub-field or have no argument (Deleg_Proofs). | C194_exclusive, C194_refused_kept_refuted, C194_refused_breaks_refuted, C194_named_refuted |
| C195 | Fields are equal if they have the same variables | DelegModel.py_eq, py_ne; case analysis over the classes (Deleg_Proofs). | C195_same_class, C195_neither_refuted |
| C196 | A field steps from arrays of values | ArrModel.rf_step_any, of values of any form, with arbitrary functions for what moves them; a step has no dimensions, so that make_pd refuses every array (Arr_Proofs, Arr_Thm). | C196_arrays_refuted, C196_left_out_refuted |
| C197 | A field steps from values given under shared keys | ArrModel.rf_step_any, of values of any form, with arbitrary functions for what moves them; a step has no dimensions, so that make_pd refuses every array (Arr_Proofs, Arr_Thm). | C197_shared_ignored_refuted |
| C198 | Sub-fields | SubModel.subfield, f_getitem; induction over the vertices (Sub_Proofs). | C198_names, C198_unknown, C198_field_refuted, C198_foreign_refuted, C198_stochastic_refuted |
| C199 | Indexing fields | SubModel.subfield, f_getitem; induction over the vertices (Sub_Proofs). | C199_name, C199_index |
| C200 | Calling a field gives a distribution of the values asked for | SubModel.f_call: C48 for the evaluation, C11 for the distribution made of it (Sub_Call). | C200_axes, C200_numbers |
| C201 | Variables are what was last asked of them | TransModel.do_call, a call as a change of the object; an invariant over histories says what each attribute is in terms of what was last asked for (Trans_Spec.ask, Trans_Proofs). | C201_order_free |
| C202 | Values of transformed variables | TransModel.tv_evaluate and tv_eval_prob of made variables; the standard library's Riemann integral and its fundamental theorem (Trans_Values). | C202_transformed_values |
| C203 | The density of an expression without change of variables | TransModel.tv_evaluate and tv_eval_prob of made variables; the standard library's Riemann integral and its fundamental theorem (Trans_Values). | C203_density_one, C203_same_law |
| C204 | Default densities integrate to one | Consequences of the invariant for removals and refused calls; exact conditions for the densities (Trans_Values, Trans_Calls). | C204_change_refuted, C204_decreasing_refuted |
| C205 | Nought outside of the set | Consequences of the invariant for removals and refused calls; exact conditions for the densities (Trans_Values, Trans_Calls). | C205_outside_refuted |
| C206 | Draws follow the default density | Consequences of the invariant for removals and refused calls; exact conditions for the densities (Trans_Values, Trans_Calls). | C206_law_refuted |
| C207 | Taking a transformation away | Consequences of the invariant for removals and refused calls; exact conditions for the densities (Trans_Values, Trans_Calls). | C207_removed_refuted, C207_assigned_again |
| C208 | Refused calls leave variables as they were | Consequences of the invariant for removals and refused calls; exact conditions for the densities (Trans_Values, Trans_Calls). | C208_pfun_refuted, C208_ufun_refuted, C208_dist_refuted, C208_pair_refuted |
| C209 | Writing replaces one file and no other | DiskModel.save, a call that returns the objects, the disk and the exception; induction over objects, values and auxiliary arrays (Disk_Proofs); the file left by a failure is read by DiskModel.load (Disk_Reads). | C209_other_files, C209_replaced |
| C210 | A write that fails leaves the file as it was | DiskModel.save, a call that returns the objects, the disk and the exception; induction over objects, values and auxiliary arrays (Disk_Proofs); the file left by a failure is read by DiskModel.load (Disk_Reads). | C210_refused_first, C210_raises_iff, C210_lost_refuted |
| C211 | What was written before a failure can be read | DiskModel.save, a call that returns the objects, the disk and the exception; induction over objects, values and auxiliary arrays (Disk_Proofs); the file left by a failure is read by DiskModel.load (Disk_Reads). | C211_unreadable_refuted |
| C212 | Auxiliary data come back as given | DiskModel.read_file of what save wrote; PD_File's round trip for the groups of distributions (Disk_Reads). | C212_data_round_trip |
| C213 | Only auxiliary data are read as such | DiskModel.read_file of what save wrote; PD_File's round trip for the groups of distributions (Disk_Reads). | C213_becomes_data_refuted |
| C214 | Writing again gives the same file | Marking dims is idempotent and leaves what is written as it was (Disk_Proofs.save_again). | C214_repeatable |
| C215 | Reverse proposals of samples | DelegModel.reverses along histories (Deleg_More). | C215_own, C215_delegated_refuted |
| C216 | Names of variables | IdentModel: programs over all variables as a fold of steps; what a step can change of one variable, then induction over the program (Ident_Proofs.kept_history). | C216_accepted_iff, C216_renamed, C216_refused_refuted |
| C217 | Symbols follow names | IdentModel: programs over all variables as a fold of steps; what a step can change of one variable, then induction over the program (Ident_Proofs.kept_history). | C217_symbol, C217_renamed_refuted |
| C218 | Attributes of symbols | IdentModel: programs over all variables as a fold of steps; what a step can change of one variable, then induction over the program (Ident_Proofs.kept_history). | C218_first_refuted, C218_own |
| C219 | Expressions of variables | IdentModel: programs over all variables as a fold of steps; what a step can change of one variable, then induction over the program (Ident_Proofs.kept_history). | C219_expression, C219_withdrawn, C219_random |
| C220 | Deltas belong to their variable | Classes of Deltas numbered as they are made; the invariant that variables have different classes, all made already, gives which class is whose (Ident_Proofs.class_kept); then VariableModel.apply_delta (Ident_Move). | C220_own_iff, C220_moves, C220_outdated_refuted |
| C221 | A probability object gives its last probability | ProbModel: a probability object changed by calls; what an accepted set_prob leaves (ProbO_Proofs.set_scipy, set_sympy), and what later calls cannot change, by induction over the history (ProbO_Proofs.kept). | C221_value, C221_scale, C221_refused |
| C222 | Which probabilities are accepted | ProbModel: a probability object changed by calls; what an accepted set_prob leaves (ProbO_Proofs.set_scipy, set_sympy), and what later calls cannot change, by induction over the history (ProbO_Proofs.kept). | C222_accepted_iff |
| C223 | Quantile functions belong to the probability | ProbModel: a probability object changed by calls; what an accepted set_prob leaves (ProbO_Proofs.set_scipy, set_sympy), and what later calls cannot change, by induction over the history (ProbO_Proofs.kept). | C223_taken, C223_stale_refuted, C223_sampler |
| C224 | Parts of a probability object | ProbModel: a probability object changed by calls; what an accepted set_prob leaves (ProbO_Proofs.set_scipy, set_sympy), and what later calls cannot change, by induction over the history (ProbO_Proofs.kept). | C224_refused, C224_sympy, C224_scipy_refuted |
| C225 | One distribution at a time | ProbModel: a probability object changed by calls; what an accepted set_prob leaves (ProbO_Proofs.set_scipy, set_sympy), and what later calls cannot change, by induction over the history (ProbO_Proofs.kept). | C225_two_refuted |
| C226 | Sizes of samples | ProbModel.sfun with the sequence of draws as parameter; list lemmas. | C226_samples |
| C227 | The probability a field shows is that of its calls | FProbModel: fields as probability objects over variables that are probability objects, with prob, def_prob and isiconic; the product of expressions by induction over the variables, calls by the product rule on scalars (FProb_Proofs.natural_specs, current_call), histories by induction. | C227_product, C227_logarithms_refuted |
| C228 | Fields follow the probabilities of their variables | FProbModel: fields as probability objects over variables that are probability objects, with prob, def_prob and isiconic; the product of expressions by induction over the variables, calls by the product rule on scalars (FProb_Proofs.natural_specs, current_call), histories by induction. | C228_current, C228_others |
| C229 | The probability a field shows is up to date | FProbModel: fields as probability objects over variables that are probability objects, with prob, def_prob and isiconic; the product of expressions by induction over the variables, calls by the product rule on scalars (FProb_Proofs.natural_specs, current_call), histories by induction. | C229_stale_refuted, C229_renewed, C229_own, C229_scale_refuted |
| C230 | Which fields show a probability | FProbModel: fields as probability objects over variables that are probability objects, with prob, def_prob and isiconic; the product of expressions by induction over the variables, calls by the product rule on scalars (FProb_Proofs.natural_specs, current_call), histories by induction. | C230_present_iff, C230_sympy_refuted |
| C231 | Fields on a scale of their own | FProbModel: fields as probability objects over variables that are probability objects, with prob, def_prob and isiconic; the product of expressions by induction over the variables, calls by the product rule on scalars (FProb_Proofs.natural_specs, current_call), histories by induction. | C231_scale_refuted |
| C232 | Conditional summaries of samples | Summaries with conditionalise and iterdict are modelled in SumModel. The gathered distribution has all variables on axis 0 (C154); the new axis of the first leaf is then at least 1, which moveaxis refuses for an array with one axis. iterdict: the gathered values as an inductive relation, alignment by induction on it. | C232_samples_refuted, C232_distributions_refuted |
| C233 | iterdict gathers values by key | Summaries with conditionalise and iterdict are modelled in SumModel. The gathered distribution has all variables on axis 0 (C154); the new axis of the first leaf is then at least 1, which moveaxis refuses for an array with one axis. iterdict: the gathered values as an inductive relation, alignment by induction on it. | C233_gathered, C233_aligned_iff |
| C234 | joint length of a field | LenModel: fields with the lengths they keep, histories by induction, scaled steps through FieldModel.f_set_delta; len and in from variable.length and inside; numpy.isin by sorting as a stable insertion sort with positions, of which it is proved by induction that an element equals its successor exactly if it equals any later element. | C234_value, C234_outdated_refuted, C234_refreshed, C234_transformed |
| C235 | len, truth and membership of variables | LenModel: fields with the lengths they keep, histories by induction, scaled steps through FieldModel.f_set_delta; len and in from variable.length and inside; numpy.isin by sorting as a stable insertion sort with positions, of which it is proved by induction that an element equals its successor exactly if it equals any later element. | C235_len_iff, C235_real_refuted, C235_in |
| C236 | membership of repeated values | LenModel: fields with the lengths they keep, histories by induction, scaled steps through FieldModel.f_set_delta; len and in from variable.length and inside; numpy.isin by sorting as a stable insertion sort with positions, of which it is proved by induction that an element equals its successor exactly if it equals any later element. | C236_distinct, C236_repeated_refuted, C236_probability_refuted |
| C237 | variables do not affect each other's sets | AliasModel: lists as numbered objects, variables that name them, programs as lists of acts. Independence by induction over the program; that lists made by the setter are not shared from an invariant of reachable worlds; a refinement lemma relates assignment to VariableModel.set_vset. | C237_assigned, C237_given_refuted, C237_independent, C237_fresh, C237_shared_refuted, C237_default_refuted, C237_outdated_refuted |
| C238 | a refused assignment of probabilities changes nothing | PDSetModel: the setters of prob, pscale, name and dims and item assignment as functions to a state and the exception raised; sequences of assignments by induction. Consistency is the predicate laid_out, which made distributions meet (C12), with the flags that made distributions note. | C238_made, C238_prob, C238_prob_refuted, C238_removed, C238_accepted, C238_last |
| C239 | assigning a scale keeps what the probabilities stand for | PDSetModel: the setters of prob, pscale, name and dims and item assignment as functions to a state and the exception raised; sequences of assignments by induction. Consistency is the predicate laid_out, which made distributions meet (C12), with the flags that made distributions note. | C239_scale, C239_meaning, C239_ratio, C239_kept_iff_refuted |
| C240 | assigning a name sets the roles | PDSetModel: the setters of prob, pscale, name and dims and item assignment as functions to a state and the exception raised; sequences of assignments by induction. Consistency is the predicate laid_out, which made distributions meet (C12), with the flags that made distributions note. | C240_name, C240_refused_refuted |
| C241 | probabilities match the axes after assigning axes or values | PDSetModel: the setters of prob, pscale, name and dims and item assignment as functions to a state and the exception raised; sequences of assignments by induction. Consistency is the predicate laid_out, which made distributions meet (C12), with the flags that made distributions note. | C241_dims, C241_exchanged_refuted, C241_item |
| C242 | the type of values given for a type | The type of a list is a fold over its elements; its value is characterised by induction, then compared with a specification by membership. | C242_type, C242_order, C242_first, C242_again_iff_refuted |
| C243 | derived distributions have probabilities of their own | ShareModel: buffers, arrays as views of them, and programs as lists of steps that derive or write. That unrelated distributions stay apart is an invariant of programs, by induction over the steps; that shared ones do not is computed from the view each method returns. The values shown by derived distributions are those of PDModel (C243_derived). | C243_derived, C243_own, C243_others, C243_rekey_refuted, C243_rekey_together_refuted, C243_sorted_refuted, C243_slice_refuted, C243_conditionalise_refuted |
| C244 | comparing distributions | EqModel: the comparison PD inherits from collections.OrderedDict, with the identity of objects as a parameter; induction over the items. Facts about made distributions from make_pd. | C244_true_iff, C244_false, C244_probabilities_refuted, C244_separate_refuted |

## 3. What is modelled and what is not

| Python module | modelled | not modelled |
|---|---|---|
| `constants.py`, `pscales.py` | everything | NaN/inf, rounding; `np.pi` in `prod_pscale` is 22/7 (only its distance from 0 matters) |
| `named_dict.py`, `distribution.py` | construction, name, dims setter, `singleton`, `redim`, `rekey`, `serialise`, `short_name`, `lookup` | `__repr__` |
| `pd.py` | construction, name/prob/pscale/dims setters, `marginalise`, `marginal`, `conditionalise`, `redim`, `rekey`, `prod`, `expectation`, `quantile`, `sorted`, `rescaled`, `__call__`, `__mul__`, `__add__`, `__truediv__`, `remarginalise` (scipy-free), `serialise` | `__repr__` |
| `pd_utils.py` | names, `product`, `summate`, `ismonotonic`, `iterdict` (SumModel), `serialise`, `deserialise`, `write_serialised`, `read_serialised` (with `aux_dict` and what a failing call leaves on disk: DiskModel) | names containing `/`, files written by others |
| `likelihoods.py` | `bool_perm_freq` and the likelihood functions made from it | |
| `vtypes.py` | type evaluation, the `is*` predicates on the values used, `revtype`, `uniform` | numpy scalar types |
| `variable.py` | set/type setters, limits, `inside`, `length`, `evaluate`, `eval_delta`, `apply_delta`, `variables` | sympy's solutions and derivatives (`set_ufun` takes an arbitrary function, inverse and derivative, see TransModel), icons |
| `rv.py`, `rv_utils.py`, parts of `prob.py` | construction, `set_prob`, `set_tran`, `set_tfun`, `evaluate`, `eval_prob`, `eval_step`, `eval_tran`, `__call__`, `step`, matrix sampling and look-up | sympy distributions |
| `expression.py`, `func.py` | class `Expression` and `Func` on ordinary functions: mappings, partials, routing of arguments, indexing | scipy objects; symbolic expressions have their own row |
| `functional.py`, `functional_utils.py` | `Functional`: construction, `add_func`, indexing, calls | sympy functions beyond the names of their symbols |
| `field.py`, part of `ops.py` | construction, `add_var`, `set_delta`, `eval_delta`, `parse_args`, `evaluate`, `eval_dist_name`, unions, `subfield`, `__getitem__`, `__call__` (SubModel) | functions as deltas other than of no arguments, Cholesky |
| `dependence.py`, part of `ops.py` | construction, classification of variables, `&` and `\|`, delegation of the setters to leafs and roots (DelegModel), `==` and `!=` | `add_deps` (calls methods that do not exist) |
| `rf.py`, `rf_utils.py` | fields of independent variables: construction, scale, `eval_prob`, `__call__`, `propose`, `step` between numbers (and ArrModel: from values of any form), also with proposal, transition or drawing functions set on the field, `reval_tran`; `rv_prod_rule`, `slice_by_keyvals`, `sample_cond_cov` | proposals other than one function of all variables, transition matrices of the field, explicit orders of conditionals |
| `sd.py`, `sd_utils.py` | `sd_utils.py`; `set_prob` and `__call__` (with `iid` and `joint`) of dependences of leafs on roots; `_sample_tran` of processes of real variables without roots; `_sample_prop` of processes over intervals; which object proposes and steps after any history of setters (DelegModel) | calls with functionals or explicit dependences, other forms of `sample` (a parameter of the process model) |
| `sp.py`, `sp_utils.py` | samplers, counters, `next`, `walk`, `reset`, generator, Metropolis / Hastings / Gibbs scores, thresholds and updates, summaries of accepted samples, also with `conditionalise` (SumModel) | |
| `cond_cov.py` | `CondCov` with matrix inversion and normal cdf/ppf as parameters | infinite limits, conditional densities |
| `cf.py` | all of `CF` and `_to_rf` (CFModel), and explicit conditionals in `RF.eval_tfun`, `RF.set_tran` and `set_tfun` of a `CF` | `passdims`, `passprob`, entries that are not strings, scipy objects as functions |
| `prob.py` (multivariate scipy distributions) | `set_prob`, `eval_prob` | scipy's own computation of the density: any function of the components, evaluated along the last axis, squeezed |
| `prob.py`, `rv.py` (univariate scipy distributions) | `set_prob`, `pscale`, `set_pfun`, `set_sfun`, `evaluate`, `eval_prob`, `__call__` of one variable | scipy's own functions: pdf, logpdf, cdf and ppf are any functions |
| `variable.py`, `rv.py`, `prob.py` (transformed real variables, TransModel) | `set_ufun`, `no_ucov`, `_eval_ulims`, `_default_prob`, `set_pfun`, `set_prob`, `vset`, `evaluate`, `eval_prob`, with the state that refused calls leave | expressions with constant derivatives, changes of scale after construction |
| `variable_utils.py`, `expr.py` | `parse_as_str_dict`, `sort_ordered_dict`, calls of `Expr` | the keyword `remap` itself; sympy's own simplification, substitution and code generation: an expression is any function of its symbols |
| `expression.py` (symbolic) | tuples, dictionaries and inverses, indexing | `sympy.solve` (any list of solutions), derivatives |
| `sympy_prob.py`, `prob.py` (probability objects on their own, ProbModel) | `sympy_obj_from_dist`, `sympy_sfun`, assignment of `distr`; `set_prob`, `pscale`, `set_pfun`, `eval_prob`, `__getitem__` of `Prob`, with the state that refused calls leave | `SympyProb.__getitem__`; sympy's expressions (any type, evaluation, logarithm and solutions) |
| `rf.py` (probabilities of fields, FProbModel) | `RF.set_prob`, `_default_prob`, `_refresh`, `pscale`, `eval_prob` with variables whose probabilities change; `isiconic` | passdims, arguments and keywords of probabilities |
| `variable.py`, `field.py`, `rf.py`, `rv_utils.py` (LenModel) | `__len__`, `__contains__`, `inside` of arrays, `eval_length` with the lengths fields keep, `uniform_prob` of arrays; `numpy.isin(..., assume_unique=True)` by comparison, by table and by sorting. Elsewhere `inside` of an array is membership element by element, which is what numpy gives unless it sorts and a value is repeated (C236) | which of its ways numpy takes (a parameter) |
| `variable.py` (AliasModel) | the lists in `DEFAULT_VSETS` and those given to `vset` as objects that are converted in place and shared; constructor and setter as acts on them, also where they raise. Elsewhere sets are values, which is what they are as long as no list is shared (C237_independent, C237_assigned) | tuples in lists that are shared (they are immutable) |
| `pd.py`, `distribution.py`, `named_dict.py` (PDSetModel) | assignment to `prob`, `pscale`, `name`, `dims` and items of a distribution, with the state that refused assignments of the first three leave | the state after a refused assignment of `dims`; deletion of items |
| `pd.py`, `pscales.py` (ShareModel) | which derived distributions hold views of the same array of probabilities, and what writing to an element does | the arrays of values; arrays the caller keeps; conversion of arrays that are not of floats; negative indices |
| `named_dict.py` (EqModel) | `==` of distributions, inherited from `collections.OrderedDict`, with the identity of arrays as a parameter | comparison of sets, of values of different kinds and of arrays of different shapes (any function) |
| `icon.py`, names, symbols, `Delta` classes and `dexpr` of `variable.py`, `rv.py` (IdentModel) | setters of `name`, `set_icon`, `dexpr`, `__getitem__`, `Delta`, with the state that refused calls leave | sympy's symbols (given by functions from names and assumptions to symbols, and from symbols to attributes) |

Outside the model altogether: numpy, scipy, sympy, networkx and h5py themselves (their behaviour is transcribed in
`Tensor.v` and in the comments of the definitions that use them), memory sharing between arrays (except as in ShareModel and AliasModel), warnings, performance.

## 4. Trusted base

* The kernel of Coq 8.16.1. No axioms of our own, no disabled checks, no plugins, no functors or module types.
* The correspondence between the Python/numpy semantics and the Gallina definitions, by inspection. In particular
  that `Tensor.v` renders numpy and `PDFile.v` renders h5py (iteration over groups in increasing name order, numeric
  data unchanged, no HDF5 type for text scalars and objects).
* Axioms of the standard library (and no other library's): `ClassicalDedekindReals.sig_forall_dec`,
  `ClassicalDedekindReals.sig_not_dec` (construction of the reals), `FunctionalExtensionality.functional_extensionality_dep`,
  `Classical_Prop.classic` (used by the standard library's proofs about `exp`, `ln`, `sqrt`).
  `coqchk` additionally reports the opaque module fields of `Rdefinitions` (`RbaseSymbolsImpl.*`, `RinvImpl.*`) and of
  `Coq.ssr.ssrunder` (`Under_rel.*`), which are sealed definitions of the standard library, not assumptions.

### What Print Assumptions lists for each theorem

**no axioms** (205 theorems)

C09_name_round_trip, C10_parenthesised_names_refuted, C11_accepts_iff, C11_dims_omitted, C11_layout, C11_shape_lists_sizes, C12_length_never_matters, C12_shared_axis_refuted, C18_common_column_refuted, C25_negative_axis_refuted, C32_effect_of_writing, C35_code_array, C35_code_round_trip, C35_no_superfluous_digits, C44_missing_keyword, C44_order_call, C44_overwritten_keyword_refuted, C45_delta_call, C45_value_and_difference_refuted, C46_accepted_function, C46_outputs_taken, C46_rejected_call_unchanged_refuted, C47_add_again, C47_add_collection_refuted, C47_add_one, C47_construction, C47_plain_refuted, C47_refused_variables_appear, C48_axes_distinct, C50_any_graph, C50_chain_accepted, C50_chain_refuted, C50_conditional, C50_long_chain_refuted, C50_parallel, C51_samplers_independent, C52_samples_form_a_trajectory, C53_stop_bounds_samples, C54_walk_discards_a_sample_refuted, C54_walk_exact, C54_walk_of_bounded_sampler, C55_old_samplers_raise_after_reset_refuted, C55_reset_entangles_samplers_refuted, C61_proposal_without_transition_accepts_all_refuted, C63_dims_required_refuted, C81_empty_tuple_refuted, C81_tuple_length_refuted, C82_multiple_not_called, C82_single, C82_tuple_index, C83_rejected_order_refuted, C84_func_stored_override_refuted, C84_given_keywords_override, C85_sole_dictionary, C86_arguments_refused, C86_keywords_dropped_refuted, C87_held_handle_refuted, C87_indexed_call_history, C87_second_call_refuted, C88_delta_function_closes, C88_delta_function_rejected, C88_missing_inputs_close, C89_call_drops_unneeded_inputs, C89_unneeded_inputs_are_required, C90_dependence_add_func_never_works, C91_kinds_never_mix, C92_associative, C92_idempotent, C92_mixed_refuted, C92_union, C95_shared_key_unchecked_refuted, C95_single_key_checked, C96_union, C97_first_field_changed_refuted, C97_mixed, C97_rootless_refuted, C97_three_arguments_refuted, C98_kinds, C98_or_refuted, C99_dependence_and_refuted, C99_field_and, C99_variable_and_refuted, C99_variable_conditioned_refuted, C100_desuffix, C100_no_suffix_refuted, C101_get_suffixed, C104_omitted_dims_refuted, C110_all_counted, C110_false_not_counted, C139_each_once, C142_never_again, C143_tuple_refuted, C147_left_out, C158_accepted, C158_kept_refuted, C158_second_refuted, C172_accepted_iff, C172_last_value_given, C172_not_a_dictionary, C173_dictionary, C173_keyword_order, C173_missing_symbol, C173_symbol_order, C173_value_by_name, C174_other_number, C174_position_refuted, C174_positional, C175_arrays_elementwise, C176_exchanged_refuted, C176_keyword_order_refuted, C176_one_array_flattened, C176_table, C177_array_unevaluated_refuted, C177_left_unevaluated_refuted, C177_remapped_keyword_refuted, C178_order_by_key, C178_other_keys, C178_other_length, C178_sorted, C179_empty, C179_index, C179_key, C179_last_refuted, C180_inverse, C180_several_refused, C180_several_symbols_refuted, C181_first_argument, C181_found, C181_found_iff, C182_delta_accepted_iff, C182_order_accepted_iff, C185_accepted_iff, C185_kept, C186_dependences, C186_fields_refuted, C186_inputs_refuted, C186_variables, C187_last_key, C187_never_asked, C187_once, C187_plain_call_refuted, C188_never_drawn_refuted, C188_windows, C189_adopted, C189_copied, C189_order_refuted, C190_itself, C190_names, C191_current, C191_delegated, C191_handed_over, C191_itself, C191_proposer, C191_taken_back_refuted, C192_no_argument_refuted, C193_at_once, C193_later_refuted, C193_own, C194_exclusive, C194_named_refuted, C194_refused_breaks_refuted, C194_refused_kept_refuted, C195_neither_refuted, C195_same_class, C198_field_refuted, C198_foreign_refuted, C198_names, C198_stochastic_refuted, C198_unknown, C199_index, C199_name, C209_other_files, C209_replaced, C210_lost_refuted, C210_raises_iff, C210_refused_first, C214_repeatable, C215_delegated_refuted, C215_own, C216_accepted_iff, C216_refused_refuted, C216_renamed, C217_renamed_refuted, C217_symbol, C218_first_refuted, C218_own, C219_expression, C219_random, C219_withdrawn, C220_own_iff, C221_refused, C221_scale, C221_value, C222_accepted_iff, C223_sampler, C223_stale_refuted, C223_taken, C224_refused, C224_scipy_refuted, C224_sympy, C225_two_refuted, C226_samples, C233_aligned_iff, C233_gathered, C240_refused_refuted

**`ClassicalDedekindReals.sig_forall_dec`, `FunctionalExtensionality.functional_extensionality_dep`** (2 theorems)

C59_conditional_unique, C134_within

**`ClassicalDedekindReals.sig_forall_dec`, `ClassicalDedekindReals.sig_not_dec`, `Classical_Prop.classic`, `FunctionalExtensionality.functional_extensionality_dep`** (346 theorems)

C01_rescale_nearly_preserves_denotation, C01_rescale_preserves_denotation, C01_unit_log_scale_refuted, C02_rescale_path_independent, C02_rescale_round_trip, C03_log_exp_safe_monotone_inverse, C04_eval_pscale_canonical, C04_eval_pscale_meaning, C05_prod_rule_linear, C05_prod_rule_plain_mix, C06_prod_pscale_correct_iff, C06_prod_pscale_refuted, C07_requested_linear_scale_refuted, C07_requested_log_scale_raises_refuted, C07_requested_natural_scale, C07_requested_scale_iff, C08_div_prob_linear_never_divides_by_zero, C08_div_prob_quotient, C08_requested_plain_log_scale_refuted, C13_marginal_complements, C13_marginalise_sums_out, C14_composes, C14_total_conserved, C15_aligned_layouts, C15_correct_iff, C15_exchanged_refuted, C15_placed, C15_shared_axis_raises_refuted, C15_shared_counted_refuted, C15_transposed_raises_refuted, C16_conditional, C16_no_column_left_refuted, C16_normalised, C17_conditionalise_iff, C17_first_column_refuted, C17_inner_column_refuted, C18_product_pointwise, C19_bayes, C19_division_returns_likelihood, C20_product_overlap_raises, C21_product_mismatch_raises, C21_scalar_mismatch_refuted, C21_scalars_accepted_refuted, C22_axis_order_refuted, C22_conditional_column_refuted, C22_division_iff, C22_division_places, C22_division_pointwise, C23_slice, C24_between, C24_scale_invariant, C24_vanishing, C24_weighted_mean, C25_sorted, C25_sorted_scalar, C25_valid_laid_out, C26_cells_sum, C26_one_cell, C26_scalar_refused, C26_total, C27_extra_factor, C27_log_as_linear_refuted, C27_product, C27_product_iff, C27_scalar_refused, C28_rekey_drops_refuted, C28_rekey_renames, C29_redim_attribute_error, C29_redim_raises_refuted, C30_serialise_round_trip, C31_last_one_is_kept, C31_serialise_loses_refuted, C32_unchanged_iff, C32_written_is_unusable_refuted, C33_counts_raise_refuted, C33_summate_concatenates, C34_ismonotonic_exact, C36_counts, C37_smoothing_refuted, C38_uniform_one, C38_uniform_points, C38_uniform_random, C39_evenly, C39_single_bool_refuted, C39_zero_and_none, C40_bounded_answers, C40_bounded_discrete, C40_bounded_interval, C40_discrete_membership_refuted, C40_half_open_high_refuted, C40_half_open_low_refuted, C41_bool_linear_refuted, C41_bool_log_refuted, C41_default_uniform, C41_sums_to_one, C42_sampling_interval, C42_step_given, C42_step_samples, C43_positional, C43_vtype_alone_refuted, C48_axes, C48_scalar_takes_axis_refuted, C48_scalars, C48_shared_scalars_take_axis_refuted, C49_exempt_refuted, C49_radius, C49_scaled_equal_lengths, C49_scaled_refuted, C56_metropolis_accepts_iff, C56_metropolis_detailed_balance, C57_hastings_inverted_refuted, C57_hastings_log_scale_refuted, C58_log_metropolis_iff, C59_samples_conditional_gaussian, C60_limits_move_with_mean, C60_within_limits_iff, C61_scores_without_predecessor, C62_likelihood_of_request, C63_other_axis_order_refuted, C64_discrete_membership, C64_interval_membership, C65_draw_inside_iff, C65_grid_inside, C66_zero_delta_moves_refuted, C66_zero_delta_refuted, C67_assignment_well_made, C67_constructor_well_made, C67_either_order, C67_retype_refuted, C68_documented_forms_refuted, C69_refused_set_stored_refuted, C70_lhv_refuted, C71_bool_parity, C71_bool_tuple_refuted, C71_random_ranges, C72_scale_refuted, C73_array_refuted, C74_prob_scale_refuted, C75_log_scale_ignored_refuted, C76_default_step, C76_log_refuted, C77_float_refuted, C77_many_refuted, C78_reassign, C78_transition_lost_refuted, C79_bernoulli, C79_draws, C79_log_refuted, C80_functional_samples, C93_dictionary_no_step, C93_dictionary_refuted, C94_number, C94_own_default, C102_parallel, C102_serial_refuted, C103_no_set_rejected, C103_two_sets_rejected, C105_conditionals_kept_refuted, C106_first_axis, C106_other_axis_refuted, C107_scalar_ignored_refuted, C108_list_discrete, C108_set_sorted, C108_tuple_open, C109_int_by_float, C109_type_kept, C110_named_updates, C111_file_round_trip, C112_order_unreadable_refuted, C113_spaces_lost_iff, C114_last_value, C114_one_position, C114_quantiles, C114_scalars, C114_within_range, C115_monotone_first_axis_partial, C115_monotone_gentle_partial, C115_monotone_refuted, C116_scale_invariant_inner_partial, C116_scale_invariant_refuted, C117_single_value_refuted, C118_independent, C119_propose, C120_not_successors_refuted, C120_step, C121_exchanges, C121_step_back, C122_no_conditionals_refuted, C122_parts, C123_as_distribution, C123_lookup, C124_conditional, C125_joint, C125_none_refuted, C126_default_refuted, C126_joint_refuted, C127_counted_refuted, C128_overridden_refuted, C129_spelling_refuted, C130_zero_scale_refuted, C131_rescaled, C131_round_trip, C132_balance, C132_metropolis_chain, C132_ratio, C133_balance_refuted, C133_two_way_chain, C134_bounded_chain, C134_set_delta_chain, C135_bool_stays_refuted, C136_hastings_chain, C137_own_transition, C138_gibbs_chain, C139_alone, C139_in_turn_refuted, C140_conditional_draws, C141_by_position, C141_order_refuted, C142_negative_refuted, C143_reverse_refuted, C144_balance_refuted, C144_hastings_chain, C144_metropolis_chain, C145_single_rejected, C146_set_delta_chain, C148_propose, C149_rejection, C150_forgotten_refuted, C151_not_drawn_refuted, C152_stuck_refuted, C153_no_suffix_refuted, C154_left_out, C154_summary, C155_step, C156_log_refuted, C156_outside_refuted, C157_reset, C157_unbounded, C159_uniform, C160_coordinates_refuted, C161_numbers_refuted, C162_axes_refuted, C163_one_variable_refuted, C163_single_refuted, C164_accepted, C165_density, C166_distribution_rescaled, C166_number_refuted, C167_draws, C167_grid, C168_discrete_refuted, C168_infinite_refuted, C168_sampled_iff, C169_default_draw_refuted, C170_removed, C170_scale, C170_stale_quantiles_refuted, C171_stale_bias_refuted, C183_logarithmic, C183_transformed_space, C184_counts_add, C184_other_values_refuted, C196_arrays_refuted, C196_left_out_refuted, C197_shared_ignored_refuted, C200_axes, C200_numbers, C201_order_free, C202_transformed_values, C203_density_one, C203_same_law, C204_change_refuted, C204_decreasing_refuted, C205_outside_refuted, C206_law_refuted, C207_assigned_again, C207_removed_refuted, C208_dist_refuted, C208_pair_refuted, C208_pfun_refuted, C208_ufun_refuted, C211_unreadable_refuted, C212_data_round_trip, C213_becomes_data_refuted, C220_moves, C220_outdated_refuted, C227_logarithms_refuted, C227_product, C228_current, C228_others, C229_own, C229_renewed, C229_scale_refuted, C229_stale_refuted, C230_present_iff, C230_sympy_refuted, C231_scale_refuted, C232_distributions_refuted, C232_samples_refuted, C234_outdated_refuted, C234_refreshed, C234_transformed, C234_value, C235_in, C235_len_iff, C235_real_refuted, C236_distinct, C236_probability_refuted, C236_repeated_refuted, C237_assigned, C237_default_refuted, C237_fresh, C237_given_refuted, C237_independent, C237_outdated_refuted, C237_shared_refuted, C238_accepted, C238_last, C238_made, C238_prob, C238_prob_refuted, C238_removed, C239_kept_iff_refuted, C239_meaning, C239_ratio, C239_scale, C240_name, C241_dims, C241_exchanged_refuted, C241_item, C242_again_iff_refuted, C242_first, C242_order, C242_type, C243_conditionalise_refuted, C243_derived, C243_others, C243_own, C243_rekey_refuted, C243_rekey_together_refuted, C243_slice_refuted, C243_sorted_refuted, C244_false, C244_probabilities_refuted, C244_separate_refuted, C244_true_iff
