[
[1, 4, "PScales.v; case analysis on scales, exp/ln identities over R"],
[5, 7, "prod_pscale and prod_rule on arrays; induction over the factors; what fails is refuted by witnesses or an iff"],
[8, 8, "div_prob; algebra over R"],
[9, 10, "Names.v on strings; induction over strings and lists (split/join)"],
[11, 12, "Distr.v, the dims setter; invariant of the loop over keys"],
[13, 15, "PDModel.v marginalise; loop invariant relating new to old axes, then masked sums"],
[16, 17, "PDModel.v conditionalise; new axes for leading/trailing blocks, sums with kept axes; iff for when it returns"],
[18, 18, "PDUtils.v product; every factor read at an assignment of positions to variables, induction over factors"],
[19, 19, "conditionalise and product composed; Bayes' rule from the pointwise theorems"],
[20, 21, "PDUtils.v product; induction over factors, refutation by witness"],
[22, 22, "PDModel.v division; same-order case proved, permuted order refuted"],
[23, 23, "PDModel.v __call__; loop invariant over the sliced keys"],
[24, 24, "expectation; convexity of weighted means"],
[25, 25, "sorted; argsort is a permutation"],
[26, 26, "remarginalise; induction over cells"],
[27, 29, "prod, rekey, redim; induction over the positions multiplied, refutations by iff"],
[30, 32, "serialise, deserialise, write_serialised with an explicit file; round trips, refutations"],
[33, 34, "summate, ismonotonic; induction over samples / the array"],
[35, 38, "Likelihoods.v; induction over bits and rows, linspace algebra"],
[39, 40, "VariableModel.v evaluate / apply_delta; counting modulo, case analysis"],
[41, 43, "RVModel.v; sums over finite sets, cumulative sums, argument flow of the constructor"],
[44, 45, "ExprModel.v call routing; fold invariant"],
[46, 46, "FunctionalModel.v add_func as a state transformer"],
[47, 49, "FieldModel.v; state transformer, fold invariant, norm algebra"],
[50, 50, "DependenceModel.v; degrees of the graph of a dependence"],
[51, 55, "SPModel.v as a transition system over samplers; invariants by induction over all schedules"],
[56, 58, "SPModel.v scores; real algebra, refutations"],
[59, 60, "CondCovModel.v; linear algebra, monotone cdf"],
[61, 61, "SPModel.v updates; case analysis for every score and threshold"],
[62, 63, "Likelihoods.v and slice_by_keyvals; induction over labels and requested axes"],
[64, 72, "VariableModel.v; invariants of the setters over all histories, order algebra over R, exact exceptions"],
[73, 80, "RVModel.v; universal negative statements where every call raises, sums over sets, cumulative sums"],
[81, 87, "ExprModel.v; invariants over all call sequences, exact routing of arguments"],
[88, 91, "FunctionalModel.v; state transformer, exact exceptions"],
[92, 95, "FieldModel.v; set algebra on names, exact exceptions"],
[96, 99, "DependenceModel.v; graph union, induction over the arguments"],
[100, 102, "SDUtils.v; induction over strings and keys, product of factors"],
[103, 103, "CondCovModel.v; case analysis over requests"],
[104, 104, "Distr.v with PDModel.v expectation; witness and exact value"],
[105, 107, "PDModel.v remarginalise and __call__; computation for all values of the remaining arguments"],
[108, 110, "VariableModel.v, PDUtils.v; case analysis over the forms, induction over samples"],
[111, 113, "PDFile.v; store of named groups, sortedness of iteration"],
[114, 117, "PDQuantile.v; cumulative sums and first crossing, order algebra over R"],
[118, 119, "RFModel.v __call__ / propose; every variable's own distribution read on its axis, induction over variables"],
[120, 121, "RFModel.v step / reval_tran; product rule for two sets of numbers, real algebra, iff"],
[122, 123, "LookupModel.v lookup, p('marg'), p('cond'); induction over the key list with the seen set, prefix argument for the axes"],
[124, 126, "SDModel.v make_sd / set_prob / __call__ / joint; values evaluated position by position, the roots called again and multiplied with C18"],
[127, 127, "SDModel.v eval_iid; induction over the iid keys, axes left with a gap are refused (C11)"],
[128, 128, "SDModel.v sd_set_prob; case analysis of the two assignments"],
[129, 129, "PDUtils.v product; a key collected twice leaves a gap in the axes, refused by C11"],
[130, 130, "SDModel.v base_set_prob; truth value of a scale"],
[131, 131, "PD.rescaled on distributions whose columns may share axes: the constructor on unchanged values (remake) and C01/C02 on the array."],
[132, 136, "ChainModel.v assembles deltas of fields, steps with a transition function and named scores into an engine for the sampler model. One generic lemma (Chain_Run.sampler_chain): by induction over the steps of a sampler, its samples are those of the chain given by a move and an acceptance rule; then the moves (Chain_Thm, Chain_Uniform) and the scores are computed, and the rules studied on their own (Chain_Rules)."],
[137, 137, "RFModel.v rf_step with the variable's eval_tran; the step of a field for any transition probability (RF_Step.step_gen), then the transition computed at a pair of numbers"],
[138, 145, "GibbsModel.v: eval_tfun with its window of keys and the position kept by the process, steps and samples made of it, sample_cond_cov. The same generic lemma about samplers as C132 with the position as additional shared state (Gibbs_Run); the schedule of blocks by arithmetic of quotients (Gibbs_Proofs); CondCov through C59."],
[146, 146, "Chain_Set.v: FieldModel.f_set_delta and the steps it stores, evaluated with the random numbers of the step, give the numbers of Chain_Spec.set_moves; then the law of C132 (or of C134 with bounds), which is generic in how the numbers of a step come about."],
[147, 147, "FieldModel.f_parse_args: entries under single names pass unchanged (parse_entry), the loop over the keys of the field adds defaults; the condition for {0} against None is stated over the variables and the caller's entries."],
[148, 148, "OmcModel.sd_propose (rf.py 584-602 as called by sd.py); Omc_Proofs.propose_gen reuses the evaluation and assembly lemmas of C118/C124 with an empty conditional part."],
[149, 153, "OmcModel.om_engine and om_config instantiate the process of SPModel; one step from any dictionary is computed (Omc_Run.sample_at_point), then induction over the steps of a sampler among any others (SP_Proofs.sampler_view)."],
[154, 154, "OmcModel.summarise (sp.py 150-197): the accepted samples are the filter of the points; each summed list is handed to the law of C33."],
[155, 156, "RVModel.step: RV_Step.step_made builds the distribution (PD_Make.make_pd_ok) from the values RV_More.reshape_lists lays out; the number of each pair is the transition law proved for eval_tran."],
[157, 159, "Direct computation on RVModel.default_prob, rv_reset_prob, rv_set_tran; C159 by induction over the arguments (TensorBcast.tbin_fold)."],
[160, 164, "MVModel.mv_eval (meshgrid, stack, squeeze); MV_Proofs.grid_ok gives its shape and entries, SD_Proofs.sd_call_ok the call; PDModel.check_prob refuses every other shape (shape_checked)."],
[165, 166, "DistModel.dv_call; Dist_Proofs.call_made builds the distribution with PD_Make.make_pd_ok, density_call and scalar_call read its entries."],
[167, 167, "DistModel.dv_evaluate with Likelihoods.uniform; Lik_Slice.uniform_grid gives the cuts, share_cdf takes them through the inverse."],
[168, 171, "Case analysis of DistModel.dv_evaluate and dv_set_prob; C168 is an equivalence, the others hold for all draws."],
[172, 172, "SymModel.parse_as_str_dict; the loops are related to lists of named entries by induction (Sym_Parse)."],
[173, 177, "SymModel.se_call for arbitrary expressions given by their value as a function of their symbols; case analysis of lookups, broadcasting and meshgrid (Sym_Proofs, Sym_More)."],
[178, 178, "SymModel.sort_ordered_dict for every argsort that sorts; an explicit list of filled places is proved equal to the loop (Sym_Parse)."],
[179, 180, "SymModel.icon_item; induction over the tuple and over the solutions."],
[181, 181, "SymModel.find_cdf; induction over the tree of arguments."],
[182, 182, "ExprModel.check_mapping; contiguous is shown to mean that no integer is missing (Expr_Map)."],
[183, 183, "VariableModel.apply_delta at R; unfolding (Var_Move)."],
[184, 184, "PDUtils.product; induction over the factors in fast_vals and add_counts, and the constructor keeps single values (PD_Counts)."],
[185, 186, "CFModel.make_cf, to_rf, set_inp; what is accepted is characterised exactly from Names_Proofs.split_join (CF_Proofs)."],
[187, 187, "CFModel.cf_run; induction over the history of operations (CF_Calls)."],
[188, 188, "CFModel.evals; induction over the evaluations, with the invariant that no index is pending (CF_Calls)."],
[189, 190, "CFModel.adopt, cf_set_func, make_cf; case analysis (CF_Calls)."],
[191, 194, "DelegModel: the setters as functions from states to states and exceptions; induction over histories, the object that steps being changed only by calls that name a sub-field or have no argument (Deleg_Proofs)."],
[195, 195, "DelegModel.py_eq, py_ne; case analysis over the classes (Deleg_Proofs)."],
[196, 197, "ArrModel.rf_step_any, of values of any form, with arbitrary functions for what moves them; a step has no dimensions, so that make_pd refuses every array (Arr_Proofs, Arr_Thm)."],
[198, 199, "SubModel.subfield, f_getitem; induction over the vertices (Sub_Proofs)."],
[200, 200, "SubModel.f_call: C48 for the evaluation, C11 for the distribution made of it (Sub_Call)."],
[201, 201, "TransModel.do_call, a call as a change of the object; an invariant over histories says what each attribute is in terms of what was last asked for (Trans_Spec.ask, Trans_Proofs)."],
[202, 203, "TransModel.tv_evaluate and tv_eval_prob of made variables; the standard library's Riemann integral and its fundamental theorem (Trans_Values)."],
[204, 208, "Consequences of the invariant for removals and refused calls; exact conditions for the densities (Trans_Values, Trans_Calls)."],
[209, 211, "DiskModel.save, a call that returns the objects, the disk and the exception; induction over objects, values and auxiliary arrays (Disk_Proofs); the file left by a failure is read by DiskModel.load (Disk_Reads)."],
[212, 213, "DiskModel.read_file of what save wrote; PD_File's round trip for the groups of distributions (Disk_Reads)."],
[214, 214, "Marking dims is idempotent and leaves what is written as it was (Disk_Proofs.save_again)."],
[215, 215, "DelegModel.reverses along histories (Deleg_More)."],
[216, 219, "IdentModel: programs over all variables as a fold of steps; what a step can change of one variable, then induction over the program (Ident_Proofs.kept_history)."],
[220, 220, "Classes of Deltas numbered as they are made; the invariant that variables have different classes, all made already, gives which class is whose (Ident_Proofs.class_kept); then VariableModel.apply_delta (Ident_Move)."],
[221, 225, "ProbModel: a probability object changed by calls; what an accepted set_prob leaves (ProbO_Proofs.set_scipy, set_sympy), and what later calls cannot change, by induction over the history (ProbO_Proofs.kept)."],
[226, 226, "ProbModel.sfun with the sequence of draws as parameter; list lemmas."],
[227, 231, "FProbModel: fields as probability objects over variables that are probability objects, with prob, def_prob and isiconic; the product of expressions by induction over the variables, calls by the product rule on scalars (FProb_Proofs.natural_specs, current_call), histories by induction."],
[232,233,"Summaries with conditionalise and iterdict are modelled in SumModel. The gathered distribution has all variables on axis 0 (C154); the new axis of the first leaf is then at least 1, which moveaxis refuses for an array with one axis. iterdict: the gathered values as an inductive relation, alignment by induction on it."],
[234,236,"LenModel: fields with the lengths they keep, histories by induction, scaled steps through FieldModel.f_set_delta; len and in from variable.length and inside; numpy.isin by sorting as a stable insertion sort with positions, of which it is proved by induction that an element equals its successor exactly if it equals any later element."],
[237,237,"AliasModel: lists as numbered objects, variables that name them, programs as lists of acts. Independence by induction over the program; that lists made by the setter are not shared from an invariant of reachable worlds; a refinement lemma relates assignment to VariableModel.set_vset."],
[238,241,"PDSetModel: the setters of prob, pscale, name and dims and item assignment as functions to a state and the exception raised; sequences of assignments by induction. Consistency is the predicate laid_out, which made distributions meet (C12), with the flags that made distributions note."],
[242,242,"The type of a list is a fold over its elements; its value is characterised by induction, then compared with a specification by membership."],
[243,243,"ShareModel: buffers, arrays as views of them, and programs as lists of steps that derive or write. That unrelated distributions stay apart is an invariant of programs, by induction over the steps; that shared ones do not is computed from the view each method returns. The values shown by derived distributions are those of PDModel (C243_derived)."],
[244,244,"EqModel: the comparison PD inherits from collections.OrderedDict, with the identity of objects as a parameter; induction over the items. Facts about made distributions from make_pd."]
]
