# Formal model of probayes in Rocq (Coq 8.16.1)

Source of truth: `/repo/probayes/*.py` (pinned commit, read as text only).
The properties are listed in `properties.jsonl`; `MANIFEST.json` maps them to theorems.
(This file is written by `tools/design.py` from `tools/design_head.md` and `tools/plan.json`.)

## 1. Shape of the development (`rocq/theories`)

| file | contents |
|---|---|
| `Base.v` | Python exceptions as values, insertion-ordered dictionaries, small list tools |
| `Num.v` | numeric environment: operations on numbers, instances at the reals `R` and the rationals `Q` |
| `Tensor.v` | the numpy operations the code uses (shape, reshape, moveaxis, sum, broadcasting, indexing) |
| `PScales.v`, `Names.v`, `Distr.v`, `PDModel.v`, `PDUtils.v`, `PDFile.v`, `PDQuantile.v`, `Likelihoods.v`, `VariableModel.v`, `RVModel.v`, `ExprModel.v`, `FunctionalModel.v`, `FieldModel.v`, `DependenceModel.v`, `SDUtils.v`, `CondCovModel.v`, `SPModel.v`, `RFModel.v` | the model (see section 3 for what each covers) |
| `*_Spec.v` | independent specifications used in the theorem statements |
| `*_Proofs.v` and other `X_*.v` | lemmas and proofs about the model `X` |
| `Thm_*.v` | the property theorems only, each closed by `exact`, each followed by `Print Assumptions` and an `Example` that its hypotheses are met |

Conventions

* Every model definition has a comment with the file and lines it models and the simplifications made.
* Exceptions are values: `Ok x` or `Err e` with `e` the Python exception class. The order of checks is that of the code.
* Numbers: the model is written against a record of operations (`Num`). Theorems are about the instance at the
  real numbers, i.e. **floating point rounding is not modelled** (neither are NaN/inf); the safety thresholds
  (smallest positive / largest float) are kept as exact constants, because the code branches on them.
  The instance at `Q` only serves to run the model inside Coq on concrete examples.
* numpy arrays: a shape and a total function from index lists to elements; two arrays are the same when shapes are
  equal and elements agree on in-range indices. Scalars and 0-d arrays are identified.
* Python sets are iterated in an unspecified order: the model takes the keys as a duplicate-free list and the
  theorems quantify over that list, hence over all iteration orders.
* Text formatting of a number in names (`"{}={}"`) is an arbitrary function `fmt` that never emits the reserved
  characters `, | = ( )`.
* Random numbers are explicit arguments; theorems quantify over all outcomes.
* A claim that is false of the code keeps its user-facing statement in `properties.jsonl` (with a `finding`) and is
  answered by a theorem named `..._refuted` (a universal negative statement, an iff, or a failing input) beside what does hold.
  Theorems that establish only part of a claim end in `_partial`; the manifest says what is missing.

## 2. Plan per property

@PLAN@

## 3. What is modelled and what is not

| Python module | modelled | not modelled |
|---|---|---|
| `constants.py`, `pscales.py` | everything | NaN/inf, rounding; `np.pi` in `prod_pscale` is 22/7 (only its distance from 0 matters) |
| `named_dict.py`, `distribution.py` | construction, name, dims setter, `singleton`, `redim`, `rekey`, `serialise`, `short_name`, `lookup` | `__repr__` |
| `pd.py` | construction, name/prob/pscale/dims setters, `marginalise`, `marginal`, `conditionalise`, `redim`, `rekey`, `prod`, `expectation`, `quantile`, `sorted`, `rescaled`, `__call__`, `__mul__`, `__add__`, `__truediv__`, `remarginalise` (scipy-free), `serialise` | `__repr__` |
| `pd_utils.py` | names, `product`, `summate`, `ismonotonic`, `iterdict` (SumModel), `serialise`, `deserialise`, `write_serialised`, `read_serialised` (with `aux_dict` and what a failing call leaves on disk: DiskModel) | names containing `/`, files written by others |
| `likelihoods.py` | `bool_perm_freq` and the likelihood functions made from it | |
| `vtypes.py` | type evaluation, the `is*` predicates on the values used, `revtype`, `uniform` | numpy scalar types |
| `variable.py` | set/type setters, limits, `inside`, `length`, `evaluate`, `eval_delta`, `apply_delta`, `variables` | sympy's solutions and derivatives (`set_ufun` takes an arbitrary function, inverse and derivative, see TransModel), icons |
| `rv.py`, `rv_utils.py`, parts of `prob.py` | construction, `set_prob`, `set_tran`, `set_tfun`, `evaluate`, `eval_prob`, `eval_step`, `eval_tran`, `__call__`, `step`, matrix sampling and look-up | sympy distributions |
| `expression.py`, `func.py` | class `Expression` and `Func` on ordinary functions: mappings, partials, routing of arguments, indexing | scipy objects; symbolic expressions have their own row |
| `functional.py`, `functional_utils.py` | `Functional`: construction, `add_func`, indexing, calls | sympy functions beyond the names of their symbols |
| `field.py`, part of `ops.py` | construction, `add_var`, `set_delta`, `eval_delta`, `parse_args`, `evaluate`, `eval_dist_name`, unions, `subfield`, `__getitem__`, `__call__` (SubModel) | functions as deltas other than of no arguments, Cholesky |
| `dependence.py`, part of `ops.py` | construction, classification of variables, `&` and `\|`, delegation of the setters to leafs and roots (DelegModel), `==` and `!=` | `add_deps` (calls methods that do not exist) |
| `rf.py`, `rf_utils.py` | fields of independent variables: construction, scale, `eval_prob`, `__call__`, `propose`, `step` between numbers (and ArrModel: from values of any form), also with proposal, transition or drawing functions set on the field, `reval_tran`; `rv_prod_rule`, `slice_by_keyvals`, `sample_cond_cov` | proposals other than one function of all variables, transition matrices of the field, explicit orders of conditionals |
| `sd.py`, `sd_utils.py` | `sd_utils.py`; `set_prob` and `__call__` (with `iid` and `joint`) of dependences of leafs on roots; `_sample_tran` of processes of real variables without roots; `_sample_prop` of processes over intervals; which object proposes and steps after any history of setters (DelegModel) | calls with functionals or explicit dependences, other forms of `sample` (a parameter of the process model) |
| `sp.py`, `sp_utils.py` | samplers, counters, `next`, `walk`, `reset`, generator, Metropolis / Hastings / Gibbs scores, thresholds and updates, summaries of accepted samples, also with `conditionalise` (SumModel) | |
| `cond_cov.py` | `CondCov` with matrix inversion and normal cdf/ppf as parameters | infinite limits, conditional densities |
| `cf.py` | all of `CF` and `_to_rf` (CFModel), and explicit conditionals in `RF.eval_tfun`, `RF.set_tran` and `set_tfun` of a `CF` | `passdims`, `passprob`, entries that are not strings, scipy objects as functions |
| `prob.py` (multivariate scipy distributions) | `set_prob`, `eval_prob` | scipy's own computation of the density: any function of the components, evaluated along the last axis, squeezed |
| `prob.py`, `rv.py` (univariate scipy distributions) | `set_prob`, `pscale`, `set_pfun`, `set_sfun`, `evaluate`, `eval_prob`, `__call__` of one variable | scipy's own functions: pdf, logpdf, cdf and ppf are any functions |
| `variable.py`, `rv.py`, `prob.py` (transformed real variables, TransModel) | `set_ufun`, `no_ucov`, `_eval_ulims`, `_default_prob`, `set_pfun`, `set_prob`, `vset`, `evaluate`, `eval_prob`, with the state that refused calls leave | expressions with constant derivatives, changes of scale after construction |
| `variable_utils.py`, `expr.py` | `parse_as_str_dict`, `sort_ordered_dict`, calls of `Expr` | the keyword `remap` itself; sympy's own simplification, substitution and code generation: an expression is any function of its symbols |
| `expression.py` (symbolic) | tuples, dictionaries and inverses, indexing | `sympy.solve` (any list of solutions), derivatives |
| `sympy_prob.py`, `prob.py` (probability objects on their own, ProbModel) | `sympy_obj_from_dist`, `sympy_sfun`, assignment of `distr`; `set_prob`, `pscale`, `set_pfun`, `eval_prob`, `__getitem__` of `Prob`, with the state that refused calls leave | `SympyProb.__getitem__`; sympy's expressions (any type, evaluation, logarithm and solutions) |
| `rf.py` (probabilities of fields, FProbModel) | `RF.set_prob`, `_default_prob`, `_refresh`, `pscale`, `eval_prob` with variables whose probabilities change; `isiconic` | passdims, arguments and keywords of probabilities |
| `variable.py`, `field.py`, `rf.py`, `rv_utils.py` (LenModel) | `__len__`, `__contains__`, `inside` of arrays, `eval_length` with the lengths fields keep, `uniform_prob` of arrays; `numpy.isin(..., assume_unique=True)` by comparison, by table and by sorting. Elsewhere `inside` of an array is membership element by element, which is what numpy gives unless it sorts and a value is repeated (C236) | which of its ways numpy takes (a parameter) |
| `variable.py` (AliasModel) | the lists in `DEFAULT_VSETS` and those given to `vset` as objects that are converted in place and shared; constructor and setter as acts on them, also where they raise. Elsewhere sets are values, which is what they are as long as no list is shared (C237_independent, C237_assigned) | tuples in lists that are shared (they are immutable) |
| `pd.py`, `distribution.py`, `named_dict.py` (PDSetModel) | assignment to `prob`, `pscale`, `name`, `dims` and items of a distribution, with the state that refused assignments of the first three leave | the state after a refused assignment of `dims`; deletion of items |
| `pd.py`, `pscales.py` (ShareModel) | which derived distributions hold views of the same array of probabilities, and what writing to an element does | the arrays of values; arrays the caller keeps; conversion of arrays that are not of floats; negative indices |
| `named_dict.py` (EqModel) | `==` of distributions, inherited from `collections.OrderedDict`, with the identity of arrays as a parameter | comparison of sets, of values of different kinds and of arrays of different shapes (any function) |
| `icon.py`, names, symbols, `Delta` classes and `dexpr` of `variable.py`, `rv.py` (IdentModel) | setters of `name`, `set_icon`, `dexpr`, `__getitem__`, `Delta`, with the state that refused calls leave | sympy's symbols (given by functions from names and assumptions to symbols, and from symbols to attributes) |

Outside the model altogether: numpy, scipy, sympy, networkx and h5py themselves (their behaviour is transcribed in
`Tensor.v` and in the comments of the definitions that use them), memory sharing between arrays (except as in ShareModel and AliasModel), warnings, performance.

## 4. Trusted base

* The kernel of Coq 8.16.1. No axioms of our own, no disabled checks, no plugins, no functors or module types.
* The correspondence between the Python/numpy semantics and the Gallina definitions, by inspection. In particular
  that `Tensor.v` renders numpy and `PDFile.v` renders h5py (iteration over groups in increasing name order, numeric
  data unchanged, no HDF5 type for text scalars and objects).
* Axioms of the standard library (and no other library's): `ClassicalDedekindReals.sig_forall_dec`,
  `ClassicalDedekindReals.sig_not_dec` (construction of the reals), `FunctionalExtensionality.functional_extensionality_dep`,
  `Classical_Prop.classic` (used by the standard library's proofs about `exp`, `ln`, `sqrt`).
  `coqchk` additionally reports the opaque module fields of `Rdefinitions` (`RbaseSymbolsImpl.*`, `RinvImpl.*`) and of
  `Coq.ssr.ssrunder` (`Under_rel.*`), which are sealed definitions of the standard library, not assumptions.

### What Print Assumptions lists for each theorem

@ASSUMPTIONS@
