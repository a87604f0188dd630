# Formal model of gwpopulation in Rocq (Coq 8.16.1)

## 1. Approach

`/repo` is a numerical library, so the model is a shallow, function-by-function
transcription of the Python code into Gallina over

* `xf` (`Xf.v`): numbers as `Fin r | PInf | NInf | NaN` with `r : R`. Finite arithmetic is exact
  (no rounding, overflow, underflow or signed zero); the *special values* follow IEEE-754/numpy
  (`0*inf = NaN`, `log 0 = -inf`, comparisons with NaN are false, `nan_to_num`, ...). Integrals are
  Coquelicot's `is_RInt` / `is_RInt_gen`.
* for the tail of the likelihood (`ln_l - 1.8e308`) the subtraction is additionally *rounded to
  binary64* (Flocq's `round radix2 (FLT_exp ..) ZnearestE` + overflow), because the property there is
  about rounding.
* Python dictionaries as insertion-ordered association lists (`Py.v`), exceptions as values
  (`result A := Ok a | Err e`), mutable objects as records threaded through state-passing functions,
  arrays as lists (or a heap of arrays where aliasing is the point).
* external code (scipy special functions, `bilby` models, `wcosmo` cosmologies, the
  `cached_interpolate` kernel, random number generators, module import) is either *defined*
  mathematically (`ndtr`, `betaln`, `i0e`: as integrals) or a function argument (oracle) over which
  every theorem quantifies.

Model files (`theories/*_model.v`) contain only definitions; `theories/*_facts.v` and `theories/*_thms.v` the lemmas;
`theories/Spec*.v` the small independent specification vocabulary (density, doc formulas, ...);
`theories/Props_*.v` only the property theorems (each closed by `exact`), non-vacuity examples and
`Print Assumptions`.

Where the code violates what its documentation promises, the property is stated as documented, the
true part is proved (`..._partial` or a guarded statement) and a theorem `..._refuted` exhibits the
counterexample in the model.

## 2. Plan per property

| id | modelled | proof |
|---|---|---|
| C01-C03 | `utils.powerlaw` incl. special values of `xp.power`, `xp.where`, mask | antiderivatives by FTC, limit by derivative of `exp`, case analysis |
| C04-C06 | `utils.truncnorm` with `ndtr` = 1/2 + integral of the Gaussian | Gaussian integral by parameter differentiation, substitution, branch equality |
| C07-C08 | `utils.beta_dist`, `betaln` = ln of improper Beta integral | existence of the improper integral, substitution |
| C09 | `utils.von_mises`, `i0e` = e^-abs(k) I0 as an integral | periodic shift of integrals |
| C10-C11 | `utils.unnormalized_2d_gaussian` | algebra; comparison with the inverse covariance matrix |
| C12,C14,C27 | `apply_conditions` with positional/keyword distinction and backend | case analysis / induction over the condition dict |
| C13 | `utils.trapezoid` on lists | induction |
| C15-C20,C80 | `conversions.py`; dictionary control flow; heap version for arrays | field, nra; finite case analysis lifted over dictionaries |
| C21-C27 | one/two dimensional analytic mass models | FTC, Chasles, iterated integrals |
| C28-C33 | `BaseSmoothedMassDistribution` as a state machine with cached interpolant | algebra on lists, invariants over call histories |
| C34-C37,C79,C81,C82 | `InterpolatedNoBaseModelIdentical`, `InterpolatedPowerlaw` as state machines | same |
| C38-C42 | `spin.py` | corollaries of C04, C07; double integrals |
| C43-C46 | `redshift.py`, cosmology as oracle | real algebra, list algebra |
| C47-C50 | `cosmo_models.py` on ordered dictionaries | induction over the dictionary |
| C51-C56 | `vt.py` | Cauchy-Schwarz on lists, case analysis, induction over axes |
| C57-C71 | `hyperpe.py` | list algebra, special-value analysis, Flocq rounding, improper integrals |
| C72-C75 | `backend.py` as a state machine with import failures | induction over call histories |
| C76-C78, C86, C87, C89 | `experimental/numpyro.py`, `experimental/jax.py` | refinement to the hyperpe model |
| C83, C84 | `redshift.py`: location of the maximum, support | convexity of exp, algebra |
| C85, C88 | `generate_rate_posterior_sample`, `RateLikelihood._get_selection_factor` | case analysis, field |
| C90, C91 | Python attribute lookup on `JittedLikelihood` with fuel for the recursion | induction on the fuel |
| C92 | `utils.get_name`, `to_numpy`, `HyperparameterLikelihood.meta_data` | case analysis, list algebra |
| C93 | `utils.trapezoid` against the Riemann integral | two mean value arguments per cell, induction over the grid |
| C94, C95 | estimators of `vt.py` and `hyperpe.py` over all finite draws | expectation as an iterated weighted sum, induction over the number of draws |
| C99, C100 | the same estimators: deviation and bias of the logarithm | Chebyshev, Jensen by the tangent of ln |
| C101 | the whole call of the smoothed classes on the product of their grids | every row of ratios integrates to the primary density at its mass (C32), the rows to 1 (C29) |
| C102, C103 | the likelihood with ResamplingVT, for a rescaled density and for two catalogues | selection values and weights scale together; sums over appended lists |
| C104, C105 | the estimators of events and injections | sums over repeated and appended lists; Cauchy-Schwarz |
| C106 | truncnorm and powerlaw with infinite or zero bounds | primitives and their limits; improper integrals |
| C107 | returned values against the docstring formulas of SpecDoc.v | closed forms of earlier sections; erf by substitution in the normal integral |
| C108 | log likelihood and efficiency as functions of the weights | induction over events; strict concavity of ln |
| C109 | every function with a backend argument, on the three backends | simulation: the numpy computation step by step below the jax one |
| C110 | mean of the weights, detection efficiency on Flocq's binary64 with an arbitrary tree of additions (`Rounded_model.v`) | relative error of each operation, induction over the tree |
| C111 | variance of an event and of the efficiency on binary64 | error analysis; witness by computation in Flocq |
| C112 | the same for tiny and huge weights, and the cut | monotonicity of rounding, underflow to zero, overflow to infinity |
| C113 | the densities at two parameter values, and the redshift models on their grid | increasing ratio of the two densities, split at the threshold; limits for improper integrals; the same argument on trapezoid sums |
| C114 | `trapezoid` on arrays of any rank, built from slices, broadcasting and a sum along the axis; the dispatch on the name | induction over shape and index; exchange of finite sums |
| C115 | the same with abscissae of another length | case analysis of broadcasting; refuted |
| C116 | `to_number` on numbers and arrays of the three libraries | case analysis; the accepted values differ |
| C117 | `powerlaw` on Flocq's binary64 with the library's power function as argument (`RoundedPl_model.v`) | both powers round to one and cancel; otherwise composition of relative errors in the logarithm |
| C118 | `powerlaw`, `truncnorm`, `power_law_mass`, `double_power_law_primary_mass`, `two_component_single` with two sets of limits | the normalisation of the narrow one is the integral of the wide one; a mixture would change its fraction |
| C119 | `p_m1`, `norm_p_m1`, `smoothing` as functions of delta_m | the clipped window is constant once delta_m is below the distance from mmin to the next grid mass |
| C120 | `likelihood_model` with selection and predictive sites, the random choice as argument | unfolding the selection block; the draw's probabilities are the normalised weights |
| C121 | `trap_terms64`, `normalise64` on Flocq's binary64 with an arbitrary tree of additions | four roundings per term by the `near` calculus, induction over the grid, then `sum_near`; underflow by `rnd_tiny` |
| C122 | `smoothing64` on Flocq's binary64, `expit` an argument | rounding is monotone; underflow and saturation of the logistic function from bounds on exp; log-closeness calculus for the error |
| C123 | Hyperpe_model (ln_likelihood_and_variance), SpecScore | the averages are linear in the events (C58, C64 formulas) and Gibbs' inequality, with its case of equality |
| C124 | Hyperpe_model, Vt_model, Cosmo_model, SpecCoord | the weights are the same real numbers, and every later step depends on the weights only |
| C125 | Hyperpe_model, Vt_model, SpecCoord | C58 formula; the logarithm of a mean of positive weights is 1-Lipschitz in the logarithms of the weights |
| C126 | the mass models of Mass_model.v and Smoothed_model.v | scaling lemmas for each normalised component; relation between objects preserved by each method |
| C127 | Redshift_model.v, Spin_model.v, Utils_model.v | equality of the evaluations; bounds on the Gaussian over an interval and on its tails |
| C128 | `SpecRows.v`: `table` (the data set of a list of samples), `sample_by_sample`; models as they are | every stage maps tables to tables (columns of equal length never broadcast), failures are constant or sample-wise; induction over samples, columns and parameters |
| C129 | `SpecCont.v`: `continuous_call` (near the point the call returns numbers, and these are continuous at it, over an arbitrary uniform space) | locally constant branch choice plus continuity of closed forms; (e^x - 1)/x through x = 0 for the slope -1; the normal distribution function is continuous because it is an integral |
| C130 | `SpecCont.v`: `rows_at`, `at_point`, `selection_converged` | the closed form of the estimators (C36, C37) is a composition of sums, quotients and logarithms of positive continuous functions; the convergence test is an open condition |
| C131 | `SpecCont.v`; model as it is | the power-law norm cancels between numerator and grid sum, so the sum depends on mmax only through the grid masses below it; the positive part by continuity of window, primary model and trapezoid at points off the grid |
| C132 | `Priors_model.v` (the four files as dictionaries of priors, the spin models called by keyword), `SpecPrior.v` (supports, draws, the entries a model is given) | inversion of a draw into its values and bounds, then positivity of the grid norm (a grid mass lies between the limits as soon as the step is below 10) and C32, C38, C39, C44 on those values |
| C133 | `Priors_model.v`, `SpecPrior.v` | a required keyword absent from every draw makes the binding of keywords fail whatever subset is passed |
| C134 | Example_model.v composes the mass, spin and redshift models as bilby's Model does, with the notebook's prior; SpecExample.v gives binaries, columns and weights | C134_density from the normalisation theorems of each factor; C134_likelihood from C67 (resampling), C51/C52 (detection efficiency, convergence), C54/C59 (rejection), by extensionality of the sampled arrays |
| C135 | `Cache_model.v`: the model object with one remembered evaluation per function, the likelihood with two of them; `SpecCache.v`: the product without memory | invariant: what is remembered is the function's value at the object's data set; induction on the sequence of evaluations |
| C136 | `Survey_model.v`: model objects whose functions have memory, the likelihood with two of them, the four functions of the test; `SpecSurvey.v`: what functions return on first use | invariant: memories are reached by calls on one data set, kept values are those of first use; C31, C128, C132 and C59 for the functions |
| C137 | `Abstract_model.v`: what the base classes supply; the rest is the model of the subclasses | unfolding along the evaluation order: the missing part is reached before anything is returned |
| C138 | `RoundedLogl_model.v`: the operations after the means on Flocq doubles; `SpecRoundLogl.v`: accuracy of a logarithm | error analysis of signed sums in any order, exactness of integer multiples in the subnormal range, C110 for the means; spacing of doubles around 1 for the logarithm |
| C139 | `Smoothed_model.v` with a linear interpolation kernel (`SpecGap.v`) | linearity of the trapezoid; strict convexity of m/(m-mmin) |
| C140 | `RoundedVariance_model.v`: the operations after the variances on Flocq doubles | error analysis of signed sums and of a quotient, from C111 |
| C141 | existing models | logarithms of the densities (linear, quadratic, Rolle), label exchange by computation on the keyword dictionaries |
| C142 | existing models | differentiation under the integral for normalised families, chain rule through the likelihood formula of C58 |
| C143 | `Ad_model.v`: traced formulas and jax's rules for forward and reverse mode, with symbolic zero tangents; `SpecAd.v`: derivative of a function with values in the extended reals, regular points | induction on the formula: each rule returns the derivative of the operation; comparisons are locally constant at regular points; C142 for the derivative at -1 |
| C144 | existing models of keyword calls (`kwbind`, `smoothed_call`) | a new key at the end of a dictionary changes only the lookups of that key |
| C145 | `Nd_model.v`: arrays with shape, dtype and Python numbers; broadcasting, in-place operations, integer powers, Python division | shapes form a partial order with least upper bounds; every operation computes the common shape and the entries |
| C146 | `RoundedTn_model.v`: `truncnorm` on Flocq's binary64 with exp, log, log1p, ndtr, log_ndtr as arguments | error of each operation; mean value theorem for the normal distribution function; both probabilities round to one half in the refutation |
| C147 | `RoundedConv_model.v`: the scalar lines of both conversions on Flocq's binary64 | error of each operation, relative where nothing cancels, absolute for the differences; the witnesses are computed by the kernel |
| C148 | `NdModels_model.v`: the models line by line on the values of `Nd_model.v`, with the keyword checks on all elements | a column stays a column of the same shape under every operation with columns and scalars; the densities by C145 |
| C149 | `NdRedshift_model.v`: the methods line by line on the values of `Nd_model.v`; the cosmology is an argument applied element by element | as C148; the normalisation on the grid equals the pointwise one |
| C150 | `RoundedBeta_model.v`: the lines of `beta_dist` on Flocq's binary64, elementary functions as arguments | error terms of the four summands added up; `exp` turns the absolute error of the logarithm into a relative one |
| C151 | `NumInterp_model.v`: the methods of `Interp_model.v` with parameters tagged integer or float; the in-place product fails on integer arrays | the tagged and untagged programs agree step by step |
| C152 | `RoundedRate_model.v` on the binary64 numbers of Flocq, the power an argument; spec `SpecRoundRate.v` | relative errors add in the logarithm (`cl`); adding 1 does not increase them; the bands exclude overflow and underflow |
| C153 | `RoundedMix_model.v` on the binary64 numbers of Flocq with the components of `RoundedPl_model.v` and `RoundedTn_model.v`; spec `SpecRoundMix.v` | a relation `ap` (factor exp(d), absolute slack t) closed under products, sums and rounding |
| C154 | `RoundedSmooth_model.v` on the binary64 numbers of Flocq with the window of `RoundedWindow_model.v` and the trapezoid rule of `RoundedTrap_model.v` | the relation `ap` of C153 through the product, the trapezoid terms (induction on the grid), the sum (`sum_near` of C110) and the quotient; the window by the three regions s <= 1/700, 1/700 < s <= 63/64, s > 63/64 |
| C155 | `RoundedRedshift_model.v` on the binary64 numbers of Flocq over `RoundedRate_model.v` and `RoundedTrap_model.v` | C152's pointwise bound, then the relation `ap` of C153 through the trapezoid terms (induction on the grid), the sum (C112's `sum_near`) and the quotient, as in C154 |
| C156 | `RoundedJoint_model.v` on the binary64 numbers of Flocq over `RoundedPl_model.v`, `RoundedBeta_model.v` and `RoundedMix_model.v` | the relation `ap` of C153 through the products, the comparison and the factor two |
| C157 | `RoundedRatio_model.v` on the binary64 numbers of Flocq over `RoundedPl_model.v` and `RoundedMix_model.v` | C117 with the rounded lower limit, monotonicity of rounding for the cut, and a perturbation bound for the change of the normalisation with the limit |
| C96 | `mass.py` models at the boundary of their parameter space | additivity of the power-law normalisation, special-value analysis |
| C97, C98 | `utils.beta_dist`, `spin.py` | symmetry of the Beta integral, associativity of extended multiplication |

All properties can be expressed in a model; none is "not applicable".

## 3. Trusted base

**Kernel.** Coq 8.16.1's kernel, including its virtual machine (`vm_compute` decides a few closed facts
about the largest double and one example; `native_compute` is not used). Libraries: Coq's standard library, Coquelicot and Flocq (both axiom-free over the standard
library's reals).

**Axioms.** Only axioms of the standard library occur; the list of each theorem is in
`ASSUMPTIONS.md` (generated from `Print Assumptions`, which also follows every theorem in
`Props_*.v`). The union is

* `ClassicalDedekindReals.sig_forall_dec`, `ClassicalDedekindReals.sig_not_dec` (the classical reals),
* `FunctionalExtensionality.functional_extensionality_dep` (used by the reals and Coquelicot),
* `Classical_Prop.classic` (used by Coquelicot and Flocq).

No axiom, parameter, section-less variable, admitted proof, functor or module type is declared in
`theories/`.

**The step from Python to the model** is trusted, not proved. Every definition in `*_model.v` cites the
lines it transcribes. What it takes for granted:

* *Numbers.* Finite arithmetic is exact except in these places rounded with Flocq: the final subtraction of
  the likelihood (C57, C58), the log-likelihood of `RoundedLogl_model.v` (C138), the total variance of `RoundedVariance_model.v` (C140), the Monte Carlo estimators of `Rounded_model.v` (C110-C112), the power law of `RoundedPl_model.v` (C117), the truncated normal of `RoundedTn_model.v` (C146), the Beta density of `RoundedBeta_model.v` (C150), the redshift models of `RoundedRate_model.v` (C152), the mixtures of `RoundedMix_model.v` (C153), the smoothed primary density of `RoundedSmooth_model.v` (C154), the normalised redshift density of `RoundedRedshift_model.v` (C155), the joint densities of `RoundedJoint_model.v` (C156), the mass-ratio density of `RoundedRatio_model.v` (C157), the beta conversions of `RoundedConv_model.v` (C147), the trapezoid rule of
  `RoundedTrap_model.v` (C121) and the smoothing window of `RoundedWindow_model.v` (C122), where sums,
  quotients and squares are rounded to binary64 in any order of addition. Elsewhere, overflow and underflow of intermediate results, signed zeros and dtype
  (integer or 32-bit) effects are not modelled, except integer arguments of the elementary densities and models (C145, C148, C149, C151).
* *Arrays.* Element-wise code is modelled at one element or on lists; matrices are lists of lists;
  broadcasting is modelled where shapes can differ. Aliasing and in-place updates are modelled where they
  are observable (`convert_to_beta_parameters`, caches of the stateful models, `+=` on class attributes).
* *numpy / cupy / jax* differ in the model only where the code or the property depends on it (division of
  Python floats, `ndarray` methods, `apply_conditions`, jit tracing, `to_numpy`). jit is taken to preserve
  values and to raise when a traced value is branched on.
* *External functions.* `ndtr`, `betaln`, `gammaln`, `i0e` are their mathematical definitions (integrals).
  The interpolation kernel of `cached_interpolate`, astropy/wcosmo cosmologies, user models, conversion
  functions, selection functions, random draws, module import and attribute lookup are arguments that every
  theorem quantifies over. bilby's `Model.prob` is the product over its functions, and its cache (C135) remembers,
  per function, the parameters and the value of the last evaluation, as bilby documents; bilby is not part of `/repo`. bilby's `Likelihood`
  enters through the names it defines (C90) and `noise + ratio` (C70).
* *Dictionaries* are insertion-ordered association lists; keyword arguments are dictionaries.

**Modelled** (all of `gwpopulation/*.py`, `models/*.py`, `experimental/*.py` except the list below):

| file | definitions |
|---|---|
| `utils.py` | `Utils_model.v`, `Meta_model.v` (`get_name`, `to_numpy`), `Trap_model.v` (`trapezoid` on arrays, `to_number`) |
| `conversions.py` | `Conversions_model.v` |
| `models/mass.py` | `Mass_model.v`, `Smoothed_model.v`, `Interp_model.v` (`InterpolatedPowerlaw`) |
| `models/interped.py`, spline models of `models/spin.py` | `Interp_model.v` |
| `models/spin.py` | `Spin_model.v` |
| `models/redshift.py` | `Redshift_model.v` |
| `experimental/cosmo_models.py` | `Cosmo_model.v` |
| `vt.py` | `Vt_model.v` |
| estimators of `hyperpe.py` and `vt.py` on binary64 | `Rounded_model.v` |
| the log-likelihood of `hyperpe.py` on binary64, after the means | `RoundedLogl_model.v` |
| the total variance of `hyperpe.py` on binary64 | `RoundedVariance_model.v` |
| `utils.powerlaw`, `utils.truncnorm`, the smoothing window and the rate evolutions as jax traces them, forward and reverse mode (jax's own rules are trusted as transcribed, not code of this repository) | `Ad_model.v` |
| base classes (`_BaseVT.__call__`, `BaseSmoothedMassDistribution.primary_model`) | `Abstract_model.v` |
| `powerlaw` of `utils.py` on binary64 | `RoundedPl_model.v` |
| `truncnorm` of `utils.py` on binary64 | `RoundedTn_model.v` |
| the beta-parameter conversions of `conversions.py` on binary64 | `RoundedConv_model.v` |
| `beta_dist` of `utils.py` on binary64 | `RoundedBeta_model.v` |
| rate evolution and differential spacetime volume of `models/redshift.py` on binary64 | `RoundedRate_model.v` |
| the mixtures of `models/mass.py` and `models/spin.py` on binary64 | `RoundedMix_model.v` |
| the spline models with integer or float parameters | `NumInterp_model.v` |
| `trapezoid` and the division by it on binary64 | `RoundedTrap_model.v` |
| the smoothing window of `mass.py` on binary64 | `RoundedWindow_model.v` |
| `hyperpe.py` | `Hyperpe_model.v`, `Double.v` (rounding), `Meta_model.v` |
| `backend.py` | `Backend_model.v` |
| `experimental/numpyro.py`, `experimental/jax.py` | `Numpyro_model.v` |
| `priors/*.prior` (names and ranges), keyword calls of the spin models | `Priors_model.v` |
| `bilby.hyper.model.Model` with its cache, as used by `hyperpe.py` and `vt.py` | `Cache_model.v` |
| `test/example_test.py`: the model objects with both levels of caching and the likelihood built from them | `Survey_model.v` |
| `examples/GWTC3.ipynb`: its prior and population model, and the likelihood built from them | `Example_model.v` |
| `utils.py`: `powerlaw`, `truncnorm`, `beta_dist` on arrays of any shape and dtype | `Nd_model.v` |
| `models/mass.py` 38-527, `models/spin.py` 24-224 on arrays of any shape and number type | `NdModels_model.v` |
| `models/redshift.py` 68-249 on arrays of any shape and number type | `NdRedshift_model.v` |

**Not modelled**: logging, docstrings, abscissae of more than one dimension in `trapezoid`, packaging, and the algorithms inside the external functions listed above.
