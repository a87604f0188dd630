{"id": "C01", "title": "powerlaw is a probability density on [low, high]", "statement": "For every spectral index alpha (including alpha=-1) and all 0 < low < high, powerlaw(x, alpha, high, low) is finite and strictly positive for x in [low, high], is exactly 0 for positive x outside it, and integrates to exactly 1 over [low, high].", "quantifier": "all real alpha, all 0<low<high, all x>0", "why_tests_cant": "the normalisation is an integral identity over a continuum of alphas, with a removable singularity at alpha=-1 that sampling never hits", "anchors": ["gwpopulation/utils.py:powerlaw"]}
{"id": "C02", "title": "powerlaw's alpha=-1 branch is the limit of the generic branch", "statement": "At every x in [low, high] the value returned for alpha=-1 is the limit of the values returned as alpha tends to -1, so the special case introduces no jump in the likelihood surface.", "quantifier": "all 0<low<high, all x in [low, high], all sequences alpha->-1", "why_tests_cant": "a limit statement quantifies over all neighbourhoods", "anchors": ["gwpopulation/utils.py:powerlaw"]}
{"id": "C03", "title": "powerlaw outside its support", "statement": "powerlaw returns exactly 0 at every finite x outside [low, high] (0<low<high). The model shows this is violated: at x=0 with alpha<0, and at x<0 with non-integer alpha, the result is NaN, not 0; it holds for every x>0 and for x=0 with alpha>=0.", "quantifier": "all finite x outside [low, high], all alpha", "why_tests_cant": "tests only evaluate positive x; the failing points are a measure-zero set", "anchors": ["gwpopulation/utils.py:powerlaw"]}
{"id": "C04", "title": "truncnorm is a probability density on [low, high]", "statement": "For every mu, sigma>0 and low<high, truncnorm(x, mu, sigma, high, low) is finite, strictly positive on [low, high], exactly 0 outside, and integrates to exactly 1 over [low, high]; in particular the three numerically different branches used for the normalisation (both bounds below the mean, both above, straddling) all give the same mathematical value ln(Phi(b)-Phi(a)).", "quantifier": "all real mu, low<high, sigma>0, all x", "why_tests_cant": "integral identity over a 4-parameter continuum and agreement of three formulas on their whole domains", "anchors": ["gwpopulation/utils.py:truncnorm"]}
{"id": "C05", "title": "truncnorm never returns NaN", "statement": "For all finite x, mu, low, high and sigma>0 -- including low>=high -- truncnorm returns a finite non-negative number, and returns 0 whenever low>high.", "quantifier": "all finite inputs with sigma>0, ordered or not", "why_tests_cant": "degenerate intervals are not sampled", "anchors": ["gwpopulation/utils.py:truncnorm"]}
{"id": "C06", "title": "truncnorm is shift, scale and reflection equivariant", "statement": "truncnorm(x+c, mu+c, sigma, high+c, low+c) = truncnorm(x, mu, sigma, high, low); scaling every length by s>0 divides the density by s; reflecting (x,mu,low,high)->(-x,-mu,-high,-low) leaves it unchanged.", "quantifier": "all real shifts, positive scales, all inputs with sigma>0 and low<high", "why_tests_cant": "universal algebraic law", "anchors": ["gwpopulation/utils.py:truncnorm"]}
{"id": "C07", "title": "beta_dist is a probability density on (0, scale)", "statement": "For all alpha, beta, scale > 0, beta_dist(x, alpha, beta, scale) equals x^(alpha-1)(scale-x)^(beta-1)/(B(alpha,beta) scale^(alpha+beta-1)) on 0<x<scale, is exactly 0 for x<0 and x>scale, and its (improper) integral over (0, scale) is exactly 1.", "quantifier": "all alpha,beta,scale>0, all x != 0, scale", "why_tests_cant": "improper integral identity over a continuum", "anchors": ["gwpopulation/utils.py:beta_dist"]}
{"id": "C08", "title": "beta_dist at the edges of its support", "statement": "At x=0 and x=scale beta_dist equals the limit of the density from inside the interval. The model shows this is violated: for alpha=1 the value at x=0 is 0 although the density tends to beta/scale there (0*(-inf) is NaN, then nan_to_num), and likewise at x=scale for beta=1.", "quantifier": "all alpha, beta, scale>0", "why_tests_cant": "edge points have measure zero under sampling", "anchors": ["gwpopulation/utils.py:beta_dist"]}
{"id": "C09", "title": "von_mises is a probability density on the circle for kappa>=0", "statement": "For all mu and kappa>=0 von_mises(x, mu, kappa) is positive, 2*pi-periodic, symmetric about mu, maximal at mu, and integrates to exactly 1 over every interval of length 2*pi. For kappa<0 the model shows the integral is exp(-2*kappa)>1.", "quantifier": "all real mu, kappa>=0, all interval start points", "why_tests_cant": "integral identity over a continuum; tests draw kappa from [0,15] only", "anchors": ["gwpopulation/utils.py:von_mises"]}
{"id": "C10", "title": "unnormalized_2d_gaussian matches its documented covariance matrix", "statement": "unnormalized_2d_gaussian(x,y,...) = exp(-r Sigma^{-1} r^T / 2) with Sigma = [[sx^2, rho sx sy],[rho sx sy, sy^2]]. The model shows this is violated for rho != 0: the code divides by 1-rho where the matrix inverse needs 1-rho^2, so the value is the documented one raised to the power 1+rho; it holds for rho=0.", "quantifier": "all means, positive widths, -1<rho<1, all points", "why_tests_cant": "the discrepancy is a smooth change of shape invisible to normalisation tests", "anchors": ["gwpopulation/utils.py:unnormalized_2d_gaussian"]}
{"id": "C11", "title": "unnormalized_2d_gaussian shape", "statement": "For -1<rho<1 and positive widths the value lies in (0,1], equals 1 exactly at the mean, is symmetric under (x,y)->2mu-(x,y), under exchanging the two axes, and factorises into two one-dimensional Gaussians when rho=0.", "quantifier": "all inputs with positive widths and |rho|<1", "why_tests_cant": "universal", "anchors": ["gwpopulation/utils.py:unnormalized_2d_gaussian"]}
{"id": "C12", "title": "apply_conditions rejects exactly the violated keyword conditions", "statement": "On the numpy and cupy backends a decorated function raises ValueError iff some condition names an argument passed by keyword whose value fails the condition in at least one element (NaN fails every ordering comparison); otherwise, and always on the jax backend, the call is forwarded unchanged. Arguments passed positionally are never checked.", "quantifier": "all condition dictionaries, all keyword dictionaries, all values, all backends", "why_tests_cant": "quantifies over arbitrary user functions, conditions and arrays", "anchors": ["gwpopulation/utils.py:apply_conditions"]}
{"id": "C13", "title": "trapezoid is a linear quadrature rule, exact on affine functions", "statement": "For every grid x (of any length, any spacing) the result is linear in y, equals the exact integral for affine y, is additive over concatenation of grids sharing an endpoint, changes sign when the grid is reversed, is monotone in y on an increasing grid, and is the integral of the piecewise-linear interpolant.", "quantifier": "all grids of all lengths, all y", "why_tests_cant": "unbounded length induction", "anchors": ["gwpopulation/utils.py:trapezoid"]}
{"id": "C14", "title": "Which densities validate their parameters", "statement": "Every public density that documents a positive width/shape parameter raises ValueError on a non-positive value on the numpy backend. The model shows which call paths do (mass Gaussian component, chi_eff, chi_p, beta scale) and that the spin models pass alpha/beta/sigma positionally and so skip the check.", "quantifier": "all parameter values, all public spin and mass densities", "why_tests_cant": "absence of an exception for all inputs on a path", "anchors": ["gwpopulation/utils.py:apply_conditions", "gwpopulation/models/spin.py:independent_spin_magnitude_beta", "gwpopulation/models/spin.py:independent_spin_orientation_gaussian_isotropic", "gwpopulation/models/mass.py:two_component_single"]}
{"id": "C15", "title": "Beta parameter conversions are mutually inverse", "statement": "mu_var_max_to_alpha_beta_max(alpha_beta_max_to_mu_var_max(a,b,m)) = (a,b,m) for all a,b,m>0, and the converse round trip is the identity for every m != 0, var != 0, 0<mu<m with var < mu(m-mu).", "quantifier": "all positive parameters", "why_tests_cant": "round trip over a continuum", "anchors": ["gwpopulation/conversions.py:alpha_beta_max_to_mu_var_max", "gwpopulation/conversions.py:mu_var_max_to_alpha_beta_max"]}
{"id": "C16", "title": "Converted beta parameters are admissible exactly on the feasible region", "statement": "For 0<var and 0<amax, mu_var_max_to_alpha_beta_max yields alpha>0 and beta>0 iff 0<mu<amax and var < mu(amax-mu).", "quantifier": "all mu, var>0, amax>0", "why_tests_cant": "iff over a continuum", "anchors": ["gwpopulation/conversions.py:mu_var_max_to_alpha_beta_max"]}
{"id": "C17", "title": "convert_to_beta_parameters only adds, and reports what it added", "statement": "For every input dictionary: when it returns, the caller's dictionary has the same keys and values as before, every key other than the reported alpha_chi*/beta_chi* keys keeps its value, every reported key is present with a non-None value, with remove=True the reported keys are exactly the keys whose value was written, and with remove=False none are reported.", "quantifier": "all dictionaries over all key sets, both flags", "why_tests_cant": "quantifies over every combination of present/absent/None keys", "anchors": ["gwpopulation/conversions.py:convert_to_beta_parameters"]}
{"id": "C18", "title": "Which parameter set convert_to_beta_parameters converts", "statement": "The shared (unsuffixed) parameters are converted iff neither the _1 nor the _2 parameters were available; each suffixed set is converted iff its alpha/beta is missing or None and mu and sigma are both present; a missing amax then raises KeyError and nothing else does (for nonzero sigma and amax).", "quantifier": "all dictionaries", "why_tests_cant": "combinatorial control flow over all key sets", "anchors": ["gwpopulation/conversions.py:convert_to_beta_parameters"]}
{"id": "C19", "title": "Conversion is idempotent", "statement": "Applying convert_to_beta_parameters to its own result changes nothing and adds no key.", "quantifier": "all dictionaries on which the first call succeeds", "why_tests_cant": "two-call history over all inputs", "anchors": ["gwpopulation/conversions.py:convert_to_beta_parameters"]}
{"id": "C20", "title": "Conversion does not modify the caller's arrays", "statement": "convert_to_beta_parameters leaves the arrays stored in the caller's dictionary unchanged. The model shows this holds for scalar values but is violated for array values: the in-place divisions rescale the caller's mu and sigma arrays, so converting twice gives a different answer.", "quantifier": "all dictionaries whose values are arrays, all call histories", "why_tests_cant": "aliasing effect only visible across calls", "anchors": ["gwpopulation/conversions.py:mu_var_max_to_alpha_beta_max", "gwpopulation/conversions.py:convert_to_beta_parameters"]}
{"id": "C21", "title": "double_power_law_primary_mass is a continuous probability density", "statement": "For 0<mmin<mmax, 0<break_fraction<1 and all slopes (other than the rejected -1) the density integrates to exactly 1 over [mmin, mmax], is positive there, zero for other positive masses, proportional to m^-alpha_1 below and m^-alpha_2 above the break and continuous at the break.", "quantifier": "all slopes, masses and break fractions", "why_tests_cant": "integral identity and continuity over a 5-parameter family", "anchors": ["gwpopulation/models/mass.py:double_power_law_primary_mass"]}
{"id": "C22", "title": "Mixture mass models are normalised", "statement": "power_law_mass, two_component_single, three_component_single and double_power_law_peak_primary_mass integrate to exactly 1 for all mixing fractions (even outside [0,1]) and all admissible shape parameters, are non-negative when the fractions are in [0,1], and reduce to a single component at fraction 0 or 1.", "quantifier": "all admissible parameters", "why_tests_cant": "integral identity over a continuum", "anchors": ["gwpopulation/models/mass.py:two_component_single", "gwpopulation/models/mass.py:three_component_single", "gwpopulation/models/mass.py:double_power_law_peak_primary_mass", "gwpopulation/models/mass.py:power_law_mass"]}
{"id": "C23", "title": "Primary-mass/mass-ratio models are normalised joint densities", "statement": "power_law_primary_mass_ratio, two_component_primary_mass_ratio and double_power_law_primary_power_law_mass_ratio integrate to exactly 1 over mmin<=m1, mmin/m1<=q<=1, and vanish when m2=q*m1<mmin.", "quantifier": "all admissible parameters", "why_tests_cant": "iterated integral identity over a continuum", "anchors": ["gwpopulation/models/mass.py:two_component_primary_mass_ratio", "gwpopulation/models/mass.py:power_law_primary_mass_ratio", "gwpopulation/models/mass.py:double_power_law_primary_power_law_mass_ratio"]}
{"id": "C24", "title": "Identical primary/secondary models are normalised joint densities", "statement": "power_law_primary_secondary_identical and two_component_primary_secondary_identical integrate to exactly 1 over m1>=m2 and vanish when m1<m2.", "quantifier": "all admissible parameters", "why_tests_cant": "double integral over a triangle, for a continuum of parameters", "anchors": ["gwpopulation/models/mass.py:power_law_primary_secondary_identical", "gwpopulation/models/mass.py:two_component_primary_secondary_identical", "gwpopulation/models/mass.py:_primary_secondary_general"]}
{"id": "C25", "title": "Independent primary/secondary models are normalised joint densities", "statement": "power_law_primary_secondary_independent integrates to 1 over m1>=m2. The model shows this is violated when alpha != beta: the factor 2 is only right for identical components (counterexample alpha=0, beta=-1, [1,2] gives 8/9).", "quantifier": "all alpha, beta", "why_tests_cant": "the unit tests only check a weaker bound", "anchors": ["gwpopulation/models/mass.py:power_law_primary_secondary_independent", "gwpopulation/models/mass.py:_primary_secondary_general"]}
{"id": "C26", "title": "Mass-ratio models at the minimum mass", "statement": "The primary-mass/mass-ratio densities return a number (not NaN) at every point with positive masses. The model shows this is violated exactly at m1=mmin with q != 1, where 0*inf yields NaN; it holds everywhere else.", "quantifier": "all admissible parameters, all points", "why_tests_cant": "measure-zero failure", "anchors": ["gwpopulation/models/mass.py:two_component_primary_mass_ratio", "gwpopulation/utils.py:powerlaw"]}
{"id": "C27", "title": "Power-law slope -1 is accepted", "statement": "The one-dimensional mass models accept every real slope for which the density exists. The model shows this is violated on numpy/cupy: slope alpha=-1 (p(m) proportional to m) raises ValueError because the keyword guard excludes exponent +1 instead of the singular -1.", "quantifier": "all slopes, all backends", "why_tests_cant": "a single point of the parameter line", "anchors": ["gwpopulation/utils.py:powerlaw", "gwpopulation/models/mass.py:power_law_mass"]}
{"id": "C28", "title": "The low-mass smoothing window", "statement": "For delta_m>0 smoothing takes values in [0,1], is exactly 0 outside [mmin, mmax], positive inside, non-decreasing in the mass on [mmin, mmax], constant beyond mmin+delta_m, equals 1/2 at mmin+delta_m/2, and satisfies S(mmin+t)+S(mmin+delta_m-t)=1; for delta_m<=0 on numpy it is identically 1.", "quantifier": "all masses, bounds and delta_m", "why_tests_cant": "universal over a continuum", "anchors": ["gwpopulation/models/mass.py:BaseSmoothedMassDistribution.smoothing"]}
{"id": "C29", "title": "Smoothed primary mass density is normalised on its own grid", "statement": "For every primary model, hyperparameters and delta_m != 0 with a positive finite normalisation, the trapezoidal integral of p_m1 over the model's own mass grid is exactly 1; with delta_m = 0 no renormalisation is applied.", "quantifier": "all primary models (as functions), grids and hyperparameters", "why_tests_cant": "holds for arbitrary user-supplied primary models", "anchors": ["gwpopulation/models/mass.py:BaseSmoothedMassDistribution.p_m1", "gwpopulation/models/mass.py:BaseSmoothedMassDistribution.norm_p_m1"]}
{"id": "C30", "title": "Smoothed mass models reject hyperparameters outside their grid", "statement": "On numpy/cupy calling the model raises ValueError iff mmin < self.mmin or mmax > self.mmax; a missing beta raises KeyError; missing mmin/mmax default to the grid's; on jax no bound is enforced.", "quantifier": "all hyperparameter dictionaries", "why_tests_cant": "decision logic over all dictionaries and backends", "anchors": ["gwpopulation/models/mass.py:BaseSmoothedMassDistribution.__call__"]}
{"id": "C31", "title": "Evaluating a smoothed mass model is independent of call history", "statement": "The value returned for a dataset does not depend on what the same instance was evaluated on before. The model shows this is violated with cache=True (the default): after a first call, any dataset whose array shape the cached one broadcasts to is normalised at the first dataset's masses; with cache=False, or whenever the shape does not broadcast, every call equals a fresh evaluation.", "quantifier": "all call histories on one instance", "why_tests_cant": "history property; unit tests call each instance with one dataset shape", "anchors": ["gwpopulation/models/mass.py:BaseSmoothedMassDistribution.p_q", "gwpopulation/models/mass.py:BaseSmoothedMassDistribution._cache_q_norms"]}
{"id": "C32", "title": "Conditional mass-ratio density is normalised on the grid and never NaN", "statement": "The mass-ratio factor p_q is never NaN for any input, and at a grid mass with positive finite norm the trapezoidal integral over the q grid of the smoothed density divided by that norm is exactly 1.", "quantifier": "all grids, hyperparameters, datasets", "why_tests_cant": "arbitrary grids and data", "anchors": ["gwpopulation/models/mass.py:BaseSmoothedMassDistribution.p_q", "gwpopulation/models/mass.py:BaseSmoothedMassDistribution.norm_p_q"]}
{"id": "C33", "title": "Hyperparameter names of smoothed mass models", "statement": "variable_names is the primary model's argument names after the mass, plus beta and delta_m, minus the names fixed by the class; reading it has no side effect. The model shows the side-effect clause is violated when the primary model carries its own variable_names list: each read appends beta and delta_m to that list.", "quantifier": "all primary models, any number of reads", "why_tests_cant": "history property on a property getter", "anchors": ["gwpopulation/models/mass.py:BaseSmoothedMassDistribution.variable_names"]}
{"id": "C34", "title": "Interpolated model is normalised on its own grid", "statement": "With freshly built interpolants the trapezoidal integral over the model's own grid of the one-parameter density is exactly 1 whenever the norm is positive and finite, and the k-parameter density is the product of the one-parameter densities.", "quantifier": "all node values, all interpolation kinds (as an oracle), all grids", "why_tests_cant": "arbitrary interpolation kernels and node values", "anchors": ["gwpopulation/models/interped.py:InterpolatedNoBaseModelIdentical.p_x_identical", "gwpopulation/models/interped.py:InterpolatedNoBaseModelIdentical.norm_p_x"]}
{"id": "C35", "title": "Interpolated model honours the node positions it is given", "statement": "The density depends on the node positions passed in the call. The model shows this is violated after the first call: the interpolants keep the first call's node positions (and the first call's data points); only the support cut uses the new ones.", "quantifier": "all call histories on one instance", "why_tests_cant": "history property", "anchors": ["gwpopulation/models/interped.py:InterpolatedNoBaseModelIdentical.p_x_unnormed", "gwpopulation/models/interped.py:InterpolatedNoBaseModelIdentical.setup_interpolant"]}
{"id": "C36", "title": "Node-count inference", "statement": "infer_n_nodes leaves the instance unchanged when the keyword f{base}{nodes} is absent, otherwise uses the first index at or above the configured count whose key is missing; it never reduces the count. Re-initialisation preserves the configured range. The model shows the last clause is violated: the base class raises TypeError and the spin models silently return to their default minimum/maximum/kind/regularize.", "quantifier": "all keyword dictionaries, all configurations", "why_tests_cant": "unbounded search loop over all dictionaries", "anchors": ["gwpopulation/models/interped.py:InterpolatedNoBaseModelIdentical.infer_n_nodes"]}
{"id": "C37", "title": "Regularised spline values have the requested RMS", "statement": "With regularize=True the node values returned by extract_spline_points have root-mean-square exactly |rms| whenever they are not all zero; without it they are the given values unchanged; a missing node key raises KeyError.", "quantifier": "all node counts and node values", "why_tests_cant": "all sizes", "anchors": ["gwpopulation/models/interped.py:InterpolatedNoBaseModelIdentical.extract_spline_points"]}
{"id": "C38", "title": "Spin magnitude models factorise and are normalised", "statement": "iid_spin_magnitude_beta equals independent_spin_magnitude_beta with equal parameters, the joint density is the product of the two one-dimensional Beta densities (each normalised on (0,amax_i)), and is 0 when either spin lies outside [0, amax].", "quantifier": "all parameters and datasets", "why_tests_cant": "universal", "anchors": ["gwpopulation/models/spin.py:iid_spin_magnitude_beta", "gwpopulation/models/spin.py:independent_spin_magnitude_beta"]}
{"id": "C39", "title": "Spin orientation mixture is a joint density on [-1,1]^2", "statement": "For 0<=xi<=1, positive widths and any means the orientation density is non-negative and its double integral over [-1,1]^2 is exactly 1; it is uniform (1/4) for xi=0. The documented isotropic weight (1-xi)^2/4 would not be normalised.", "quantifier": "all xi, sigma_i>0, mu_i", "why_tests_cant": "double integral identity over a continuum", "anchors": ["gwpopulation/models/spin.py:independent_spin_orientation_gaussian_isotropic", "gwpopulation/models/spin.py:iid_spin_orientation_gaussian_isotropic"]}
{"id": "C40", "title": "Effective-spin Gaussians are densities on their physical ranges", "statement": "gaussian_chi_eff is a density on [-1,1] and gaussian_chi_p on [0,1] (finite, positive inside, zero outside, unit integral) for every mean and positive width; non-positive width raises ValueError on numpy.", "quantifier": "all means, widths, points", "why_tests_cant": "integral identity", "anchors": ["gwpopulation/models/spin.py:gaussian_chi_eff", "gwpopulation/models/spin.py:gaussian_chi_p"]}
{"id": "C41", "title": "Correlated chi_eff/chi_p model is normalised on its grid and respects bounds", "statement": "Evaluated on its own 2-D grid the iterated trapezoidal integral of the density is exactly 1; the density is non-negative and exactly 0 outside |chi_eff|<=1, 0<=chi_p<=1.", "quantifier": "all parameters with a positive normalisation, all points", "why_tests_cant": "grid-size-independent algebra", "anchors": ["gwpopulation/models/spin.py:GaussianChiEffChiP"]}
{"id": "C42", "title": "iid_spin combines orientation and magnitude", "statement": "iid_spin equals iid_spin_orientation_gaussian_isotropic times iid_spin_magnitude_beta with the parameters routed to the right factor.", "quantifier": "all datasets and parameters", "why_tests_cant": "argument routing for all inputs", "anchors": ["gwpopulation/models/spin.py:iid_spin"]}
{"id": "C43", "title": "Rate evolution is normalised to 1 today", "statement": "psi_of_z(0) = 1 for PowerLawRedshift and MadauDickinsonRedshift for every admissible parameter; Madau-Dickinson with kappa=0 coincides with the power law of index gamma at every redshift.", "quantifier": "all lamb, gamma, kappa, z_peak>-1", "why_tests_cant": "universal", "anchors": ["gwpopulation/models/redshift.py:PowerLawRedshift.psi_of_z", "gwpopulation/models/redshift.py:MadauDickinsonRedshift.psi_of_z"]}
{"id": "C44", "title": "Redshift models are normalised on their grid and vanish above z_max", "statement": "For every cosmology and rate evolution with positive finite normalisation, the trapezoidal integral of the probability over the model's redshift grid is exactly 1, the density is 0 above z_max, non-negative for non-negative volume and rate, and proportional to psi(z)/(1+z) dVc/dz.", "quantifier": "all cosmologies (oracle), parameters, redshifts > -1", "why_tests_cant": "arbitrary cosmology", "anchors": ["gwpopulation/models/redshift.py:_Redshift.probability", "gwpopulation/models/redshift.py:_Redshift.normalisation", "gwpopulation/models/redshift.py:_Redshift.differential_spacetime_volume"]}
{"id": "C45", "title": "Surveyed volume is linear in observing time and consistent with the redshift model", "statement": "total_four_volume and ResamplingVT.surveyed_hypervolume are proportional to the analysis time, positive for positive cosmology, and the two agree (same integrand: psi/(1+z) dVc/dz, in Gpc^3) up to the grid used.", "quantifier": "all analysis times, rate indices, cosmologies", "why_tests_cant": "universal", "anchors": ["gwpopulation/models/redshift.py:total_four_volume", "gwpopulation/vt.py:ResamplingVT.surveyed_hypervolume"]}
{"id": "C46", "title": "Redshift model parameter names", "statement": "variable_names lists cosmological names then rate-evolution names for every cosmology choice and reading it never changes it.", "quantifier": "all cosmology names, any number of reads", "why_tests_cant": "history property", "anchors": ["gwpopulation/models/redshift.py:_Redshift.variable_names", "gwpopulation/experimental/cosmo_models.py:CosmoMixin"]}
{"id": "C47", "title": "Detector-to-source conversion and Jacobian", "statement": "With luminosity_distance present (and no redshift key), each *_detector key is divided by 1+z and renamed, every other key is passed through, luminosity_distance is replaced by redshift = z(dL), and the Jacobian is dDL/dz * (1+z)^k with k the number of *_detector keys, whatever the key order. Data with neither key raise ValueError.", "quantifier": "all data dictionaries, all cosmologies (oracle)", "why_tests_cant": "all key sets and orders", "anchors": ["gwpopulation/experimental/cosmo_models.py:CosmoMixin.detector_frame_to_source_frame"]}
{"id": "C48", "title": "Conversion does not depend on key order", "statement": "The result is the same for every ordering of the data dictionary. The model shows this is violated when redshift (not distance) is supplied: a *_detector key listed before redshift raises KeyError; and when both redshift and distance are supplied, the frame used for each mass depends on its position relative to redshift.", "quantifier": "all permutations of the data dictionary", "why_tests_cant": "dictionary-order dependence", "anchors": ["gwpopulation/experimental/cosmo_models.py:CosmoMixin.detector_frame_to_source_frame"]}
{"id": "C49", "title": "CosmoModel density transforms correctly", "statement": "CosmoModel.prob is the source-frame density divided by the Jacobian, so that (for masses scaled by 1+z at fixed redshift) probability is conserved: the integral over detector-frame mass equals the integral over source-frame mass.", "quantifier": "all source densities, redshifts, mass ranges", "why_tests_cant": "change of variables for every density", "anchors": ["gwpopulation/experimental/cosmo_models.py:CosmoModel.prob"]}
{"id": "C50", "title": "Cosmology parameters are extracted exactly", "statement": "cosmology_variables returns exactly the named cosmological parameters with their values and raises KeyError iff one is missing; a fixed cosmology ignores the parameters entirely.", "quantifier": "all parameter dictionaries", "why_tests_cant": "all dictionaries", "anchors": ["gwpopulation/experimental/cosmo_models.py:CosmoMixin.cosmology_variables", "gwpopulation/experimental/cosmo_models.py:CosmoMixin.cosmology"]}
{"id": "C51", "title": "Detection efficiency estimator and its variance", "statement": "detection_efficiency returns mu = (1/N) sum w and var = (1/N^2) sum w^2 - mu^2/N; var >= 0 whenever the number of found injections does not exceed N; both are invariant under permuting the injections and mu (var) is homogeneous of degree 1 (2) in the weights.", "quantifier": "all injection sets of all sizes, all weights", "why_tests_cant": "Cauchy-Schwarz over all sizes", "anchors": ["gwpopulation/vt.py:ResamplingVT.detection_efficiency"]}
{"id": "C52", "title": "Convergence check", "statement": "check_convergence's correction is 0 iff mu^2 > 4 n_events var and +inf otherwise, including for NaN inputs; with the default n_events=inf and var>=0 it is always +inf, so the default-constructed selection function rejects every population.", "quantifier": "all mu, var, n_events incl. inf and NaN", "why_tests_cant": "special values", "anchors": ["gwpopulation/vt.py:ResamplingVT.check_convergence", "gwpopulation/vt.py:ResamplingVT.__init__"]}
{"id": "C53", "title": "Marginalised selection factor", "statement": "vt_factor equals mu*exp(-(3+n)/(2 n_eff)) when converged and +inf otherwise, is at most mu when converged; on numpy it raises ZeroDivisionError iff var = 0 or mu = 0.", "quantifier": "all mu, var, n_events", "why_tests_cant": "special values", "anchors": ["gwpopulation/vt.py:ResamplingVT.vt_factor"]}
{"id": "C54", "title": "Unconverged selection rejects the sample", "statement": "If the selection function is a ResamplingVT that has not converged, log_likelihood_ratio returns the most negative double for every event likelihood -- NaN, infinite or finite.", "quantifier": "all per-event values, all unconverged selection estimates", "why_tests_cant": "composition across modules for all special values", "anchors": ["gwpopulation/vt.py:ResamplingVT.__call__", "gwpopulation/hyperpe.py:HyperparameterLikelihood.log_likelihood_ratio"]}
{"id": "C55", "title": "GridVT integrates density times sensitivity", "statement": "For data whose axes have pairwise distinct lengths, GridVT(parameters) is the iterated trapezoidal integral of model*vt over all axes, each along its own coordinate; it is linear in vt. The model shows this is violated when two axes have the same length: one is dropped and an array is returned.", "quantifier": "all grid shapes, all dimensions", "why_tests_cant": "arbitrary dimensions and coincidences of lengths", "anchors": ["gwpopulation/vt.py:GridVT"]}
{"id": "C56", "title": "GridVT leaves its input alone", "statement": "Constructing a GridVT does not modify the caller's data dictionary. The model shows this is violated: the vt entry is removed, so a second construction from the same dictionary raises KeyError.", "quantifier": "all data dictionaries, all construction histories", "why_tests_cant": "aliasing across calls", "anchors": ["gwpopulation/vt.py:GridVT.__init__"]}
{"id": "C57", "title": "Per-event evidence estimator and its variance", "statement": "For each event the log Bayes factor is the log of the mean weight and its variance is (<w^2>-<w>^2)/(K <w>^2); for positive weights the variance is in [0, 1] , is 0 iff all weights are equal, and both are invariant under permuting the samples; scaling all weights by c>0 shifts the log Bayes factor by ln c and leaves the variance unchanged.", "quantifier": "all numbers of events, sample counts and weights", "why_tests_cant": "all sizes", "anchors": ["gwpopulation/hyperpe.py:HyperparameterLikelihood._compute_per_event_ln_bayes_factors"]}
{"id": "C58", "title": "Hierarchical log-likelihood formula", "statement": "For finite positive estimates, ln_likelihood_and_variance returns sum_i ln <w>_i - N ln P_det and sum_i var_i + N^2 var_det/P_det^2 with N the number of events, and is invariant under permuting the events.", "quantifier": "all numbers of events and samples, all models and selection functions (oracles)", "why_tests_cant": "all sizes", "anchors": ["gwpopulation/hyperpe.py:HyperparameterLikelihood.ln_likelihood_and_variance", "gwpopulation/hyperpe.py:HyperparameterLikelihood._get_selection_factor"]}
{"id": "C59", "title": "log_likelihood_ratio is always a finite double", "statement": "For every value of the estimator and its variance (finite, infinite or NaN) and every threshold log_likelihood_ratio returns a finite double; it equals the estimator when that is finite and the variance does not exceed the threshold, and the most negative double when the estimator is NaN or -inf.", "quantifier": "all doubles for estimator, variance, threshold", "why_tests_cant": "special values and rounding at the overflow threshold", "anchors": ["gwpopulation/hyperpe.py:HyperparameterLikelihood.log_likelihood_ratio"]}
{"id": "C60", "title": "Samples above the uncertainty threshold are rejected", "statement": "Whenever the variance exceeds the threshold, log_likelihood_ratio returns the most negative double. The model proves it (with IEEE binary64 rounding) for NaN, -inf and exactly the finite estimators below 2^970, and shows it is violated for an estimator of +inf, where MAX-MAX=0 is returned.", "quantifier": "all estimators, variances above threshold", "why_tests_cant": "rounding absorption at 1.8e308", "anchors": ["gwpopulation/hyperpe.py:HyperparameterLikelihood.log_likelihood_ratio"]}
{"id": "C61", "title": "maximum_uncertainty bounds the uncertainty (standard deviation)", "statement": "A sample is rejected iff its uncertainty, i.e. the square root of its variance, exceeds maximum_uncertainty. The model shows this is violated: the code compares the variance itself with maximum_uncertainty (the squared threshold it stores is never used); the two agree only for thresholds 0, 1 and inf.", "quantifier": "all variances and thresholds", "why_tests_cant": "tests only use extreme values", "anchors": ["gwpopulation/hyperpe.py:HyperparameterLikelihood.log_likelihood_ratio", "gwpopulation/hyperpe.py:HyperparameterLikelihood.maximum_uncertainty"]}
{"id": "C62", "title": "An undefined variance is not accepted", "statement": "A sample whose variance estimate is NaN is rejected. The model shows this is violated: NaN fails the comparison, so e.g. P_det=0 with variance 0 returns the largest double, the best possible likelihood.", "quantifier": "all estimators with NaN variance", "why_tests_cant": "special values", "anchors": ["gwpopulation/hyperpe.py:HyperparameterLikelihood.log_likelihood_ratio", "gwpopulation/hyperpe.py:HyperparameterLikelihood._get_selection_factor"]}
{"id": "C63", "title": "Null likelihood imposes only the variance cut", "statement": "NullHyperparameterLikelihood.log_likelihood_ratio is 0 when the parent's variance does not exceed the threshold and the most negative double when it does. The model also shows it accepts an unconverged ResamplingVT selection and events with zero weight, because those yield variance 0 or NaN.", "quantifier": "all models, selection functions and thresholds", "why_tests_cant": "special values across modules", "anchors": ["gwpopulation/hyperpe.py:NullHyperparameterLikelihood.ln_likelihood_and_variance"]}
{"id": "C64", "title": "Rate likelihood formula and its relation to the rate-marginalised one", "statement": "RateLikelihood's estimator is sum_i ln<w>_i - R P_det + N ln R; for fixed population parameters it is maximised over R>0 exactly at R=N/P_det with maximum (hyperparameter likelihood) + N ln N - N, and its exponential integrated over R with a 1/R prior is (N-1)! times the hyperparameter likelihood.", "quantifier": "all numbers of events, rates, selection values", "why_tests_cant": "improper integral and optimisation over a continuum", "anchors": ["gwpopulation/hyperpe.py:RateLikelihood._get_selection_factor"]}
{"id": "C65", "title": "Rate likelihood requires the rate", "statement": "RateLikelihood raises KeyError iff the (converted) parameters lack 'rate', and generate_rate_posterior_sample returns the rate parameter unchanged.", "quantifier": "all parameter dictionaries", "why_tests_cant": "all dictionaries", "anchors": ["gwpopulation/hyperpe.py:RateLikelihood"]}
{"id": "C66", "title": "Extra statistics are consistent with the likelihood", "statement": "generate_extra_statistics keeps every input key, adds exactly ln_bf_i, var_i for i<N, selection, selection_variance and variance; sum ln_bf_i - N ln selection and variance reproduce ln_likelihood_and_variance for the standard likelihood. The model shows two violations: selection_variance is the relative variance var/P_det^2 although documented as the variance of P_det, and for the rate likelihood the stored total variance differs from the one used in the likelihood.", "quantifier": "all samples, models, numbers of events", "why_tests_cant": "all sizes", "anchors": ["gwpopulation/hyperpe.py:HyperparameterLikelihood.generate_extra_statistics"]}
{"id": "C67", "title": "Posterior resampling at construction", "statement": "All events end up with the same number K = min(max_samples, shortest posterior) of samples, each a without-replacement subset of that event's own rows taken jointly across columns, for exactly the columns of the first posterior; a later posterior lacking one of them raises KeyError (so the documented 'shared keys' rule is violated).", "quantifier": "all lists of posteriors of all lengths, all random draws", "why_tests_cant": "all sizes and all random draws", "anchors": ["gwpopulation/hyperpe.py:HyperparameterLikelihood.resample_posteriors"]}
{"id": "C68", "title": "Sampling prior handling", "statement": "If the posteriors have a prior column it is removed from the data passed to the population model and the weights are model/prior elementwise; otherwise the weights are the model values.", "quantifier": "all posteriors", "why_tests_cant": "all dictionaries", "anchors": ["gwpopulation/hyperpe.py:HyperparameterLikelihood.__init__"]}
{"id": "C69", "title": "Posterior predictive resampling", "statement": "The returned weights are non-negative and sum to 1 for each event; each resampled row is a row of the same event taken jointly across all keys, never one of zero weight; shapes are preserved; multiplying the population density by any positive per-sample constant leaves the weights unchanged.", "quantifier": "all sample sets, weights and random draws", "why_tests_cant": "all sizes and all random draws", "anchors": ["gwpopulation/hyperpe.py:HyperparameterLikelihood.posterior_predictive_resample"]}
{"id": "C70", "title": "Noise evidence", "statement": "log_likelihood = noise evidence + log_likelihood_ratio where the noise evidence is the sum of ln_evidences, defaulting to 0 when they are not provided. The model shows the default clause is violated: the default is NaN, so log_likelihood is NaN for every parameter value.", "quantifier": "all evidences, all parameters", "why_tests_cant": "special values", "anchors": ["gwpopulation/hyperpe.py:HyperparameterLikelihood.__init__", "gwpopulation/hyperpe.py:HyperparameterLikelihood.log_likelihood"]}
{"id": "C71", "title": "Rate posterior sample", "statement": "generate_rate_posterior_sample returns gamma(N)-draw / (efficiency * surveyed hypervolume) when the selection function provides them and gamma-draw / selection otherwise; it is positive for positive volume.", "quantifier": "all draws and selection functions", "why_tests_cant": "all random draws", "anchors": ["gwpopulation/hyperpe.py:HyperparameterLikelihood.generate_rate_posterior_sample"]}
{"id": "C72", "title": "set_backend switches every registered module or none", "statement": "After any sequence of set_backend calls that raise no exception after validation, every registered module's xp/scs/other attribute is the one of the last successfully selected backend. An unsupported name raises ValueError and a missing library raises ModuleNotFoundError, in both cases changing nothing.", "quantifier": "all call histories, all registered module sets, all import failures", "why_tests_cant": "all histories", "anchors": ["gwpopulation/backend.py:set_backend", "gwpopulation/backend.py:_load_numpy_and_scipy"]}
{"id": "C73", "title": "A failed backend switch can be retried", "statement": "If importing a registered module fails midway, calling set_backend again with the same name after the cause is removed completes the switch. The model shows this is violated: the backend is recorded before the modules are updated, so the retry is a silent no-op and the modules stay inconsistent.", "quantifier": "all failure points in the update loop", "why_tests_cant": "crash-point property", "anchors": ["gwpopulation/backend.py:set_backend"]}
{"id": "C74", "title": "set_backend is idempotent and order-insensitive", "statement": "Calling set_backend twice with the same name equals calling it once, the final state depends only on the last supported name, and modules or attributes not registered are never touched.", "quantifier": "all call histories", "why_tests_cant": "all histories", "anchors": ["gwpopulation/backend.py:set_backend"]}
{"id": "C75", "title": "Entry points for arbitrary functions", "statement": "Every registered module:function pair is installed under the function's last name component, resolved in the new backend. The model shows this is violated when one module registers two functions: only the last is updated.", "quantifier": "all entry-point lists", "why_tests_cant": "all registrations", "anchors": ["gwpopulation/backend.py:modules_to_update", "gwpopulation/backend.py:_load_arbitrary"]}
{"id": "C76", "title": "numpyro likelihood equals the bilby likelihood", "statement": "gwpopulation_likelihood_model returns the same ln likelihood and variance as HyperparameterLikelihood.ln_likelihood_and_variance with the same injections (no convergence enforcement), for every parameter point, and rejects on NaN or on variance above varmax.", "quantifier": "all data, models, parameters", "why_tests_cant": "all sizes; tests use one draw", "anchors": ["gwpopulation/experimental/numpyro.py:gwpopulation_likelihood_model"]}
{"id": "C77", "title": "numpyro predictive resampling draws each event from its own weights", "statement": "For event i the predictive sample is drawn from event i's samples with probability proportional to event i's weights. The model shows this is violated: the weights of sample index i across events are used (column instead of row), so only the first n_events samples of each event can ever be drawn.", "quantifier": "all weight matrices", "why_tests_cant": "shape coincidence hides it; the tests disable resampling", "anchors": ["gwpopulation/experimental/numpyro.py:posterior_predictive_resample"]}
{"id": "C78", "title": "Jitted likelihood agrees with the wrapped likelihood", "statement": "JittedLikelihood.log_likelihood_ratio equals the wrapped likelihood's ratio whenever that is finite, is always finite, and the full likelihood can be selected through its keyword arguments. The model shows the last clause is violated: keyword arguments are traced by jit, so use_ratio can never be branched on and every call raises; and a function returning NaN (such as the full likelihood without evidences) gives 0.", "quantifier": "all wrapped likelihoods, keyword arguments and parameters", "why_tests_cant": "special values and all keyword arguments", "anchors": ["gwpopulation/experimental/jax.py:JittedLikelihood", "gwpopulation/experimental/jax.py:generic_bilby_likelihood_function"]}
{"id": "C79", "title": "Spline-modulated power law is normalised on its grid", "statement": "InterpolatedPowerlaw's primary-mass density has unit trapezoidal integral over its mass grid when the spline nodes span the grid; the model shows it is not when they do not, because the normalisation ignores the node range.", "quantifier": "all node values and positions, all grids", "why_tests_cant": "arbitrary interpolation kernels", "anchors": ["gwpopulation/models/mass.py:InterpolatedPowerlaw.p_m1", "gwpopulation/models/mass.py:InterpolatedPowerlaw.norm_p_m1"]}
{"id": "C80", "title": "mu and sigma are the mean and variance of the Beta density", "statement": "For all alpha, beta, amax > 0 the (mu, var) computed by alpha_beta_max_to_mu_var_max are the mean and the variance of the density returned by beta_dist(alpha, beta, scale=amax); conversely on the feasible region the (alpha, beta) computed by mu_var_max_to_alpha_beta_max give a density with exactly the requested mean and variance.", "quantifier": "all positive parameters, all feasible means and variances", "why_tests_cant": "integrals over a continuum of parameters", "anchors": ["gwpopulation/conversions.py:alpha_beta_max_to_mu_var_max", "gwpopulation/conversions.py:mu_var_max_to_alpha_beta_max", "gwpopulation/utils.py:beta_dist"]}
{"id": "C81", "title": "Interpolated models advertise exactly the keywords they need", "statement": "For every constructor argument, the names advertised by an interpolated model (variable_names) contain distinct node-position names and distinct node-value names, and an evaluation finds all its node keywords exactly when every advertised node name is supplied.", "quantifier": "all base names, node counts and keyword dictionaries", "why_tests_cant": "unbounded node counts and dictionaries", "anchors": ["gwpopulation/models/interped.py:InterpolatedNoBaseModelIdentical.variable_names", "gwpopulation/models/interped.py:InterpolatedNoBaseModelIdentical.extract_spline_points"]}
{"id": "C82", "title": "A failed evaluation leaves an interpolated model usable", "statement": "If an evaluation of an interpolated model raises (for example because a dataset column is missing), a later correct evaluation returns what a fresh model would return. The model shows the code violates this: the splines are built before the failing step and are kept.", "quantifier": "all call histories", "why_tests_cant": "depends on call history", "anchors": ["gwpopulation/models/interped.py:InterpolatedNoBaseModelIdentical.p_x_identical", "gwpopulation/models/interped.py:InterpolatedNoBaseModelIdentical.setup_interpolant"]}
{"id": "C83", "title": "z_peak is where the Madau-Dickinson rate peaks", "statement": "As documented, the Madau-Dickinson rate evolution is largest at z_peak. The model gives the true location of the maximum for 0 < gamma < kappa and shows that it is z_peak only when kappa = 2 gamma.", "quantifier": "all 0 < gamma < kappa, all z_peak > -1, all redshifts", "why_tests_cant": "maximum over a continuum, for all parameters", "anchors": ["gwpopulation/models/redshift.py:MadauDickinsonRedshift.psi_of_z"]}
{"id": "C84", "title": "Redshift density is confined to the range that normalises it", "statement": "The redshift density vanishes outside the redshift range over which it is normalised. The model shows it has no lower cut: negative redshifts above -1 get a positive value.", "quantifier": "all redshifts, rates and cosmologies", "why_tests_cant": "continuum of redshifts, arbitrary cosmology", "anchors": ["gwpopulation/models/redshift.py:_Redshift.differential_spacetime_volume"]}
{"id": "C85", "title": "Rate samples use the converted parameters", "statement": "generate_rate_posterior_sample evaluates the selection function at the same (converted) parameters as the likelihood. The model shows this is violated: the conversion function is not applied, so a selection function that needs a converted parameter raises KeyError although the likelihood can be evaluated.", "quantifier": "all conversion functions, selection functions and parameters", "why_tests_cant": "arbitrary user functions", "anchors": ["gwpopulation/hyperpe.py:HyperparameterLikelihood.generate_rate_posterior_sample"]}
{"id": "C86", "title": "numpyro rate site draws from the rate posterior", "statement": "The rate drawn by gwpopulation_likelihood_model has the posterior Gamma(N) / VT, as generate_rate_posterior_sample. The model shows this is violated: the second parameter of the Gamma site is a rate, so 1/VT gives Gamma(N) * VT, which agrees only for VT = 1.", "quantifier": "all numbers of events, volumes and draws", "why_tests_cant": "distribution parameterisation; tests check one seed", "anchors": ["gwpopulation/experimental/numpyro.py:gwpopulation_likelihood_model"]}
{"id": "C87", "title": "numpyro predictive draws vary between events and calls", "statement": "Predictive indices are drawn independently for different events and calls. The model shows this is violated: the random key is a constant, so equal weights always give equal indices.", "quantifier": "all weights, all calls", "why_tests_cant": "determinism across calls", "anchors": ["gwpopulation/experimental/numpyro.py:posterior_predictive_resample"]}
{"id": "C88", "title": "The rate likelihood's variance is that of its estimator", "statement": "The variance returned by the rate likelihood is sum_i var_i plus the Monte Carlo variance R^2 var(P_det) of the expected number of detections. The model shows this is violated: R var(P_det)/P_det is added, which is the same only if R P_det = 1.", "quantifier": "all rates, selection values, variances", "why_tests_cant": "two estimators over a continuum", "anchors": ["gwpopulation/hyperpe.py:RateLikelihood._get_selection_factor"]}
{"id": "C89", "title": "numpyro likelihood honours the selection function's settings", "statement": "Where the selection function's convergence requirement makes log_likelihood_ratio reject a point, gwpopulation_likelihood_model rejects it too. The model shows this is violated: enforcement, the number of events and uncertainty marginalisation are ignored.", "quantifier": "all selection functions, parameters, data", "why_tests_cant": "two code paths over all inputs", "anchors": ["gwpopulation/experimental/numpyro.py:gwpopulation_likelihood_model", "gwpopulation/vt.py:ResamplingVT.check_convergence"]}
{"id": "C90", "title": "A jitted likelihood delegates to the wrapped likelihood", "statement": "Attributes of a JittedLikelihood other than its own are those of the wrapped likelihood. The model gives the exact set that is delegated and shows that log_likelihood and noise_log_likelihood are not: bilby's base class defines them.", "quantifier": "all attribute names, all base classes", "why_tests_cant": "all names", "anchors": ["gwpopulation/experimental/jax.py:JittedLikelihood.__getattr__"]}
{"id": "C91", "title": "A jitted likelihood can be copied and pickled", "statement": "Attribute lookup on a JittedLikelihood terminates, also on the empty instance that copying and unpickling create first. The model shows this is violated: the lookup of the wrapped likelihood goes through itself, at every recursion depth.", "quantifier": "all attribute names, all recursion limits", "why_tests_cant": "unbounded recursion", "anchors": ["gwpopulation/experimental/jax.py:JittedLikelihood.__getattr__"]}
{"id": "C92", "title": "Meta data of a likelihood", "statement": "meta_data reports the names of the population models, the data and the sampling prior with unchanged contents as numpy arrays, and the numbers of events and samples, for every accepted likelihood. The model shows this fails in two cases: a likelihood built with cupy after another backend is selected, and a population model object without the attribute models (which the constructor accepts).", "quantifier": "all likelihoods, all backends at construction and at access", "why_tests_cant": "all backends and histories; cupy is not tested", "anchors": ["gwpopulation/hyperpe.py:HyperparameterLikelihood.meta_data", "gwpopulation/utils.py:to_numpy", "gwpopulation/utils.py:get_name"]}
{"id": "C93", "title": "Grid normalisation approximates the true integral", "statement": "The trapezoid rule used for every grid normalisation differs from the integral by at most M h^2 (b - a) / 12 for integrands with second derivative at most M; hence the redshift density and a fresh interpolated density integrate to 1, and total_four_volume equals its defining integral, up to explicit errors of second order in the grid step.", "quantifier": "all twice differentiable integrands, all grids, all rates, cosmologies, kernels", "why_tests_cant": "true integrals over a continuum of functions", "anchors": ["gwpopulation/utils.py:trapezoid", "gwpopulation/models/redshift.py:_Redshift.normalisation", "gwpopulation/models/redshift.py:total_four_volume", "gwpopulation/models/interped.py:InterpolatedNoBaseModelIdentical.norm_p_x"]}
{"id": "C94", "title": "The detection efficiency estimator is unbiased", "statement": "For injections drawn independently from the recorded distribution, of which the detected ones are kept, the mean of the estimated efficiency over all draws is the detectable mass of the population, and the mean of the reported variance is (1 - 1/N) times the true variance of the estimate.", "quantifier": "all finite injection distributions, detection criteria, populations, numbers of injections", "why_tests_cant": "an average over all random draws", "anchors": ["gwpopulation/vt.py:ResamplingVT.detection_efficiency", "gwpopulation/vt.py:ResamplingVT.__init__"]}
{"id": "C95", "title": "The per-event evidence estimator is unbiased", "statement": "For posterior samples drawn independently from likelihood times sampling prior, the mean of exp(ln_bf_i) over all draws is the ratio of the evidences under the population and the sampling prior, and the mean of variance_i exp(2 ln_bf_i) is (1 - 1/K) times the true variance of exp(ln_bf_i).", "quantifier": "all finite parameter spaces, likelihoods, priors, populations, sample sizes, other events", "why_tests_cant": "an average over all random draws", "anchors": ["gwpopulation/hyperpe.py:HyperparameterLikelihood._compute_per_event_ln_bayes_factors"]}
{"id": "C96", "title": "Nested mass models reduce to one another", "statement": "A double power law with equal slopes is the single power law wherever the break is; mixing fractions 0 and 1 leave exactly one component; the two peaks of the three-component model may be exchanged; a break at an end of the mass range leaves a single power law. The model shows the last one is violated: break_fraction 0 or 1 gives NaN at every mass.", "quantifier": "all slopes, mass limits, break fractions, peaks, masses, backends", "why_tests_cant": "equalities of functions over a continuum of parameters", "anchors": ["gwpopulation/models/mass.py:double_power_law_primary_mass", "gwpopulation/models/mass.py:two_component_single", "gwpopulation/models/mass.py:three_component_single", "gwpopulation/models/mass.py:double_power_law_peak_primary_mass"]}
{"id": "C97", "title": "Symmetries of beta_dist", "statement": "Reflecting the argument in the interval exchanges the exponents (at every real argument, edges included); unit exponents give the uniform density inside; rescaling the argument and the maximum by c divides the density by c.", "quantifier": "all exponents, maxima, arguments, backends", "why_tests_cant": "equalities over a continuum", "anchors": ["gwpopulation/utils.py:beta_dist"]}
{"id": "C98", "title": "Exchange symmetry of the spin models", "statement": "The iid spin models do not distinguish the two components; the independent models are invariant when components and parameters are exchanged together; a population without an aligned component has orientation density 1/4. For all inputs including NaN, infinities and rejected ones.", "quantifier": "all inputs and backends", "why_tests_cant": "all inputs", "anchors": ["gwpopulation/models/spin.py:iid_spin", "gwpopulation/models/spin.py:independent_spin_magnitude_beta", "gwpopulation/models/spin.py:independent_spin_orientation_gaussian_isotropic"]}
{"id": "C99", "title": "The Monte Carlo estimators converge", "statement": "The probability that the estimated efficiency (Bayes factor) deviates from the detectable mass (ratio of evidences) by at least eps is at most V/(N eps^2) with V independent of the number N of injections (samples); hence the estimates converge in probability.", "quantifier": "all finite distributions, populations, detection criteria, tolerances, risks, numbers of draws", "why_tests_cant": "a limit over all random draws", "anchors": ["gwpopulation/vt.py:ResamplingVT.detection_efficiency", "gwpopulation/hyperpe.py:HyperparameterLikelihood._compute_per_event_ln_bayes_factors"]}
{"id": "C100", "title": "The log evidence estimate is unbiased", "statement": "The mean of ln_bf_i over all draws of the posterior samples is the logarithm of the ratio of evidences. The model shows this is violated: it is strictly smaller unless all weights agree (Jensen), for every finite number of samples.", "quantifier": "all finite parameter spaces, likelihoods, priors, populations, sample sizes", "why_tests_cant": "an average over all random draws", "anchors": ["gwpopulation/hyperpe.py:HyperparameterLikelihood._compute_per_event_ln_bayes_factors"]}
{"id": "C101", "title": "Smoothed mass models are jointly normalised on their grids", "statement": "A call of a freshly built smoothed mass model on all pairs of its mass and mass-ratio grids returns values whose iterated trapezoidal integral over both grids is exactly 1, for each of the four classes and all legal hyperparameters.", "quantifier": "all four classes, backends, grids, legal hyperparameters with delta_m > 0, interpolation kernels exact at nodes", "why_tests_cant": "all grids and a continuum of hyperparameters", "anchors": ["gwpopulation/models/mass.py:BaseSmoothedMassDistribution.__call__", "gwpopulation/models/mass.py:BaseSmoothedMassDistribution.p_m1", "gwpopulation/models/mass.py:BaseSmoothedMassDistribution.p_q"]}
{"id": "C102", "title": "The population density need not be normalised", "statement": "Multiplying the population density by any c > 0, on the posterior samples and on the injections alike, changes neither ln_likelihood_and_variance nor whether it raises, for every setting of ResamplingVT. With a sampled rate, the density times c and the rate divided by c give the same result.", "quantifier": "all c > 0, catalogues, weights, injection sets, settings of ResamplingVT, backends", "why_tests_cant": "a continuum of scales and all data sets", "anchors": ["gwpopulation/hyperpe.py:HyperparameterLikelihood.ln_likelihood_and_variance", "gwpopulation/hyperpe.py:RateLikelihood._get_selection_factor", "gwpopulation/vt.py:ResamplingVT.__call__", "gwpopulation/vt.py:ResamplingVT.vt_factor"]}
{"id": "C103", "title": "Catalogues add up", "statement": "With one selection function the log likelihood of two catalogues analysed together is the sum of the two; the variances add up except for the selection part, which grows with the square of the number of events. With a sampled rate the expected number of detections is counted once.", "quantifier": "all pairs of catalogues, positive weights, selection values", "why_tests_cant": "all data sets", "anchors": ["gwpopulation/hyperpe.py:HyperparameterLikelihood.ln_likelihood_and_variance", "gwpopulation/hyperpe.py:RateLikelihood._get_selection_factor"]}
{"id": "C104", "title": "Repeated samples and pooled injections", "statement": "Repeating every posterior sample or injection k times changes no estimate but divides the reported variance by k. Combining two injection sets gives the average of the efficiencies weighted by the numbers generated, and the variance of that weighted average plus a term from their disagreement.", "quantifier": "all k, weights, injection sets", "why_tests_cant": "all data sets and all k", "anchors": ["gwpopulation/hyperpe.py:HyperparameterLikelihood._compute_per_event_ln_bayes_factors", "gwpopulation/vt.py:ResamplingVT.detection_efficiency"]}
{"id": "C105", "title": "Variances are effective sample sizes", "statement": "The variance of an event's log Bayes factor is 1/n_eff - 1/K with n_eff = (sum w)^2 / sum w^2 between 1 and K; the relative variance of the detection efficiency is 1/n_eff - 1/N, and it counts as converged exactly if that is below 1/(4 n_events), in particular if n_eff > 4 n_events.", "quantifier": "all positive weights, sample sizes, numbers of events", "why_tests_cant": "all data sets", "anchors": ["gwpopulation/hyperpe.py:HyperparameterLikelihood._compute_per_event_ln_bayes_factors", "gwpopulation/vt.py:ResamplingVT.detection_efficiency", "gwpopulation/vt.py:ResamplingVT.check_convergence"]}
{"id": "C106", "title": "Unbounded ranges", "statement": "truncnorm with one or both bounds infinite is the half-normal or normal density, integrating to 1 over the unbounded range; powerlaw with an infinite upper bound is the Pareto density exactly for slopes below -1 and with a lower bound of zero (as an array element) a density exactly for slopes above -1; other slopes return no density.", "quantifier": "all means, widths, bounds, slopes, arguments, backends", "why_tests_cant": "improper integrals over unbounded ranges", "anchors": ["gwpopulation/utils.py:truncnorm", "gwpopulation/utils.py:powerlaw"]}
{"id": "C107", "title": "Documented formulas", "statement": "The values returned by beta_dist, truncnorm, the smoothing window, the Madau-Dickinson rate, the broken power law and the mass-ratio models are those of the formulas in their documentation. The model shows each of these is violated and gives the exact relation: a factor scale^2, a missing sigma in the normalisation, a missing exponential, a missing factor 1 + (1 + z_peak)^(-kappa), two constants instead of one, and a documented range of mass ratios that is empty.", "quantifier": "all parameters and arguments inside the supports, all backends", "why_tests_cant": "equalities over a continuum; tests check a few points against the code itself", "anchors": ["gwpopulation/utils.py:beta_dist", "gwpopulation/utils.py:truncnorm", "gwpopulation/models/mass.py:BaseSmoothedMassDistribution.smoothing", "gwpopulation/models/redshift.py:MadauDickinsonRedshift.psi_of_z", "gwpopulation/models/mass.py:double_power_law_primary_mass", "gwpopulation/models/mass.py:power_law_primary_mass_ratio"]}
{"id": "C108", "title": "Bounds, monotonicity and concavity of the likelihood", "statement": "With all weights between a and b the log likelihood lies between N ln(a/P_det) and N ln(b/P_det); larger weights or a smaller selection value never lower it; the detection efficiency grows with the density and is bounded by the extreme weights times the found fraction; with a sampled rate the log likelihood is concave in the fraction of a two-population mixture, strictly unless both give every event the same evidence.", "quantifier": "all catalogues, positive weights, injection sets, mixing fractions, rates, backends", "why_tests_cant": "inequalities over all data sets and all mixtures", "anchors": ["gwpopulation/hyperpe.py:HyperparameterLikelihood.ln_likelihood_and_variance", "gwpopulation/hyperpe.py:RateLikelihood._get_selection_factor", "gwpopulation/vt.py:ResamplingVT.detection_efficiency"]}
{"id": "C109", "title": "The backends agree", "statement": "For the same inputs numpy and cupy do the same, and whenever they return a value jax returns that value: for every analytic density, the smoothed mass models of a new object, the selection functions, the conversion to the source frame and the likelihoods with their by-products. On jax the analytic densities never raise. The model shows the smoothed models violate it without smoothing (delta_m = 0).", "quantifier": "all inputs including NaN and infinities, all data sets, all models agreeing pointwise", "why_tests_cant": "all inputs on three array libraries", "anchors": ["gwpopulation/utils.py:apply_conditions", "gwpopulation/models/spin.py:iid_spin", "gwpopulation/models/mass.py:BaseSmoothedMassDistribution.__call__", "gwpopulation/vt.py:ResamplingVT", "gwpopulation/vt.py:GridVT", "gwpopulation/experimental/cosmo_models.py:CosmoMixin", "gwpopulation/hyperpe.py:HyperparameterLikelihood"]}
{"id": "C110", "title": "Rounding errors of the estimates are bounded", "statement": "Computed in double precision, with the additions in any order, sums of weights, event means and the detection efficiency are within depth + 1 relative rounding errors of their exact values, and the log likelihood built from them is within (number of rounding steps) u/(1-u) of the exact one, u = 2^-53.", "quantifier": "all weights between 2^-400 and 2^400, up to 2^50 samples or injections, all orders of addition", "why_tests_cant": "rounding depends on the library's order of summation", "anchors": ["gwpopulation/hyperpe.py:HyperparameterLikelihood._compute_per_event_ln_bayes_factors", "gwpopulation/vt.py:ResamplingVT.detection_efficiency"]}
{"id": "C111", "title": "Reported variances are never negative", "statement": "The variance of an event and of the detection efficiency are non-negative. This holds in exact arithmetic. The model shows it is violated in double precision (three weights of 0.1 in any order), and that the computed variance is within (1-u)^-n - 1 over the effective sample size of the exact one, n the number of roundings.", "quantifier": "all weights between 2^-400 and 2^400, all orders of addition", "why_tests_cant": "rounding of a difference of nearly equal numbers", "anchors": ["gwpopulation/hyperpe.py:HyperparameterLikelihood._compute_per_event_ln_bayes_factors", "gwpopulation/vt.py:ResamplingVT.detection_efficiency", "gwpopulation/vt.py:ResamplingVT.check_convergence"]}
{"id": "C112", "title": "The uncertainty of an event does not depend on the scale of its weights", "statement": "Scaling the weights of an event leaves its variance unchanged, so tiny weights are cut like any others. This holds in exact arithmetic. The model shows it is violated in double precision: below 1e-162 or above 1e154 the variance is NaN for every weight pattern and the uncertainty cut accepts the sample at any threshold.", "quantifier": "all numbers of samples, weights, thresholds, orders of addition", "why_tests_cant": "underflow and overflow at extreme weights", "anchors": ["gwpopulation/hyperpe.py:HyperparameterLikelihood._compute_per_event_ln_bayes_factors", "gwpopulation/hyperpe.py:HyperparameterLikelihood.log_likelihood_ratio"]}
{"id": "C113", "title": "Direction of the hyper-parameters", "statement": "Each shape parameter moves its distribution the way its name says, for every interior threshold: a larger exponent or alpha/beta of the mass models, a larger mean of the truncated Gaussians (chi_eff, chi_p), alpha and beta of the Beta distribution, and lamb, gamma and z_peak (kappa > 0) of the redshift models make the probability of a value below the threshold strictly smaller (power law exponent, beta of the mass ratio, means, alpha of Beta, lamb, gamma, z_peak) or strictly larger (alpha of the mass power law, beta of Beta).", "quantifier": "all admissible parameter pairs, all interior thresholds, all three backends; every cosmology with a positive volume element; every interior grid node", "why_tests_cant": "an ordering of two distributions at every threshold and every pair of parameters is a statement about uncountably many integrals", "anchors": ["gwpopulation/utils.py:powerlaw", "gwpopulation/utils.py:truncnorm", "gwpopulation/utils.py:beta_dist", "gwpopulation/models/mass.py:power_law_mass", "gwpopulation/models/mass.py:power_law_primary_mass_ratio", "gwpopulation/models/spin.py:gaussian_chi_eff", "gwpopulation/models/spin.py:gaussian_chi_p", "gwpopulation/models/redshift.py:PowerLawRedshift", "gwpopulation/models/redshift.py:MadauDickinsonRedshift"]}
{"id": "C114", "title": "trapezoid integrates along the axis asked for", "statement": "utils.trapezoid integrates an array of any rank along the given axis, counted from the front or the back: the result has the shape without that axis and each element is the trapezoid sum of the values met along it; without abscissae the points are dx apart; it does not matter which of the two function names the library has, nor in which order two axes are integrated. An axis the array does not have, or a library with neither function, raises. The grid sensitivity, the effective-spin normalisation and the mass-ratio normalisation use it with the axis they mean.", "quantifier": "all ranks, shapes, axes, abscissae, backends, libraries", "why_tests_cant": "all ranks and shapes", "anchors": ["gwpopulation/utils.py:trapezoid", "gwpopulation/vt.py:GridVT.__call__", "gwpopulation/models/spin.py:GaussianChiEffChiP._normalization", "gwpopulation/models/mass.py:BaseSmoothedMassDistribution.norm_p_q"]}
{"id": "C115", "title": "trapezoid rejects abscissae of the wrong length", "statement": "Abscissae whose number differs from the length of the axis raise. The model shows this is violated: two abscissae, or an axis with two elements, are stretched silently; all other mismatches of the number of intervals raise.", "quantifier": "all ranks, shapes, axes, abscissae, backends", "why_tests_cant": "all shapes", "anchors": ["gwpopulation/utils.py:trapezoid"]}
{"id": "C116", "title": "to_number gives the same number on every backend", "statement": "Converting a value with one element gives that element, as a Python number on numpy and cupy and as an array on jax. The model shows that the accepted values differ: Python numbers raise on jax; arrays with several elements raise on numpy and cupy only.", "quantifier": "all arrays, backends", "why_tests_cant": "all shapes and libraries", "anchors": ["gwpopulation/utils.py:to_number"]}
{"id": "C117", "title": "The power law is accurate in double precision", "statement": "In double precision the power law stays close to the exact density. The model shows this is violated near slope -1: for slopes so close to -1 that both limits raised to 1 + slope round to one, the returned density is infinite at every point of the support (minus infinity for slopes below -1) and NaN outside. Away from there the logarithm of the returned density has an error bounded by the rounding errors and the cancellation in the normalisation.", "quantifier": "all points, slopes, limits, accurate power functions", "why_tests_cant": "cancellation near one slope value", "anchors": ["gwpopulation/utils.py:powerlaw"]}
{"id": "C118", "title": "Narrowing the limits conditions the distribution", "statement": "Raising the lower or lowering the upper limit of a distribution gives the old distribution conditioned on the narrower interval. Holds for the power law, the truncated normal, the power-law mass model and the broken power law with a fixed break mass. The model shows this is violated by the power law with a peak: the fraction of the peak stays at lam when mmax is lowered above the truncation of the peak.", "quantifier": "all limits, slopes, means, widths, fractions, backends", "why_tests_cant": "all reals", "anchors": ["gwpopulation/utils.py:powerlaw", "gwpopulation/utils.py:truncnorm", "gwpopulation/models/mass.py:power_law_mass", "gwpopulation/models/mass.py:double_power_law_primary_mass", "gwpopulation/models/mass.py:two_component_single"]}
{"id": "C119", "title": "Switching smoothing off is the limit of small smoothing lengths", "statement": "The density of the primary mass with delta_m = 0 is the limit of the densities with small positive delta_m. The model shows this is violated: for all small positive smoothing lengths the density is the primary model divided by its trapezoidal sum over the mass grid, without smoothing it is the primary model itself on numpy and cupy, so the density jumps unless that sum is one.", "quantifier": "all primary models, grids, masses, hyper-parameters, the numpy and cupy backends", "why_tests_cant": "a limit", "anchors": ["gwpopulation/models/mass.py:BaseSmoothedMassDistribution.p_m1", "gwpopulation/models/mass.py:BaseSmoothedMassDistribution.norm_p_m1", "gwpopulation/models/mass.py:BaseSmoothedMassDistribution.smoothing"]}
{"id": "C120", "title": "numpyro predictive injections", "statement": "With predictive resampling the numpyro model records, for every requested key, as many injections as there are events, drawn once without replacement with probabilities proportional to their weights and with the same indices for all keys; with fewer injections than events it raises.", "quantifier": "all populations, injections, hyper-parameters, random choices", "why_tests_cant": "all random draws and sizes", "anchors": ["gwpopulation/experimental/numpyro.py:gwpopulation_likelihood_model", "gwpopulation/experimental/numpyro.py:posterior_predictive_resample"]}
{"id": "C121", "title": "Normalisation on a grid in double precision", "statement": "In IEEE-754 double precision, whatever the order of the additions, the trapezoid integral of non-negative values over an increasing grid is the exact trapezoid integral up to as many rounding errors as the longest chain of additions plus four, and values divided by their computed integral integrate to one again up to the rounding errors of the two integrals plus nine. The model shows the limit of this: if all terms underflow the computed integral is zero and every normalised value is infinite, although the exact normalised values are finite and integrate to one.", "quantifier": "all grids and values (each zero or between two powers of two), all orders of summation, at most 2^50 nodes", "why_tests_cant": "rounding errors over all values, grid sizes and summation orders cannot be enumerated", "anchors": ["gwpopulation/utils.py:trapezoid", "gwpopulation/models/mass.py:BaseSmoothedMassDistribution.norm_p_m1", "gwpopulation/models/redshift.py:_Redshift.normalisation", "gwpopulation/models/interped.py:InterpolatedNoBaseModelIdentical.norm_p_x"]}
{"id": "C122", "title": "The smoothing window in double precision", "statement": "In IEEE-754 double precision with a correctly rounded logistic function the smoothing window is finite, lies in [0,1], is zero outside [mmin, mmax] and never decreases with the mass; with s = (m-mmin)/delta_m it is exactly one for s >= 41/42 and has a relative error below 2^-36 for 1/700 <= s <= 63/64. That the window is positive on [mmin, mmax] is violated: it is exactly zero for s <= 1/770.", "quantifier": "all finite masses and limits up to 2^400, all delta_m between 2^-400 and 2^400", "why_tests_cant": "monotonicity and accuracy of a rounded function over all doubles cannot be sampled", "anchors": ["gwpopulation/models/mass.py:BaseSmoothedMassDistribution.smoothing"]}
{"id": "C123", "title": "Selection effects are corrected: the true population maximises the expected log-likelihood", "statement": "Events are detected with a threshold, so detected events are not a fair sample of the population. If every event's Monte Carlo integral and the selection function are exact, then the log-likelihood of HyperparameterLikelihood, averaged over catalogues of n events drawn from what the true population predicts for detected data, is at most its average at the true population, with equality exactly for populations which predict the same distribution of detected data. For RateLikelihood, averaged also over the number of events (any distribution whose mean is the true rate times the true detectable fraction, e.g. Poisson), the maximum is at the true rate and population, with equality exactly when rate times population agree on all detectable data.", "quantifier": "all finite spaces of detectable data, all pairs of positive populations, all catalogues and numbers of events, all distributions of the number of events with the stated mean, all sampling priors (through the factor c), all backends", "why_tests_cant": "a statement about the average over all catalogues and about the maximum over all populations", "anchors": ["gwpopulation/hyperpe.py:HyperparameterLikelihood.ln_likelihood_and_variance", "gwpopulation/hyperpe.py:HyperparameterLikelihood._get_selection_factor", "gwpopulation/hyperpe.py:RateLikelihood._get_selection_factor"]}
{"id": "C124", "title": "The analysis does not depend on the coordinates of the samples", "statement": "If samples, population densities and recorded prior densities are expressed in other coordinates, so that both densities are multiplied by a Jacobian which may differ from sample to sample, then ln_likelihood_and_variance and log_likelihood_ratio of every likelihood class with a ResamplingVT are unchanged. In particular detector-frame injections analysed with CosmoModel give the same selection function as the corresponding source-frame injections, whose prior is the detector-frame prior times the Jacobian, analysed with the source-frame model.", "quantifier": "all population models, events, injections and non-zero Jacobians, all likelihood classes, all settings of ResamplingVT, all backends, all cosmologies and root finders", "why_tests_cant": "an invariance over all coordinate changes, across modules", "anchors": ["gwpopulation/hyperpe.py:HyperparameterLikelihood.ln_likelihood_and_variance", "gwpopulation/hyperpe.py:HyperparameterLikelihood.log_likelihood_ratio", "gwpopulation/vt.py:ResamplingVT.__call__", "gwpopulation/experimental/cosmo_models.py:CosmoModel.prob"]}
{"id": "C125", "title": "Small changes of the population change the log-likelihood little", "statement": "If the population density changes at most by a factor k at every posterior sample and at every found injection (another model, or other hyper-parameters), the log-likelihood of n events changes at most by 2 n ln k.", "quantifier": "all pairs of population models and hyper-parameters with positive weights, all k >= 1, all numbers of events, samples and injections, all backends", "why_tests_cant": "a uniform bound over all pairs of populations", "anchors": ["gwpopulation/hyperpe.py:HyperparameterLikelihood.ln_likelihood_and_variance", "gwpopulation/vt.py:ResamplingVT.__call__"]}
{"id": "C126", "title": "Mass models do not depend on the unit of mass", "statement": "Expressing all masses in another unit (multiplying the masses, the mass hyper-parameters, the limits of the object and the smoothing length by c > 0) divides every primary mass density and every joint density of (m1, q) by c and every joint density of (m1, m2) by c squared, at every mass; the mass-ratio density is unchanged and is the power law in the secondary mass times the Jacobian; the smoothed models raise the same exceptions, and the objects keep corresponding to each other after any call.", "quantifier": "all c > 0, masses, documented hyper-parameters, both kinds of backend, the four smoothed classes, all remembered masses, all mass ratios, beta and delta_m (NaN and infinities included)", "why_tests_cant": "A test compares one rescaling at a few masses; a constant with a hidden unit (a fixed peak, a fixed grid, an absolute tolerance) only shows for particular units.", "anchors": ["gwpopulation/models/mass.py:power_law_mass", "gwpopulation/models/mass.py:double_power_law_primary_mass", "gwpopulation/models/mass.py:two_component_single", "gwpopulation/models/mass.py:three_component_single", "gwpopulation/models/mass.py:double_power_law_peak_primary_mass", "gwpopulation/models/mass.py:power_law_primary_mass_ratio", "gwpopulation/models/mass.py:power_law_primary_secondary_independent", "gwpopulation/models/mass.py:BaseSmoothedMassDistribution.__call__"]}
{"id": "C127", "title": "Spin and redshift models contain one another as limits", "statement": "With kappa = 0 the Madau-Dickinson model is the power-law model (same values, same exceptions); in general it follows (1+z)^gamma below z_peak and (1+z)^(gamma-kappa) above, with explicit factors; a truncated normal wide compared with its range is uniform and a narrow one is concentrated at mu, with explicit bounds; the tilt mixture becomes isotropic; without covariance the joint chi_eff/chi_p model is the product of the two separate models up to one constant.", "quantifier": "all redshift objects, data sets and parameters; all widths, means, ranges and points", "why_tests_cant": "Limits are statements about all small or large parameter values; tests look at one.", "anchors": ["gwpopulation/models/redshift.py:MadauDickinsonRedshift", "gwpopulation/models/redshift.py:PowerLawRedshift", "gwpopulation/utils.py:truncnorm", "gwpopulation/models/spin.py:independent_spin_orientation_gaussian_isotropic", "gwpopulation/models/spin.py:GaussianChiEffChiP"]}
{"id": "C128", "title": "The density of a sample does not depend on the other samples of the data set", "statement": "Evaluating a population model on a data set gives, sample by sample, the value the model gives for that sample alone: results do not depend on the other samples, on their number or on their order, and the evaluation of a data set fails exactly if that of one of its samples does. This holds for new or uncached smoothed mass models with any primary mass model, for new interpolated models and the spline-modulated power law, for the redshift models, and is inherited by CosmoModel on detector-frame data from the model it wraps.", "quantifier": "all data sets (any set of columns, any number of samples >= 1, any values including nan and infinities), all hyper-parameter dictionaries, all backends, all primary mass models, interpolants and cosmologies, all objects that are new or made without caching", "why_tests_cant": "Independence of the other samples is a statement about all data sets: vectorised code with broadcasting, grids, caches and in-place masks may mix samples only for particular lengths or columns, and a test compares a few arrays", "anchors": ["gwpopulation/models/mass.py:BaseSmoothedMassDistribution.__call__", "gwpopulation/models/mass.py:BaseSmoothedMassDistribution.p_q", "gwpopulation/models/mass.py:InterpolatedPowerlaw.p_m1", "gwpopulation/models/interped.py:InterpolatedNoBaseModelIdentical.p_x_identical", "gwpopulation/models/redshift.py:_Redshift.probability", "gwpopulation/experimental/cosmo_models.py:CosmoModel.prob"]}
{"id": "C129", "title": "Densities vary continuously with hyper-parameters", "statement": "At every sample strictly inside the support, the power law, the truncated normal, the broken power law, the mass models mixing a power law with peaks, the mass-ratio models, the spin orientation and effective spin models and the redshift models vary continuously with the sample and all hyper-parameters, jointly - also where the code switches between formulas (slope -1, a mean outside the limits, the break).", "quantifier": "all backends, all spaces of hyper-parameters and all continuous paths or families through it, all points strictly inside the support (and, for numpy and cupy with alpha given by keyword, slopes other than the one these backends special-case differently)", "why_tests_cant": "Continuity is a statement about all neighbourhoods of all points; samplers rely on it, and a test that compares two nearby values cannot see a small jump at an untested switch between formulas", "anchors": ["gwpopulation/utils.py:powerlaw", "gwpopulation/utils.py:truncnorm", "gwpopulation/models/mass.py:double_power_law_primary_mass", "gwpopulation/models/mass.py:two_component_single", "gwpopulation/models/mass.py:three_component_single", "gwpopulation/models/mass.py:two_component_primary_mass_ratio", "gwpopulation/models/spin.py:independent_spin_orientation_gaussian_isotropic", "gwpopulation/models/spin.py:gaussian_chi_eff", "gwpopulation/models/spin.py:gaussian_chi_p", "gwpopulation/models/redshift.py:_Redshift.probability", "gwpopulation/models/redshift.py:powerlaw_redshift"]}
{"id": "C130", "title": "The log-likelihood and its variance vary continuously with the hyper-parameters", "statement": "If the weights of the posterior samples and the densities at the injections vary continuously with the hyper-parameters and are positive, the log-likelihood and its variance vary continuously too; with enforced convergence this holds at all hyper-parameters where the selection estimate has converged.", "quantifier": "all spaces of hyper-parameters, all models (weights and densities as continuous functions), all numbers of events, samples and injections, all backends", "why_tests_cant": "Continuity concerns all neighbourhoods of all hyper-parameters; a test evaluates finitely many points", "anchors": ["gwpopulation/hyperpe.py:HyperparameterLikelihood.ln_likelihood_and_variance", "gwpopulation/hyperpe.py:HyperparameterLikelihood._compute_per_event_ln_bayes_factors", "gwpopulation/vt.py:ResamplingVT.__call__"]}
{"id": "C131", "title": "Smoothed mass models vary continuously with their hyper-parameters", "statement": "With smoothing, the density of the primary mass varies continuously with mmin, mmax, delta_m and all other hyper-parameters. This holds wherever neither mmin nor mmax is one of the masses of the object's grid, and fails at every grid mass: as mmax reaches a grid mass the density of all smaller masses jumps down, and between grid masses a power law without peak does not respond to mmax at all, because the density is divided by a trapezoidal sum over the grid.", "quantifier": "all backends, all objects (range, number of grid masses), all slopes, limits, peaks, smoothing lengths > 0 and masses inside the limits; all primary mass models for the positive part; all spaces of hyper-parameters", "why_tests_cant": "Continuity concerns all neighbourhoods of all points; a test sees a jump only if it evaluates next to a grid mass, and a plot on a coarser grid hides the steps", "anchors": ["gwpopulation/models/mass.py:BaseSmoothedMassDistribution.p_m1", "gwpopulation/models/mass.py:BaseSmoothedMassDistribution.norm_p_m1", "gwpopulation/models/mass.py:BaseSmoothedMassDistribution.smoothing", "gwpopulation/models/mass.py:SinglePeakSmoothedMassDistribution"]}
{"id": "C132", "title": "Every draw from the shipped prior files can be evaluated", "statement": "A draw from bbh_population.prior can be evaluated by the models it is shipped for (power law plus peak, independent spin magnitudes and orientations, power-law redshift): given the entries of the draw that a model asks for, each model returns one finite number per sample; likewise a draw from mass_rates.prior by the mass model, and from spin.prior and spin_talbot_thrane.prior by the orientation model. False at two edges inside the closed ranges of the files on numpy and cupy: a maximal spin of exactly 0 and a slope alpha of exactly -1 raise ValueError.", "quantifier": "all draws from the four prior files, all samples (positive masses, any ratio, spin, tilt; redshifts > 0), all numbers of grid masses >= 11, all interpolants, all backends, all cosmologies with a positive volume element", "why_tests_cant": "A draw is a point of a 21-dimensional box; tests draw a handful of points, and one bad corner (a range that reaches outside a model's domain) shows up as a crash or nan hours into a sampling run", "anchors": ["priors/bbh_population.prior", "priors/mass_rates.prior", "priors/spin.prior", "priors/spin_talbot_thrane.prior", "gwpopulation/models/mass.py:SinglePeakSmoothedMassDistribution", "gwpopulation/models/spin.py:independent_spin_magnitude_beta", "gwpopulation/models/spin.py:independent_spin_orientation_gaussian_isotropic", "gwpopulation/models/redshift.py:PowerLawRedshift"]}
{"id": "C133", "title": "The shipped prior files name the parameters of the models", "statement": "The names in spin.prior and mass_rates.prior are those of the library's spin models. False: the shape parameters of the magnitude distribution are called alpha_1, alpha_2, beta_1, beta_2 in the files and alpha_chi_1, ..., beta_chi_2 in the model, and mass_rates.prior calls the mixing fraction xi instead of xi_spin, so every call of the magnitude models with entries of a draw is a TypeError. bbh_population.prior names every parameter of both independent spin models, spin.prior and spin_talbot_thrane.prior those of the orientation model.", "quantifier": "all draws from the prior files, all subsets of the entries of a draw, all samples, all backends", "why_tests_cant": "The files are data: no test of a function reads them, and a mismatch only appears when a user combines a file with a model", "anchors": ["priors/spin.prior", "priors/mass_rates.prior", "gwpopulation/models/spin.py:independent_spin_magnitude_beta", "gwpopulation/models/spin.py:iid_spin", "gwpopulation/models/spin.py:independent_spin_orientation_gaussian_isotropic"]}
{"id": "C134", "title": "The example analysis evaluates the documented likelihood at every draw from its prior", "statement": "For the analysis of the example notebook (two-component primary mass and mass ratio, isotropic-plus-Gaussian spins, power-law redshift): at every draw from its prior the model's value at a binary is the product of normalised densities of masses, spin magnitudes, tilts and redshift; the likelihood and the selection function can be constructed from any non-empty list of events and any set of found injections; and the log-likelihood is the sum over events of the log of the mean of density over sampling prior minus N times the log of the detected fraction, with the documented variance, whenever every event has a sample of positive weight and the injections have converged, and the most negative double otherwise.", "quantifier": "all draws from the notebook's prior, all fixed cosmologies with positive volume element, all lists of events with any number of samples, all injections and numbers of generated injections, all choices of the retained samples, all backends (numpy and cupy: slope other than -1)", "why_tests_cant": "the tests evaluate likelihoods with constant or toy models and a handful of samples; the composition of model, conversion, resampling and selection over all draws, lists of events and injections is not covered by any finite set of runs", "anchors": ["examples/GWTC3.ipynb", "gwpopulation/hyperpe.py:HyperparameterLikelihood", "gwpopulation/vt.py:ResamplingVT", "gwpopulation/models/mass.py:two_component_primary_mass_ratio", "gwpopulation/models/spin.py:iid_spin", "gwpopulation/models/redshift.py:PowerLawRedshift"]}
{"id": "C135", "title": "Evaluations do not depend on earlier evaluations, whatever the population model object remembers", "statement": "Evaluating the likelihood any number of times, with any parameters and including evaluations that fail, returns at each step what a likelihood built from models without memory returns, when the events and the injections each have their own population model object. An object created with cache=False has no memory at all. False for a caching object shared between the likelihood and the selection function: the second data set gets the first one's values.", "quantifier": "all sequences of evaluations and parameters, all model functions (including ones that raise), all data sets, caching or not, all likelihood classes, all backends", "why_tests_cant": "the tests evaluate a likelihood a few times; that no sequence of evaluations leaves a trace is a statement about all of them", "anchors": ["gwpopulation/experimental/cosmo_models.py:CosmoModel", "gwpopulation/hyperpe.py:HyperparameterLikelihood", "gwpopulation/vt.py:ResamplingVT", "examples/GWTC3.ipynb", "test/example_test.py"]}
{"id": "C136", "title": "A whole analysis can be run: every evaluation is a finite double and none depends on earlier ones", "statement": "With the models of test/example_test.py (a smoothed power-law-plus-peak mass model, the independent spin models and a power-law redshift model, in one model object for the events and one for the injections), every sequence of evaluations at draws from bbh_population.prior returns finite doubles, each being the hierarchical log-likelihood of the densities that new model objects give each binary on its own. More generally, functions with memory of their own may be used in a caching model object as long as each returns on one data set what it returns on first use.", "quantifier": "all sequences of draws from bbh_population.prior (a slope of exactly -1 and a maximal spin of exactly 0 excluded on the backends that refuse them), all catalogues and injections with positive primary masses, redshifts and sampling densities, all grids of at least 11 masses, caching on or off in the mass models and in the model objects, all interpolation kernels, all fixed cosmologies with a positive volume element, all backends", "why_tests_cant": "test/example_test.py evaluates one draw twice; that no draw fails and that the two levels of caching never influence a result is a statement about all draws, catalogues and orders of evaluation", "anchors": ["gwpopulation/hyperpe.py:HyperparameterLikelihood", "gwpopulation/vt.py:ResamplingVT", "gwpopulation/models/mass.py:SinglePeakSmoothedMassDistribution", "test/example_test.py", "priors/bbh_population.prior"]}
{"id": "C137", "title": "Base classes never return a number", "statement": "An object of a base class whose defining part is left to subclasses never returns a number when evaluated: the base redshift class raises NotImplementedError whatever the data and parameters (and so does the surveyed volume of a selection function built with it), the base smoothed mass class raises and leaves the object unchanged, and a likelihood whose selection function is an object of the base selection class raises from the log-likelihood, the extra statistics and the rate draw.", "quantifier": "all cosmologies, maximum redshifts, data sets and parameters; all smoothed objects, keywords and non-empty arrays of masses; all likelihood classes, models, conversions and parameters; all backends", "why_tests_cant": "a test evaluates one base object once; that no data, keyword or likelihood makes a base class return a value is a statement about all of them", "anchors": ["gwpopulation/models/redshift.py:_Redshift.psi_of_z", "gwpopulation/models/mass.py:BaseSmoothedMassDistribution", "gwpopulation/vt.py:_BaseVT", "gwpopulation/hyperpe.py:HyperparameterLikelihood"]}
{"id": "C138", "title": "The log-likelihood returned is accurate in double precision", "statement": "Computed in double precision from the weights to the returned number (means, logarithms, sum over the events in any order, selection term, last addition), the log-likelihood is finite, is returned unchanged by the uncertainty cut when the cut does not reject it, and differs from the exact value by at most the rounding steps of the means plus the relative error of the logarithm and of depth + 2 roundings, times the sum of the absolute values of the terms. A correctly rounded logarithm has relative error at most one unit roundoff at every positive double.", "quantifier": "all numbers of events, samples and injections up to 2^50, all weights between 2^-400 and 2^400, all orders of addition, all logarithm functions with relative error at most 1, all thresholds and variances", "why_tests_cant": "rounding depends on every bit of every weight and on the order of additions, which differs between backends; a test compares a few values with a tolerance chosen by hand", "anchors": ["gwpopulation/hyperpe.py:HyperparameterLikelihood.ln_likelihood_and_variance", "gwpopulation/hyperpe.py:HyperparameterLikelihood.log_likelihood_ratio", "gwpopulation/hyperpe.py:HyperparameterLikelihood._compute_per_event_ln_bayes_factors", "gwpopulation/hyperpe.py:HyperparameterLikelihood._get_selection_factor", "gwpopulation/vt.py:ResamplingVT.detection_efficiency"]}
{"id": "C139", "title": "Mass-ratio density between grid masses", "statement": "At a primary mass between two neighbouring masses of the grid, the mass-ratio density of a smoothed mass model is divided by the straight line between the two neighbours' normalisations and not by its own: its trapezoid over the mass-ratio grid is exactly the ratio of the two, is within the relative variation of the normalisation over the step, is exactly 1 at the grid masses, and is strictly below 1 at every mass in between for a flat mass-ratio law on a two-point grid.", "quantifier": "all smoothed objects not yet evaluated, grids, indices of power laws, cuts, masses between neighbouring grid masses; all linear interpolation kernels; all backends", "why_tests_cant": "a test evaluates some masses of one grid and uses a tolerance; how the defect depends on the grid and that it never vanishes between nodes is a statement about all of them", "anchors": ["gwpopulation/models/mass.py:BaseSmoothedMassDistribution.p_q", "gwpopulation/models/mass.py:BaseSmoothedMassDistribution.norm_p_q", "gwpopulation/models/mass.py:BaseSmoothedMassDistribution._cache_q_norms"]}
{"id": "C140", "title": "Rounding does not change the uncertainty cut", "statement": "The total variance of the log-likelihood computed in double precision is finite and differs from the exact one by a bounded number of roundings of 1/n_eff for every event and of n^2 (1/n_eff + 1/N) for the injections, whatever the order in which the backend adds; so the uncertainty cut keeps or rejects a point as in exact arithmetic unless the exact variance is within that error of the threshold.", "quantifier": "all numbers of events up to 2^25, of samples and injections up to 2^46, all weights between 2^-400 and 2^400, all orders of addition, all finite thresholds and log-likelihoods below 2^969", "why_tests_cant": "a test compares one result with a tolerance on one backend; that no order of addition and no weights move the decision by more than the bound is a statement about all of them", "anchors": ["gwpopulation/hyperpe.py:HyperparameterLikelihood.ln_likelihood_and_variance", "gwpopulation/hyperpe.py:HyperparameterLikelihood._get_selection_factor", "gwpopulation/hyperpe.py:HyperparameterLikelihood.log_likelihood_ratio", "gwpopulation/vt.py:ResamplingVT.detection_efficiency"]}
{"id": "C141", "title": "Which hyper-parameters the densities can tell apart", "statement": "Two power laws with the same limits that agree at two different points of the support have the same slope; two truncated normals (same limits) that agree at three different points have the same mean and width; two beta densities (same scale) that agree at three different interior points have the same shape parameters; two power-law redshift models that agree at two different redshifts have the same slope. In the mass models with two peaks the labels of the peaks cannot be told apart: exchanging them (with lam_1 replaced by 1 - lam_1) changes no density, no exception and no cached state.", "quantifier": "all parameters, limits, points in the support, backends and keyword styles; for the labels also all object states, data sets, masses and non-finite parameters", "why_tests_cant": "a test compares a few parameter values at a few points; that no other value of the parameters gives the same density is a statement about all of them", "anchors": ["gwpopulation/utils.py:powerlaw", "gwpopulation/utils.py:truncnorm", "gwpopulation/utils.py:beta_dist", "gwpopulation/models/redshift.py:PowerLawRedshift", "gwpopulation/models/mass.py:three_component_single", "gwpopulation/models/mass.py:MultiPeakSmoothedMassDistribution"]}
{"id": "C142", "title": "Derivatives with respect to hyper-parameters", "statement": "Within its support the power law is differentiable in its slope at every slope, also at -1 where the code changes formula, and the truncated normal in its mean and width, whatever branch of its normalisation is taken; the derivative of the log-density is the derivative of the unnormalised log-density minus its mean under the density. If the weights of the samples and the densities of the injections are differentiable in a hyper-parameter, so is the log-likelihood, and its derivative is the sum over events of the weighted means of the derivatives minus the number of events times that of the injections.", "quantifier": "all parameters and limits, all points of the support, all backends and keyword styles; for the log-likelihood all numbers of events, samples and injections, all differentiable weights, priors and conversion functions", "why_tests_cant": "gradient-based samplers use the derivative at every point they visit; finite differences at a few points cannot show that it exists everywhere, in particular where the code switches formulas", "anchors": ["gwpopulation/utils.py:powerlaw", "gwpopulation/utils.py:truncnorm", "gwpopulation/hyperpe.py:HyperparameterLikelihood.ln_likelihood_and_variance", "gwpopulation/vt.py:ResamplingVT.detection_efficiency"]}
{"id": "C143", "title": "Automatic differentiation of the densities", "statement": "For a formula built from the operations the jax backend traces (arithmetic, powers, logarithms, exponentials, normal distribution functions, clip, nan_to_num, where and comparison masks), forward- and reverse-mode differentiation return the derivative of the value the formula computes, at every point where all operations, including those of branches not selected, are differentiable. In particular the gradients of the power law, the truncated normal and the smoothing window with respect to the point and every parameter inside the support, and of the two rate evolutions with respect to redshift and every rate parameter, are their derivatives. (Two failures: at slope -1 the derivative exists, but forward mode drops the derivative of the normalisation and reverse mode returns NaN; with smoothing width 0, the default, reverse mode returns NaN for the lower limit where the derivative is 0.)", "quantifier": "all formulas over the operations, all assignments of real values to variables, every variable; for the power law all limits 0 < low < x < high and slopes, for the truncated normal all means other than the limits, for the window all points except where clip sets in", "why_tests_cant": "gradient-based samplers rely on the gradient at every point; the failure is at a single slope, and finite differences compare at few points", "anchors": ["gwpopulation/utils.py:powerlaw", "gwpopulation/utils.py:truncnorm", "gwpopulation/models/mass.py:BaseSmoothedMassDistribution.smoothing", "gwpopulation/models/redshift.py:PowerLawRedshift.psi_of_z", "gwpopulation/models/redshift.py:MadauDickinsonRedshift.psi_of_z", "gwpopulation/backend.py:set_backend"]}
{"id": "C144", "title": "Optional hyper-parameters", "statement": "Leaving an optional hyper-parameter out of a call is the same as passing its documented default: 100 for the largest mass of the Gaussian component in the four mass functions that have one, 1 for each mean of the tilt distributions, 0 for the smoothing width of the four smoothed mass models; results, exceptions and the object left behind agree.", "quantifier": "all keyword dictionaries, valid or not, all samples and data sets, all object states, backends and interpolants", "why_tests_cant": "tests call with or without an optional parameter but not both for every combination of the others; equality on all dictionaries, including those that raise, is not a finite check", "anchors": ["gwpopulation/models/mass.py:two_component_single", "gwpopulation/models/mass.py:three_component_single", "gwpopulation/models/mass.py:double_power_law_peak_primary_mass", "gwpopulation/models/mass.py:two_component_primary_mass_ratio", "gwpopulation/models/mass.py:BaseSmoothedMassDistribution", "gwpopulation/models/spin.py:independent_spin_orientation_gaussian_isotropic"]}
{"id": "C145", "title": "Array arguments of the elementary densities", "statement": "powerlaw, truncnorm and beta_dist accept arrays for every argument documented as array-like, of any shapes that can be combined and of integer or float dtype, mixed with scalars and Python numbers, and return the array of the common shape with the value of the density at the corresponding elements. The model shows that this holds for beta_dist always, for the other two on jax, and on numpy and cupy when the data (with index, or mean and width) already have the common shape, as in the calls the package makes; but in-place operations make powerlaw and truncnorm raise when the limits have axes the data lack, powerlaw raises for integer arrays with an integer index, and for a lower limit 0 given as a Python number.", "quantifier": "all arrays of all ranks, shapes, dtypes and values as arguments, all three libraries", "why_tests_cant": "tests evaluate one-dimensional float arrays with scalar limits; shapes and dtypes form an unbounded space", "anchors": ["gwpopulation/utils.py:powerlaw", "gwpopulation/utils.py:truncnorm", "gwpopulation/utils.py:beta_dist", "gwpopulation/models/mass.py:power_law_primary_mass_ratio"]}
{"id": "C146", "title": "truncnorm in double precision", "statement": "In double precision the truncated normal density is always a finite non-negative number, whatever doubles are passed, and 0 outside the limits; between the limits it agrees with the exact density up to a relative error proportional to the accuracy of the elementary functions. The first part holds. The second holds, for the mean between the limits, when the probability between them is not small, and for the mean outside them, when the share of the tail that lies between them is not small, with an explicit bound that grows with one over this number; it is false for limits that enclose the mean very closely: the function then returns the largest double at every point although the exact density is moderate.", "quantifier": "all doubles as arguments, all elementary functions with the stated accuracy", "why_tests_cant": "rounding errors depend on every bit of the arguments; tests compare a few parameter values with a tolerance", "anchors": ["gwpopulation/utils.py:truncnorm", "gwpopulation/models/mass.py:two_component_single", "gwpopulation/models/spin.py:iid_spin_orientation_gaussian_isotropic"]}
{"id": "C147", "title": "Beta parameter conversions in double precision", "statement": "In double precision, converting alpha, beta, amax to mean and variance is off by at most 3 and 10 roundings. Converting back is off by at most 24 u (m^2/v + m) for alpha and 24 u (m/v + 1) for beta, where m and v are mean and variance on the unit interval and u is the unit roundoff, so that parameters whose exact values exceed these bounds get the right sign; the round trip from alpha and beta returns them up to 80 u alpha (alpha+beta+1)/beta and 80 u (alpha+beta) (alpha+beta+1)/beta. That the computed parameters are both positive exactly when a beta distribution with this mean and variance exists is false at the edge of the feasible region, in both directions.", "quantifier": "all doubles between 2^-100 and 2^100 (mean and variance between 2^-150 and 2^150, mean below amax; round trip between 2^-20 and 2^20)", "why_tests_cant": "alpha and beta are differences that cancel; how much depends on every bit of mean and variance, while tests convert a few values with a tolerance", "anchors": ["gwpopulation/conversions.py:alpha_beta_max_to_mu_var_max", "gwpopulation/conversions.py:mu_var_max_to_alpha_beta_max"]}
{"id": "C148", "title": "Population models on arrays of any shape and number type", "statement": "The analytic mass and spin models evaluated on columns of any shape, of integers or floats, with hyperparameters given as Python ints, Python floats or scalars of the library, return the array of that shape holding at each index the density of the numbers at that index, or raise the exception every such evaluation raises. True of all spin models; true of the mass models if masses and slope are not both integers, bounds given as Python numbers are not 0 and the break fraction is a float. Integer masses with an integer slope on numpy, and a smallest mass 0 given as a Python number, never give a result although the documentation and the keyword checks admit them.", "quantifier": "all shapes of all ranks, all values including infinities and NaN, both number types, all three libraries, all twelve mass and seven spin models", "why_tests_cant": "tests evaluate one-dimensional float arrays with float hyperparameters; shapes, number types and kinds of scalars form an unbounded space", "anchors": ["gwpopulation/models/mass.py:power_law_mass", "gwpopulation/models/mass.py:two_component_single", "gwpopulation/models/mass.py:three_component_single", "gwpopulation/models/mass.py:double_power_law_primary_mass", "gwpopulation/models/mass.py:two_component_primary_mass_ratio", "gwpopulation/models/mass.py:two_component_primary_secondary_independent", "gwpopulation/models/spin.py:iid_spin", "gwpopulation/models/spin.py:gaussian_chi_eff", "gwpopulation/utils.py:apply_conditions"]}
{"id": "C149", "title": "Redshift models on arrays of any shape and number type", "statement": "Rate evolution, differential spacetime volume and probability of the power-law and Madau-Dickinson redshift models, evaluated on redshifts of any shape, integers or floats, with parameters given as Python ints, Python floats or scalars of the library, are arrays of that shape holding at each index the value for the redshift there, or raise the exception every such evaluation raises. True unless integer redshifts meet a negative integer slope (numpy raises ValueError) or the peak redshift is a Python number not above -1.", "quantifier": "all shapes of all ranks, all values, both number types, all cosmologies, all three libraries, both rate models", "why_tests_cant": "tests evaluate one-dimensional float arrays; the in-place operations and integer powers behave differently for other shapes and types", "anchors": ["gwpopulation/models/redshift.py:PowerLawRedshift.psi_of_z", "gwpopulation/models/redshift.py:MadauDickinsonRedshift.psi_of_z", "gwpopulation/models/redshift.py:_Redshift.differential_spacetime_volume", "gwpopulation/models/redshift.py:_Redshift.probability"]}
{"id": "C150", "title": "Beta distribution in double precision", "statement": "In double precision the Beta density is, whatever doubles are passed, a finite non-negative number, 0 outside the limits. Strictly between the limits its logarithm is off by at most (3 eta + 16 u)(1 + W) plus the error of the log-Beta function, W being the sum of the sizes of the terms. At a limit where the exponent is 0 it returns 0 although the density is positive.", "quantifier": "all doubles (infinities and NaN included) for the first part; all positive doubles alpha, beta and points strictly between the limits, all elementary functions of relative accuracy eta for the second", "why_tests_cant": "tests compare a few values within a tolerance; the bound holds for every double and shows what cancellation can lose", "anchors": ["gwpopulation/utils.py:beta_dist"]}
{"id": "C151", "title": "Integer node values of the spline models", "statement": "The spline spin models and the spline-modulated mass model give the same result for parameters that are integers as for the same numbers as floats. True on jax, without regularisation, and if at least one node value is a float. A regularised model whose node values are all integers raises TypeError on numpy and cupy.", "quantifier": "all parameters, integer or float each, all data, all interpolants, instances and libraries", "why_tests_cant": "tests draw node values from continuous priors, so integers never occur", "anchors": ["gwpopulation/models/interped.py:InterpolatedNoBaseModelIdentical.extract_spline_points", "gwpopulation/models/interped.py:InterpolatedNoBaseModelIdentical.p_x_identical", "gwpopulation/models/mass.py:InterpolatedPowerlaw.p_m1"]}
{"id": "C152", "title": "Rounding error of the redshift models in double precision", "statement": "Computed in double precision with a power function that is off by at most n rounding errors, the power-law rate evolution, the Madau-Dickinson rate evolution and the differential spacetime volume are finite and positive and differ from the exact values by a known small relative amount: in the logarithm by at most 2u(|lamb| + n), 2u(|gamma| + 4|kappa| + 3n + 4), and the errors of the rate and of the volume element plus 6u (u = 2^-53). Beyond the maximum redshift the volume is exactly 0.", "quantifier": "all redshifts and peak redshifts that are doubles in [0, 2^100], all finite slopes whose powers are between 2^-300 and 2^300, all power functions within n roundings of the exact power, all volume elements between 2^-300 and 2^300 with any known error", "why_tests_cant": "the tests compare at a few points with a tolerance; a bound for every double is not testable", "anchors": ["gwpopulation/models/redshift.py:PowerLawRedshift.psi_of_z", "gwpopulation/models/redshift.py:MadauDickinsonRedshift.psi_of_z", "gwpopulation/models/redshift.py:_Redshift.differential_spacetime_volume"]}
{"id": "C153", "title": "Mixture models in double precision", "statement": "Computed in double precision, the power-law-plus-Gaussian mass model, the model with two Gaussians and the isotropic-plus-Gaussian spin orientation model are finite and not negative for every mixing fraction, and lose at most a relative 6u, 8u and 6u (u = 2^-53) beyond the errors of their components, up to 2^-500 for underflow.", "quantifier": "all fractions that are doubles in [0, 1], all masses, tilts and hyper-parameters that are doubles, all component densities in [0, 2^200] computed up to a factor exp(d), all elementary functions of the library", "why_tests_cant": "fractions near 0 and 1, where 1 - lam cancels, and vanishing components are not sampled; an error bound for every double is not testable", "anchors": ["gwpopulation/models/mass.py:two_component_single", "gwpopulation/models/mass.py:three_component_single", "gwpopulation/models/spin.py:independent_spin_orientation_gaussian_isotropic"]}
{"id": "C154", "title": "Smoothed primary mass density in double precision", "statement": "Computed in double precision, the low-mass window agrees with the exact one at every mass up to a relative 2^-35 and an absolute 2^-900, and the normalised, smoothed primary mass density of the smoothed mass models is finite, not negative and agrees with the density in exact arithmetic up to a factor exp(2 d + 2^-34 + (n + 8) 2^-52) and an absolute 2^-380, where d bounds the relative error of the primary model and n is the depth of the summation; for the power law with a Gaussian peak the bound follows from the errors of the power law and the Gaussian (with n + 14 instead of n + 8).", "quantifier": "all masses and grids of doubles (steps between 2^-40 and 2^40, at most 2^40 points), all cut-offs and positive smoothing lengths of moderate size, all primary models with values in [0, 2^100], all orders of summation, all backends", "why_tests_cant": "the window spans a thousand binary orders of magnitude and the normalisation sums over a grid of any size; no sample of masses bounds the error for all doubles", "anchors": ["gwpopulation/models/mass.py:BaseSmoothedMassDistribution.p_m1", "gwpopulation/models/mass.py:BaseSmoothedMassDistribution.norm_p_m1", "gwpopulation/models/mass.py:BaseSmoothedMassDistribution.smoothing", "gwpopulation/utils.py:trapezoid"]}
{"id": "C155", "title": "Normalised redshift density in double precision", "statement": "Computed in double precision, the probability density of a redshift model is finite, not negative and agrees with the density in exact arithmetic up to a factor exp(2 d + 2 e + (n + 12) 2^-52) and an absolute 2^-380, where d and e bound the relative errors of the rate evolution and of the comoving volume element and n is the depth of the summation; beyond the maximum redshift it vanishes. For the power-law and the Madau-Dickinson models d is explicit in the parameters and the accuracy of the platform's power function.", "quantifier": "all redshifts and grids of doubles (steps between 2^-40 and 2^40, at most 2^40 points), all rate evolutions and cosmologies with values of moderate size, all parameters of the two library models, all orders of summation", "why_tests_cant": "the density is a quotient of a value and a sum over 2500 grid points of products of powers; no sample of redshifts and parameters bounds the rounding error for all doubles and all orders of summation", "anchors": ["gwpopulation/models/redshift.py:_Redshift.probability", "gwpopulation/models/redshift.py:_Redshift.normalisation", "gwpopulation/models/redshift.py:_Redshift.differential_spacetime_volume", "gwpopulation/models/redshift.py:PowerLawRedshift", "gwpopulation/models/redshift.py:MadauDickinsonRedshift"]}
{"id": "C156", "title": "Joint densities of two masses and two spins in double precision", "statement": "Computed in double precision, the joint density of the primary and secondary mass (power laws, and power law plus Gaussian) is finite, not negative and agrees with the density in exact arithmetic up to a factor exp(d1 + d2 + 6 2^-53) and an absolute 2^-280, where d1 and d2 bound the relative errors of the densities of the two masses; it is zero, up to that absolute error, if the secondary mass is the larger one. The joint density of the spin magnitudes is accurate up to a factor exp(d1 + d2 + 2 2^-53), and that of magnitudes and orientations up to exp(d1 + d2 + d3 + d4 + 10 2^-53).", "quantifier": "all masses, spins and hyper-parameters that are doubles with densities up to 2^200, all mixing fractions, all backends, all library functions that meet the accuracy assumptions", "why_tests_cant": "the rounding errors of the factors accumulate and may underflow; no sample of masses and spins bounds the error for all doubles", "anchors": ["gwpopulation/models/mass.py:_primary_secondary_general", "gwpopulation/models/mass.py:power_law_primary_secondary_independent", "gwpopulation/models/mass.py:two_component_primary_secondary_independent", "gwpopulation/models/spin.py:independent_spin_magnitude_beta", "gwpopulation/models/spin.py:iid_spin"]}
{"id": "C157", "title": "Mass-ratio density in double precision", "statement": "Computed in double precision, the density of the mass ratio q given the primary mass m1, a power law between mmin / m1 (itself rounded) and 1, is finite and positive for every q between mmin / m1 and 1, and its logarithm differs from that of the density in exact arithmetic by at most (n + 4) u / (1 - u) plus twice the cancellation of the normalisation plus twice the effect of rounding the lower limit, if both are at most 1/4 (n units in the last place for the power function, u = 2^-53); for slope exactly -1 the bound is (2 n + 2) u / (1 - u) plus four times u / (1 - u) divided by the logarithm of the inverse limit. A mass ratio above 1, or below mmin / m1, gets no density, with at most one exception below the limit: the double nearest to mmin / m1. The joint density of the primary mass (power law plus Gaussian) and the mass ratio is accurate up to the two factors' errors and a factor exp(8 2^-53).", "quantifier": "all primary masses, minimum masses and mass ratios between 2^-400 and 2^400, all slopes up to 1000 in size, all mixing fractions, all backends, all library functions that meet the accuracy assumptions", "why_tests_cant": "the lower limit is a different rounded number for every primary mass; no sample of masses bounds the effect or excludes a mass ratio at the edge being cut", "anchors": ["gwpopulation/models/mass.py:two_component_primary_mass_ratio", "gwpopulation/models/mass.py:double_power_law_primary_power_law_mass_ratio", "gwpopulation/utils.py:powerlaw"]}
