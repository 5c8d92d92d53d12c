{
 "C01": [
  "partial",
  "Proved for every routine on its domain; refuted for group_const with scale larger than the number of channels (C01_const_refuted)."
 ],
 "C02": [
  "partial",
  "Proved for 0 < c <= n; refuted for n < c, where success is reported and no group is described."
 ],
 "C03": [
  "proved",
  ""
 ],
 "C04": [
  "proved",
  ""
 ],
 "C05": [
  "proved",
  "All three variants, with the real significance formulas."
 ],
 "C06": [
  "partial",
  "False as stated: refuted by a zero-variance last group; the partial theorem gives what holds."
 ],
 "C07": [
  "proved",
  "Includes the real bin-size formula (1 <= size <= max 1 FWHM)."
 ],
 "C08": [
  "proved",
  ""
 ],
 "C09": [
  "partial",
  "Proved for Poisson data (Li-Ma, GV); refuted for Gaussian data because the uncertainty of an extension is summed linearly."
 ],
 "C10": [
  "proved",
  ""
 ],
 "C11": [
  "proved",
  ""
 ],
 "C12": [
  "proved",
  ""
 ],
 "C13": [
  "proved",
  ""
 ],
 "C14": [
  "proved",
  ""
 ],
 "C39": [
  "proved",
  ""
 ],
 "C40": [
  "proved",
  ""
 ],
 "C41": [
  "proved",
  "All statistics; zero iff perfect fit also for wstat/pgstat."
 ],
 "C42": [
  "proved",
  ""
 ],
 "C27": [
  "partial",
  "Bounds/distribution part is an invariant of every history; strictness and log>0 are refuted by accepted assignments (min = default; log = True with min <= 0) and hold on all other histories."
 ],
 "C28": [
  "proved",
  "With numpyro argument validation off (its default, never enabled by elisa); with it on the log setter is refuted."
 ],
 "C29": [
  "proved",
  "All operator trees and call-style functions; power and user functions arbitrary."
 ],
 "C30": [
  "proved",
  "Component functions and convolutions arbitrary; the reader is the independent one of Expr.v."
 ],
 "C31": [
  "proved",
  ""
 ],
 "C32": [
  "partial",
  "Proved for additive components occurring once and sum-preserving convolutions (all shifts); refuted for a component used twice (label collapse) and for PhFlux/EnFlux over a sum."
 ],
 "C33": [
  "partial",
  "Numbering proved unique for names that do not look like numbered duplicates; refuted otherwise."
 ],
 "C36": [
  "proved",
  ""
 ],
 "C37": [
  "proved",
  "For models with non-zero flux in the band."
 ],
 "C38": [
  "proved",
  ""
 ],
 "C15": [
  "proved",
  "grouped counts/variances are the sums over the good channels of each group and add up to the good total, for any flags whose first entry starts a group (the code enforces that)"
 ],
 "C16": [
  "proved",
  "for every photon model and every history of calls on an observation built through the constructors"
 ],
 "C17": [
  "proved",
  "exact min/max bounds; contiguous grids are tiled"
 ],
 "C18": [
  "proved",
  "invariant over all finite histories of set_erange/set_grouping/group, successful or failing"
 ],
 "C19": [
  "proved",
  "accept iff non-empty, increasing, pairwise strictly separated; sorted; rejection leaves the state unchanged"
 ],
 "C22": [
  "proved",
  "ratio is the exposure*area*backscale ratio with the group means of C12"
 ],
 "C23": [
  "partial",
  "holds for every history when the NET inference of the two spectra agrees; refuted otherwise: the `net` auto-inference looks at the sign of counts in bad channels (C23_net_inference_refuted)"
 ],
 "C24": [
  "partial",
  "refuted: set_grouping keeps the caller's array by reference and writes its first flag (C24_*_refuted); partial positive theorem"
 ],
 "C20": [
  "partial",
  "proved for all histories, methods and intervals when energies ascend and channels inside intervals are usable; false otherwise (bad channel inside an interval, cut data group, short interval for const, descending energies): refuted by concrete observations"
 ],
 "C21": [
  "partial",
  "proved for all histories when channel energies ascend and const has enough bins per interval; refuted for descending energies and for const with a short interval"
 ],
 "C34": [
  "partial",
  "Mapping = new defaults for all models (C34_mapping). Sequence = mapping proved when no free parameter is used by two component parameters; the code rejects every sequence otherwise (C34_shared_refuted: params_id keeps duplicates, zip(strict=True))."
 ],
 "C35": [
  "partial",
  "All sessions in which no component is created at the address of a dropped one; with address reuse the stale tracker record makes get_model_info fail (C35_address_reuse_refuted)."
 ],
 "C25": [
  "proved",
  "Element-wise characterisation, exact acceptance condition, rejection of short rows, round trip for every cutting into blocks and in particular for maximal runs, ARF product. FITS parsing itself is not modelled."
 ],
 "C26": [
  "partial",
  "Proved for the array class (C26_arrays). Refuted for files: the SYS_ERR column is added twice (C26_file_twice, C26_file_refuted) and a SYS_ERR keyword is dropped (C26_keyword_refuted)."
 ],
 "C60": [
  "partial",
  "Every field is characterised for all accepted files (C60_fields, C60_rates); the QUALITY keyword is dropped by the code (C60_quality_keyword_refuted)."
 ],
 "C61": [
  "proved",
  "The positivity theorem needs a second edge above 1e-30 keV, the constant used by the code."
 ],
 "C51": [
  "partial",
  "layout, statistics type, exposures, grouping and energy ranges proved for every successful simulation from any template state, with sufficient conditions for success; refuted for descending channel energies and for zero background scales in bad channels; the net flag is lost"
 ],
 "C48": [
  "partial",
  "every interleaving of the host callbacks of the devices (each device's callbacks in program order): the bar receives exactly neval, before any close, and is closed between 1 and ncores times; exactly-once closing is refuted for two or more devices (counter read outside the lock) and for zero evaluations"
 ],
 "C43": [
  "proved",
  "Acceptance of Fit inputs is an iff over all argument shapes (single or sequence), names, models and statistics; the automatic choice is characterised for every observation after any sequence of operations and passes its own check iff Gaussian uncertainties are non-zero."
 ],
 "C44": [
  "proved",
  "Vector/dictionary conversions are mutually inverse for every list of distinct names and every pair of inverse bijections (numpyro's transforms are taken to be inverse on their supports: hypothesis of C44_inverse); the names themselves, their uniqueness and order, the values of free and composed parameters and the default vector are proved for every session and model."
 ],
 "C50": [
  "partial",
  "Acceptance is an iff and the accepted list is characterised for every model; linked/fixed/integrated rejections report exactly the offending names. Two parts of the claim are refuted: a list containing one unknown name reports existing linked/fixed names as not existing, and a fixed auxiliary parameter shown in the table is said not to exist."
 ],
 "C45": [
  "proved",
  "For every number of data sets, devices and every fit function: each simulated data set is fitted exactly once, from its own starting values, and entry i of every reported array comes from the fit of data set i; parallel = sequential whenever the parallel factor divides the number of data sets and is refused otherwise; acceptance conditions given."
 ],
 "C62": [
  "partial",
  "Proved for every accepted fit and all statistics except chi2 with a background, where the claim is refuted: the simulated net counts scatter with the error of the gross counts although the likelihood uses the net error."
 ],
 "C63": [
  "partial",
  "The entries are characterised for every accepted fit. Refuted parts: with pstat the entry named after the data set is the gross spectrum; a data set called X_Non overwrites the on counts of X; a data set called total makes every batch fit fail."
 ],
 "C46": [
  "partial",
  "Proved for every history of calls: the stored result is the one a fresh call with the same number and seed would produce, and it is reused exactly when the rounded number and the explicitly given seed agree. Refuted parts: with the default seed nothing is ever reused; a bootstrap of one simulation always fails."
 ],
 "C47": [
  "partial",
  "p-values are the proportions of valid simulations with a deviance at least the observed one, in [0,1], and gof reports them; when no simulation is valid they are nan (refuted)."
 ],
 "C52": [
  "proved",
  "For every symmetric law with a strictly decreasing positive tail function; conversion, idempotence, range and monotonicity."
 ],
 "C64": [
  "partial",
  "Proved for the bootstrap and, for the predictive check, for everything obtained from the fits; the parameters the data were simulated from are not restricted to the valid simulations, so they are misaligned after an invalid fit (refuted)."
 ],
 "C65": [
  "partial",
  "Order, range, central proportions, nesting and definedness proved; with fewer valid simulations than devices no interval can be computed (refuted)."
 ],
 "C66": [
  "partial",
  "Proved for the Hessian method and for bootstrap with at least two quantities; with one parameter the bootstrap covariance raises an error (refuted)."
 ],
 "C67": [
  "partial",
  "Formulas proved when n > k+1; with n = k+1 the result cannot be built (ZeroDivisionError), with n = k the correction has the wrong sign (refuted)."
 ],
 "C49": [
  "partial",
  "Proved for every history of calls when identities are never reused, and with reuse when every displayed quantity is displayed between replacements; refuted in general: an identity reused two replacements later leaves the residuals of the old result in the plot."
 ],
 "C69": [
  "proved",
  "For every result of consistent shape."
 ],
 "C53": [
  "proved",
  "For models that are exact on every grid (e.g. power laws) or numerically integrated components."
 ],
 "C54": [
  "partial",
  "PLAbs fails at the admitted alpha = 1 (C54_pl_abs_refuted); all other cases are proved."
 ],
 "C55": [
  "partial",
  "False of the code: bins lack the factor Eb (C55_integral_refuted), and the bin with the break is wrong because the result of f.at[].set is dropped (C55_break_bin_refuted). Proved: Eb times the value is right for bins not containing the break."
 ],
 "C56": [
  "partial",
  "Holds for alpha - beta >= 1/Ec; below, the code clamps and the spectrum jumps at 1 keV (refuted). For Compt with alpha > 2 (in range) Ep is the minimum (refuted)."
 ],
 "C57": [
  "partial",
  "The ranges admit sigma = 0 (Gauss, GAbs) and Ec = 0 (Edge), where the code divides by zero (refuted), and flux bands off the positive axis; everything else is proved."
 ],
 "C58": [
  "proved",
  "Floating point rounding is not modelled."
 ],
 "C59": [
  "partial",
  "SmoothlyBrokenPL has the documented shape but an amplitude off by 4^rho Eb^alpha1 (refuted; 20 times at the default parameters)."
 ],
 "C70": [
  "proved",
  "Acceptance is an iff; storage is per channel."
 ],
 "C71": [
  "proved",
  ""
 ],
 "C72": [
  "partial",
  "Rows with positive peak; a response with a single photon bin raises instead (C72_single_bin_refuted), because the row is squeezed to a scalar."
 ],
 "C73": [
  "partial",
  "Proved as an invariant over all schedules plus termination by a decreasing measure; the crash case is refuted (C73_crash_refuted). C73_can_finish shows complete executions exist from every crash-free state."
 ],
 "C74": [
  "proved",
  "Index formula for every sampler, walker and step."
 ],
 "C75": [
  "partial",
  "Positive part C75_near_partial, C75_seeds, C75_zeus_seeds (exact condition); counterexamples C75_frozen_refuted (general, for every starting point with a zero coordinate), C75_zeus_refuted."
 ],
 "C76": [
  "partial",
  "C76_jaxns positive; the others are refuted for every input."
 ],
 "C77": [
  "partial",
  "C77_restored positive; C77_failure_refuted for every previous start method other than spawn."
 ],
 "C78": [
  "partial",
  "everything proved but the documented meaning of lin_scale, which is refuted; the ticks' minor formatting is not modelled"
 ],
 "C79": [
  "partial",
  "the lower value of simulated transforms is proved right for integer (or one over integer) ratios and refuted in general; two further documented behaviours refuted; the normal quantile function is a parameter of the model (any increasing function)"
 ],
 "C68": [
  "partial",
  "the positive part is proved for free parameters and functions of free parameters when the number of samples used is a multiple of the number of devices; the failures outside are proved as refutations; highest density intervals (arviz) are not modelled"
 ],
 "C80": [
  "partial",
  "Errors proved in full. Central value proved except when rounding carries to the next power of ten: there the title is a factor of ten too small (refuted: 9999 shown as 1.00 x 10^3). Central value zero raises ValueError (refuted). Decimal rounding is modelled exactly (round half to even of the real number)."
 ],
 "C81": [
  "proved",
  "Univariate distributions are given by a cdf and an inverse cdf that belong together; MultivariateNormal and Dirichlet not modelled. The label claim is refuted for models whose sites are not in alphabetical order (C81_cube_labels_refuted); the returned samples are not affected."
 ],
 "C82": [
  "proved",
  "ASCII strings; the flags claim is for words that either set the device count or do not mention it (others lose the text from the mention on)."
 ],
 "C83": [
  "proved",
  "exact real arithmetic; refuted part in C83_bounds_refuted"
 ],
 "C84": [
  "proved",
  "C84_free, C84_free_contains, C84_invariance, C84_ends, C84_penalty, C84_penalty_minimum, C84_tolerance and C84_answer are the proved parts; C84_swapped_refuted (upper-bounded priors) and C84_fn_refuted (zero-valued functions, nonpositive rtol) record what does not hold of the code. iminuit's search itself is not modelled."
 ],
 "C85": [
  "proved",
  "C85_mapping, C85_value, C85_readable, C85_profile_contains, C85_boot_central, C85_raises, C85_defined, C85_lumin, C85_k_correction, C85_posterior are the proved parts; C85_collision_refuted, C85_params_refuted and C85_dist (first data of each model only; parameter samples scaled) record what does not hold. Highest density intervals (arviz) are not modelled."
 ],
 "C86": [
  "proved",
  "start value per free parameter, minuit/lm/ns over any history of calls; refuted: misspelt names are ignored, options of later lm calls are ignored. The numerical solvers are parameters of the model."
 ],
 "C87": [
  "proved",
  "for one posterior sample, names that do not collide; collision refuted"
 ],
 "C88": [
  "proved",
  "strings as numbers inside mappings/sequences are not modelled; trackers are in C33-C35"
 ],
 "C89": [
  "proved",
  "which tables exist is read from the generating script; the HDF5 file itself is not modelled"
 ],
 "C90": [
  "proved",
  "The quadrature is assumed exact (C90_exact shows one exists). C90_point_refuted: an interval of no length is accepted and the model becomes 0/0 instead of its value at the point."
 ],
 "C91": [
  "proved",
  "The routines of XSPEC are arbitrary functions of the arguments and the grid."
 ],
 "C92": [
  "proved",
  "Quantile functions of the normal and beta laws are arbitrary monotone functions; the simultaneous interval is a parameter."
 ],
 "C93": [
  "proved",
  ""
 ],
 "C94": [
  "proved",
  ""
 ],
 "C95": [
  "proved",
  ""
 ],
 "C96": [
  "proved",
  "ids are hexadecimal strings of one common length, names contain none of them (good_mapping)"
 ],
 "C97": [
  "proved",
  ""
 ],
 "C98": [
  "proved",
  "the unrestricted claim is refuted for simulated pstat data (C98_pstat_refuted) and for negative pgstat backgrounds (C98_negative_background_refuted); both are stated as theorems about the code as it is"
 ],
 "C99": [
  "proved",
  "the claim of the code's comment ('next small net spectrum values') is refuted for ratios p/q with p, q >= 2 coprime (C99_step_refuted)"
 ],
 "C100": [
  "proved",
  "proved for raw labels that are distinct and without '+' / '_'; refuted for repeated raw labels (not checked), for channel types with underscores, and for grouping without a quality array"
 ],
 "C101": [
  "proved",
  "refuted corners, stated as theorems: negative row numbers are accepted (C101_negative_row_refuted), text after the closing brace is dropped (C101_braces_in_directory_refuted), a background named in the header cannot be declined (C101_decline_background_refuted), the warning for a matrix without ancillary response is never given (C101_missing_arf_unnoticed_refuted)"
 ],
 "C102": [
  "proved",
  "arviz's estimators of the effective sample size and R-hat are arbitrary functions of the chains; rounding for print is not modelled"
 ],
 "C103": [
  "proved",
  "the steps of the samplers are arbitrary functions of the tuning, the positions and the random state; numpyro's thinning is taken as documented"
 ],
 "C104": [
  "proved",
  "Text is ASCII; colours, widths and axis limits are not modelled. The _refuted theorems state the findings."
 ],
 "C105": [
  "proved",
  "Derivatives (jax) and the minimiser are inputs; matrix inversion is any function that inverts; exact reals, so the Cholesky test has no rounding. C105_derived_refuted and C105_adding_parameter_refuted: with derived parameters the Hessian is discarded."
 ],
 "C106": [
  "proved",
  "Colours, text and axis limits are not modelled; the residuals themselves are those of C69, C79 and C99. Names differ and none is 'total' (otherwise C106_total_name_refuted). C106_gof_label_refuted: the curve is not the labelled probability."
 ],
 "C107": [
  "partial",
  "The step of the effective area plot and the hatching with several gaps are refuted (C107_step_refuted, C107_matrix_hatch_refuted); what is drawn instead is proved. The rest is proved. matplotlib's step (where='pre'), pcolormesh and fill_betweenx are taken at their documented meaning."
 ],
 "C108": [
  "partial",
  "Refuted: C108_no_warmup_refuted, C108_continued_refuted, C108_replayed_refuted (what happens instead is proved in general). One transition and the adaptation (blackjax) are arbitrary functions; that numpyro skips the warmup of a continued chain, sets the kernel up with the new warmup and replaces the key is taken from numpyro."
 ],
 "C109": [
  "partial",
  "Proved for every root finder that returns exact roots; the equations of the bins are solved one by one in the model (the code solves them in one vector call). That every search starts at a finite value is proved for whole counts with at least one count in the bin and refuted for an empty bin (logarithm of a zero error)."
 ],
 "C110": [
  "partial",
  "The numpyro handlers are modelled on programs with static structure, without parallel enumeration; the three libraries are parameters (points of the run, indices drawn). Refuted: a model with parameters x and u_x cannot be sampled although its names are distinct."
 ],
 "C111": [
  "partial",
  "the parts marked REFUTED are false of the code and proved false (C111_wstat_nan_refuted, C111_wstat_loo_refuted, C111_order_refuted); the others are proved"
 ],
 "C112": [
  "partial",
  "Proved except: nine or more data sets share a marker (refuted), and one sigma away from a lone point the default threshold already yields NaN (refuted)."
 ],
 "C113": [
  "partial",
  "Everything stated is proved; partial because of the four refuted expectations (KeyError for unknown parameters, single level, zero median, marks on a log axis with non-positive samples). Kernel density curves (arviz) and drawing are not modelled."
 ],
 "C114": [
  "partial",
  "All proved; partial because the documented value -1e300 for NaN is refuted (it is -inf)."
 ],
 "C115": [
  "partial",
  "C115_unknown_ignored_refuted: a misspelt name in a mapping is ignored and the result is that without it. Size-one broadcasting on the last axis is not modelled."
 ],
 "C116": [
  "partial",
  "Two refutations: one unusable model makes the whole catalogue unavailable, and a switch whose default is below -1 makes a class that cannot be constructed with its defaults. Units, descriptions and links are not modelled; identifiers are ASCII."
 ],
 "C117": [
  "partial",
  "In unicode mode data named C and c get the same superscript, so two components share a label (C117_unicode_refuted), and a template such as [%.0s] is accepted although it drops the suffix (C117_template_refuted). C117_unique proves different labels for every template that keeps its suffix between characters of its own, C117_unicode_partial for names whose superscripts differ."
 ],
 "C118": [
  "proved",
  "The template of a function is that of its name. A label set by the user for the composite itself is not modelled."
 ],
 "C119": [
  "partial",
  "Degrees of freedom per channel raise ValueError for two or more channels, because the array is compared with 1.0 (C119_array_refuted); C119_array_partial covers one channel. Arrays of length one are not stretched in the model."
 ],
 "C120": [
  "partial",
  "The places found are not always those of the bases themselves: a base whose name is part of another word of the text is shown too early (keV s V gives keV V s, C120_order_refuted). What astropy reads is a parameter of the model."
 ],
 "C121": [
  "partial",
  "A text already replaced is replaced again, so two names cannot be exchanged (C121_exchange_refuted), and keys that become equal lose entries (C121_entries_refuted)."
 ],
 "C122": [
  "partial",
  "Real numbers instead of floats; matplotlib's own locators and formatters are arbitrary functions. set_locs() without argument is refuted: its default None is iterated over and TypeError is raised. An inverted axis gives the larger end first, so both halves are told the whole interval (second part of C122_halves)."
 ],
 "C123": [
  "proved",
  "Real numbers instead of floats; on a logarithmic axis the lower energies must not be negative. Colours, markers and line widths are left out."
 ],
 "C124": [
  "partial",
  "Shown not to hold: the version text 0.6 counts as older than 0.6.0, and a release candidate of 0.6.0 counts as 0.6.0."
 ],
 "C125": [
  "partial",
  "Not atomic: refuted by C125_failed_save_refuted and C125_stopped_save_refuted. dill and the compressed files are parameters with their promises as premises; an instance that keeps them is given (C125_ex). Errors of the file system are reported as KeyError (missing) and RuntimeError (unreadable)."
 ],
 "C126": [
  "proved",
  "The numbering of component LaTeX texts is cid_to_latex (parameter of the model); what astropy makes of a unit is a parameter. C126_unit_refuted: a norm shared by a power law and a black body."
 ],
 "C127": [
  "proved",
  "Histories that leave the two private names of the protection alone (with them: C127_switch_off_refuted); checks and conversions inside property setters are left out (C88, C89 cover them); direct changes of __dict__ are outside the model."
 ]
}