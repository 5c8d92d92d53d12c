{"id": "C01", "title": "Adaptive grouping always yields a partition of the channels", "statement": "Every adaptive grouping routine that returns normally returns one OGIP flag per input channel, each flag 1 or -1, with a group start at the first channel; hence the groups it describes are contiguous, non-empty, disjoint and cover every channel exactly once, in order.", "quantifier": "all channel data of any length, all scales, all methods (const with at least one full group, min, sig, bsig, opt, optmin, optsig, optbsig)", "why_tests_cant": "A test fixes a spectrum; the claim is over every spectrum length and every content, including those for which the last group has to be merged.", "anchors": ["src/elisa/data/grouping.py:group_const", "src/elisa/data/grouping.py:group_min", "src/elisa/data/grouping.py:group_opt", "src/elisa/data/grouping.py:group_optsig_normal", "src/elisa/data/grouping.py:group_sig_lima", "src/elisa/data/grouping.py:group_sig_gv", "src/elisa/data/grouping.py:group_optsig_lima", "src/elisa/data/grouping.py:group_optsig_gv", "src/elisa/data/grouping.py:group_sig_normal"]}
{"id": "C02", "title": "Constant grouping puts the requested number of channels in each group", "statement": "Grouping n channels by constant size c gives a group starting at the first channel, floor(n/c) groups, all of exactly c channels except the last one which has between c and 2c-1.", "quantifier": "all n >= 0 and c > 0", "why_tests_cant": "Unbounded n and c; the n < c corner is the one unit tests do not take.", "anchors": ["src/elisa/data/grouping.py:group_const"]}
{"id": "C03", "title": "Minimum-count grouping: success flag is truthful", "statement": "group 'min' with scale n reports success exactly when every group it returns holds at least n counts, and for non-negative counts that is exactly when the whole segment holds at least n counts.", "quantifier": "all count arrays of any length, all integer scales n > 0", "why_tests_cant": "Needs an argument about every array, in particular about the merge of the trailing group.", "anchors": ["src/elisa/data/grouping.py:group_min", "src/elisa/data/base.py:ObservationData.group"]}
{"id": "C04", "title": "Minimum-count grouping is the finest possible", "statement": "For non-negative counts, no contiguous partition whose groups all hold at least n counts has more groups than the one returned by group 'min'; and every returned group except the last would fall below n without its last channel.", "quantifier": "all non-negative count arrays, all scales, all competing partitions", "why_tests_cant": "Quantifies over all competing partitions of all spectra.", "anchors": ["src/elisa/data/grouping.py:group_min"]}
{"id": "C05", "title": "Significance grouping: success flag is truthful, groups are minimal", "statement": "Li-Ma, Gaussian-background and normal significance grouping report success exactly when every returned group reaches the threshold sigma; every returned group except the last is the shortest one from its starting channel reaching the threshold.", "quantifier": "all source/background arrays, all scale metadata, all thresholds", "why_tests_cant": "Universal over data and over all candidate bins of the greedy scan.", "anchors": ["src/elisa/data/grouping.py:group_sig_lima", "src/elisa/data/grouping.py:group_sig_gv", "src/elisa/data/grouping.py:group_sig_normal"]}
{"id": "C06", "title": "A successful normal-significance group has a positive uncertainty", "statement": "If group 'sig' on Gaussian data reports success then every group has a positive uncertainty and counts/uncertainty >= the requested significance.", "quantifier": "all count and error arrays, all thresholds > 0", "why_tests_cant": "Depends on zero-variance channels appearing anywhere in the spectrum.", "anchors": ["src/elisa/data/grouping.py:group_sig_normal", "src/elisa/data/grouping.py:group_optsig_normal"]}
{"id": "C07", "title": "Optimal binning never exceeds the resolution-based bin size", "statement": "With plain optimal binning every group starting at channel i covers no channel k whose optimal bin size is smaller than the distance from k to the end of the group (i.e. group end <= k + bin(k) - 1 for every k in the group), and the group cannot be extended by one channel without violating it or leaving the segment.", "quantifier": "all FWHM and net count arrays of any length", "why_tests_cant": "Holds for every array; the loop structure (min over a range, early exits) is what is at stake.", "anchors": ["src/elisa/data/grouping.py:group_opt"]}
{"id": "C08", "title": "Optimal binning with minimum counts meets the minimum", "statement": "Optimal binning with a count minimum n succeeds exactly when every group has at least n counts; for non-negative counts that is the case whenever the whole segment has at least n counts, and the returned bins are never narrower than required by the resolution criterion except when the segment ends.", "quantifier": "all FWHM, net count and binning-count arrays, all n > 0", "why_tests_cant": "Universal over arrays; covers the extend and merge branches.", "anchors": ["src/elisa/data/grouping.py:group_opt"]}
{"id": "C09", "title": "Optimal significance binning picks the smallest extension", "statement": "When a resolution-sized bin is not significant enough, optimal significance binning extends it to the smallest bin reaching the requested significance.", "quantifier": "all FWHM, count and error arrays, all thresholds", "why_tests_cant": "Minimality over all extensions of all bins.", "anchors": ["src/elisa/data/grouping.py:group_optsig_normal", "src/elisa/data/grouping.py:group_optsig_lima", "src/elisa/data/grouping.py:group_optsig_gv"]}
{"id": "C10", "title": "Grouping a grouped spectrum's scale equals grouping it once", "statement": "Averaging area/background scales over a first grouping and regrouping the result gives the same scale values and metadata as grouping the original channels directly with the composed grouping.", "quantifier": "all counts, scales, quality masks, first groupings and second groupings", "why_tests_cant": "Associativity of a weighted harmonic mean with fallbacks over arbitrary two-level partitions.", "anchors": ["src/elisa/data/grouping.py:_group_scale_data", "src/elisa/data/grouping.py:_ScaleGroupData"]}
{"id": "C11", "title": "The scale used to judge a candidate bin is the scale of the final bin", "statement": "The background ratio used while scanning a candidate bin [start, stop) equals the ratio of the group [start, stop) recomputed from scratch once the bin is final.", "quantifier": "all metadata arrays, all intervals", "why_tests_cant": "Universal over intervals; prefix-difference identities with zero fallbacks.", "anchors": ["src/elisa/data/grouping.py:_scale_from_interval", "src/elisa/data/grouping.py:_interval_back_ratio", "src/elisa/data/grouping.py:_group_back_ratio", "src/elisa/data/grouping.py:_build_scale_prefix"]}
{"id": "C12", "title": "Grouped scales are means", "statement": "For non-negative counts and positive scales the grouped scale of a group with at least one good channel lies between the minimum and maximum scale of its good channels; in particular a constant scale is preserved; a group without good channel has scale 1.", "quantifier": "all counts, positive scales, quality masks, groupings; both the NET and the non-NET rule", "why_tests_cant": "Real-valued weighted harmonic mean over arbitrary groups.", "anchors": ["src/elisa/data/grouping.py:_group_scale_data"]}
{"id": "C13", "title": "Li-Ma significance is well defined and has the right sign", "statement": "For n_on, n_off >= 0 and ratio a > 0 the quantity under the square root is non-negative, the significance is 0 exactly when n_on = a*n_off, positive exactly when n_on > a*n_off and negative exactly when n_on < a*n_off.", "quantifier": "all real n_on, n_off >= 0, a > 0", "why_tests_cant": "Real analysis over a continuum; floating-point tests sample points.", "anchors": ["src/elisa/data/grouping.py:significance_lima"]}
{"id": "C14", "title": "Vianello significance is well defined and has the right sign", "statement": "For n >= 0, background estimate b, uncertainty s > 0 and ratio a > 0 the background MLE is non-negative and solves the score equation, the quantity under the square root is non-negative, and the significance has the sign of n - a*b.", "quantifier": "all real n >= 0, b >= 0, s > 0, a > 0", "why_tests_cant": "Real analysis over a continuum.", "anchors": ["src/elisa/data/grouping.py:significance_gv"]}
{"id": "C15", "title": "Grouping conserves counts and variance", "statement": "For any grouping flags and quality mask, the grouped counts sum to the counts of the good channels, the squared grouped errors sum to the squared errors of the good channels, and each group's value depends only on its own good channels.", "quantifier": "all spectra, groupings with a group start at the first channel, quality masks", "why_tests_cant": "Universal over arrays and masks.", "anchors": ["src/elisa/data/base.py:SpectrumData.group", "src/elisa/data/base.py:ObservationData.set_grouping"]}
{"id": "C16", "title": "Folding commutes with grouping", "statement": "For every photon model, folding it through the grouped response equals grouping (over good channels) the model folded through the ungrouped response, so data and model channels always refer to the same sum.", "quantifier": "all response matrices, model fluxes, groupings, quality masks", "why_tests_cant": "Linear-algebra identity over arbitrary matrices and partitions.", "anchors": ["src/elisa/data/base.py:ResponseData.group", "src/elisa/data/base.py:SpectrumData.group", "src/elisa/infer/likelihood.py:chi2"]}
{"id": "C17", "title": "Channel grouping keeps energy bounds consistent", "statement": "Each grouped channel's energy bounds are the minimum lower and the maximum upper bound of the channels in the group, so for a contiguous increasing energy grid grouped channels tile the same energy range without gaps or overlaps.", "quantifier": "all channel energy grids, groupings", "why_tests_cant": "Universal over grids and partitions.", "anchors": ["src/elisa/data/base.py:ResponseData.group"]}
{"id": "C18", "title": "Noticed channels are exactly the good groups inside the energy range", "statement": "After any sequence of set_erange/set_grouping/group calls that succeeded, the exposed channels are exactly those groups lying entirely in one of the current energy intervals and holding at least one good channel, and counts, errors, response columns, ratios and energy bounds all have that same length and order.", "quantifier": "all observations and all finite call sequences", "why_tests_cant": "Quantifies over call histories.", "anchors": ["src/elisa/data/base.py:ObservationData.set_erange", "src/elisa/data/base.py:ObservationData.set_grouping", "src/elisa/data/base.py:ObservationData._get_channel_mask"]}
{"id": "C19", "title": "Energy range validation", "statement": "set_erange accepts exactly those interval lists whose intervals are non-empty and pairwise disjoint (strictly separated), stores them sorted, and a rejected range leaves the observation unchanged.", "quantifier": "all interval lists in any order", "why_tests_cant": "Universal over unordered interval lists.", "anchors": ["src/elisa/data/base.py:ObservationData.set_erange"]}
{"id": "C20", "title": "Observation-level grouping meets the requested scale", "statement": "After group(method, scale) completes without a grouping warning, every noticed channel meets the requested scale (e.g. at least `scale` counts for 'min', at least `scale` channels for 'const').", "quantifier": "all observations, quality flags, energy ranges, grouping methods and scales", "why_tests_cant": "Bad channels and energy segments can appear anywhere.", "anchors": ["src/elisa/data/base.py:ObservationData.group", "src/elisa/data/base.py:ObservationData.set_grouping"]}
{"id": "C21", "title": "Energy segments are grouped independently", "statement": "group() never merges channels of different energy intervals, nor channels in an interval with channels outside every interval.", "quantifier": "all observations, erange lists, methods", "why_tests_cant": "Universal over interval layouts, including short intervals.", "anchors": ["src/elisa/data/base.py:ObservationData.group", "src/elisa/data/grouping.py:group_const"]}
{"id": "C22", "title": "Net spectrum is source minus scaled background", "statement": "In every noticed channel net counts = source counts - ratio * background counts and net variance = source variance + ratio^2 * background variance, with ratio the exposure*area*backscale ratio of the group; without background, net equals source.", "quantifier": "all spectra, backgrounds, groupings, ranges", "why_tests_cant": "Universal over data.", "anchors": ["src/elisa/data/base.py:ObservationData.set_grouping", "src/elisa/data/grouping.py:_group_back_ratio"]}
{"id": "C23", "title": "Bad channels never contribute", "statement": "Changing the counts, errors or response of a channel flagged bad in the source or the background never changes any grouped count, error, response or ratio.", "quantifier": "all observations, all modifications of bad channels", "why_tests_cant": "Non-interference over arbitrary perturbations.", "anchors": ["src/elisa/data/base.py:ObservationData.__init__", "src/elisa/data/base.py:SpectrumData.group", "src/elisa/data/base.py:ResponseData.group", "src/elisa/data/grouping.py:_group_scale_data"]}
{"id": "C24", "title": "Setting a grouping does not modify the caller's array and later caller edits do not leak in", "statement": "set_grouping leaves the array passed by the caller unchanged, and changing that array afterwards never changes the grouping used by later calls.", "quantifier": "all arrays and call sequences", "why_tests_cant": "Aliasing shows up only on particular histories.", "anchors": ["src/elisa/data/base.py:ObservationData.set_grouping", "src/elisa/data/base.py:ObservationData.set_erange"]}
{"id": "C25", "title": "Response file expansion", "statement": "Reading a compressed (N_GRP, F_CHAN, N_CHAN, MATRIX) response yields the dense matrix: element (e, c) is the stored value of the group covering channel c in row e, 0 if none; compressing any dense matrix row into groups and reading it back is the identity; a row with too few stored values is rejected.", "quantifier": "all numbers of rows, groups, channel offsets and stored values", "why_tests_cant": "Round trip over all matrices.", "anchors": ["src/elisa/data/ogip.py:Response._read_response"]}
{"id": "C26", "title": "Systematic errors are added once, in quadrature", "statement": "For a Gaussian spectrum read from a file, error^2 = statistical error^2 + (systematic fraction * counts)^2.", "quantifier": "all statistical errors, systematic fractions, counts", "why_tests_cant": "Real-valued identity for all inputs.", "anchors": ["src/elisa/data/ogip.py:Spectrum.__init__", "src/elisa/data/base.py:SpectrumData.__init__"]}
{"id": "C27", "title": "Uniform parameter invariant", "statement": "After any sequence of attribute assignments (default, min, max, log, fixed), successful or failing, the parameter satisfies min < max, min <= default <= max (strictly inside while free), a log parameter has min > 0, and the sampled distribution matches the current bounds.", "quantifier": "all construction arguments and all finite sequences of assignments", "why_tests_cant": "Invariant over all histories.", "anchors": ["src/elisa/models/parameter.py:UniformParameter", "src/elisa/models/parameter.py:UniformParameter._check_and_set_values"]}
{"id": "C28", "title": "A rejected parameter assignment changes nothing", "statement": "If assigning default, min, max or log raises, all attributes of the parameter keep their previous values.", "quantifier": "all parameter states and assignments", "why_tests_cant": "Universal over states and failing inputs.", "anchors": ["src/elisa/models/parameter.py:UniformParameter._check_and_set_values"]}
{"id": "C29", "title": "Composite parameters compute what their printed expression says", "statement": "Parsing the printed name of a composite parameter with the usual precedence and associativity (**, * /, + -) and evaluating it with the values of its base parameters gives the value of the composite.", "quantifier": "all expression trees over +,-,*,/,** of any depth, all values", "why_tests_cant": "Unbounded expression trees.", "anchors": ["src/elisa/models/parameter.py:CompositeParameter._id_to_label", "src/elisa/models/parameter.py:CompositeParameter._id_to_value"]}
{"id": "C30", "title": "Model expressions compute what their printed expression says", "statement": "The printed name of a model parses back (product binds tighter than sum) to an expression with the same value on every energy grid as the model.", "quantifier": "all model expressions built with + and * from additive/multiplicative components, any depth", "why_tests_cant": "Unbounded expression trees.", "anchors": ["src/elisa/models/model.py:CompositeModel", "src/elisa/models/model.py:Model._id_to_label"]}
{"id": "C31", "title": "Model algebra is type safe", "statement": "Adding two models is accepted iff both are additive; multiplication is accepted iff neither is a convolution operator and at least one is multiplicative; convolution operators apply only to supported types; every accepted expression has the dimension (flux or dimensionless) its type says.", "quantifier": "all model expressions of any depth", "why_tests_cant": "Induction over expressions.", "anchors": ["src/elisa/models/model.py:CompositeModel.__init__", "src/elisa/models/model.py:ConvolutionModel.__call__", "src/elisa/models/model.py:ConvolvedModel.__init__"]}
{"id": "C32", "title": "Additive components sum to the total", "statement": "For every additive model the component fluxes reported with comps=True add up to the flux reported with comps=False, in every energy bin and for every parameter value.", "quantifier": "all additive model expressions, grids, parameter values", "why_tests_cant": "Universal over expressions; involves distribution of products and convolutions over sums.", "anchors": ["src/elisa/models/model.py:Model._additive_comps", "src/elisa/models/model.py:CompositeModel._additive_comps", "src/elisa/models/model.py:ConvolvedModel._additive_comps", "src/elisa/models/model.py:Model._compile_additive_fn", "src/elisa/models/conv.py:PhFlux.convolve"]}
{"id": "C33", "title": "Component and parameter names are unique", "statement": "The labels generated for model components (and for data sets and parameters) are pairwise distinct, whatever names the user gave.", "quantifier": "all lists of names", "why_tests_cant": "Collision between a suffixed and a user supplied name needs specific names.", "anchors": ["src/elisa/util/misc.py:build_namespace", "src/elisa/util/misc.py:add_suffix", "src/elisa/infer/fit.py:Fit.__init__"]}
{"id": "C34", "title": "A compiled model accepts its own parameter vector", "statement": "For every model, evaluating its compiled form with a sequence of values, one per name in params_name and in that order, is the same as evaluating it with the corresponding mapping, and the same as setting these values as defaults.", "quantifier": "all models including ones with shared or linked parameters, all values", "why_tests_cant": "Universal over sharing structures.", "anchors": ["src/elisa/models/model.py:Model.compile", "src/elisa/models/model.py:CompiledModel._prepare_eval"]}
{"id": "C35", "title": "Shared parameters have one value everywhere", "statement": "In the parameter assignment derived for a model every component parameter that refers to the same parameter object receives the same value; sampled parameters are exactly the free ones, each sampled once; everything else is a function of them.", "quantifier": "all models, sharing structures, assignments of values to the sampled parameters", "why_tests_cant": "Universal over sharing graphs.", "anchors": ["src/elisa/models/model.py:get_model_info", "src/elisa/models/parameter.py:AssignmentTracker"]}
{"id": "C36", "title": "Flux is additive over energy", "statement": "Photon and energy flux over [a, c] on the union of two grids equals the sum over [a, b] and [b, c]; flux is linear in the model values and non-negative for non-negative models.", "quantifier": "all additive models, all increasing grids", "why_tests_cant": "Universal over grids.", "anchors": ["src/elisa/models/model.py:CompiledModel.flux", "src/elisa/models/model.py:CompiledModel.ne"]}
{"id": "C37", "title": "Flux normalisation yields the requested flux", "statement": "After PhFlux/EnFlux the photon/energy flux of the model over the configured band equals the parameter F, whatever the model, and re-scaling the inner model does not change the result.", "quantifier": "all inner models with non-zero band flux, all F", "why_tests_cant": "Real identity for arbitrary inner models.", "anchors": ["src/elisa/models/conv.py:PhFlux.convolve", "src/elisa/models/conv.py:EnFlux.convolve"]}
{"id": "C38", "title": "Flux band settings take effect", "statement": "After any sequence of valid or rejected assignments to emin/emax/ngrid/elog and evaluations, an evaluation uses the flux grid of the current settings, and emin < emax always holds.", "quantifier": "all call histories", "why_tests_cant": "History-dependent cache.", "anchors": ["src/elisa/models/conv.py:NormConvolution.eval", "src/elisa/models/conv.py:NormConvolution.emin", "src/elisa/models/conv.py:NormConvolution.emax"]}
{"id": "C39", "title": "W-stat profiles the background exactly", "statement": "The background used by wstat is non-negative and maximises the joint Poisson likelihood of source and background counts over all backgrounds b >= 0, for every source model value.", "quantifier": "all s >= 0, n_on, n_off >= 0, a > 0, all competing b", "why_tests_cant": "Optimality over a continuum.", "anchors": ["src/elisa/infer/likelihood.py:wstat_background", "src/elisa/infer/likelihood.py:wstat"]}
{"id": "C40", "title": "PG-stat profiles the background exactly", "statement": "The background used by pgstat is non-negative and maximises Poisson(source) * Normal(background) over all backgrounds b >= 0.", "quantifier": "all s >= 0, n >= 0, background estimates, errors > 0, a > 0, all competing b", "why_tests_cant": "Optimality over a continuum.", "anchors": ["src/elisa/infer/likelihood.py:pgstat_background", "src/elisa/infer/likelihood.py:pgstat"]}
{"id": "C41", "title": "Deviance is non-negative and zero only for a perfect fit", "statement": "The deviance (-2 log-likelihood with the saturated terms removed) of every statistic is >= 0, and for chi2, cstat and pstat it is 0 exactly when model equals data in every channel; total = sum over data sets = sum over channels.", "quantifier": "all data and model values", "why_tests_cant": "Real analysis plus summation over arbitrarily many channels.", "anchors": ["src/elisa/infer/likelihood.py:BetterPoisson.log_prob", "src/elisa/infer/likelihood.py:BetterNormal.log_prob", "src/elisa/infer/helper.py:get_helper"]}
{"id": "C42", "title": "Least-squares residuals encode the deviance", "statement": "The sum of squares of the residual vector handed to the optimiser equals the total deviance, so minimising one minimises the other.", "quantifier": "all data and model values", "why_tests_cant": "Needs non-negativity everywhere.", "anchors": ["src/elisa/infer/helper.py:get_helper"]}
{"id": "C43", "title": "Automatic statistic selection is valid", "statement": "The statistic chosen automatically for a data set is always one its own validity check accepts (given positive Gaussian uncertainties), and a user-chosen statistic is accepted iff data type and background type match it.", "quantifier": "all combinations of data and background types", "why_tests_cant": "Finite table, but over every data set.", "anchors": ["src/elisa/infer/fit.py:Fit._parse_input"]}
{"id": "C44", "title": "Parameter vector and dictionary forms are inverse", "statement": "Converting a vector of free parameters to a dictionary and back, and between constrained and unconstrained space, is the identity, and every vector produced is ordered by the free parameter names.", "quantifier": "all parameter sets and values", "why_tests_cant": "Universal over name sets.", "anchors": ["src/elisa/infer/helper.py:get_helper", "src/elisa/infer/helper.py:check_params"]}
{"id": "C45", "title": "Parallel batch fitting equals sequential fitting", "statement": "Fitting n simulated data sets on p devices returns the same n results in the same order as fitting them one by one, for every n divisible by p, and each data set is fitted exactly once with its own initial values.", "quantifier": "all n, all p, all fit functions", "why_tests_cant": "Universal over batch sizes and schedules.", "anchors": ["src/elisa/infer/helper.py:get_helper"]}
{"id": "C46", "title": "Bootstrap and predictive simulations are cached by their arguments", "statement": "Calling boot (or ppc) again with the same arguments returns the stored result without re-running, and calling it with different n or seed recomputes; the number actually simulated is the smallest multiple of the parallel factor that is >= n.", "quantifier": "all call histories", "why_tests_cant": "History-dependent cache.", "anchors": ["src/elisa/infer/results.py:MLEResult.boot", "src/elisa/infer/results.py:PosteriorResult.ppc"]}
{"id": "C47", "title": "p-values are proportions consistent with the deviances", "statement": "Every reported p-value lies in [0, 1] and equals the fraction of valid simulations at least as deviant as the data.", "quantifier": "all simulated deviance lists", "why_tests_cant": "Universal over lists.", "anchors": ["src/elisa/infer/results.py:MLEResult.boot", "src/elisa/infer/results.py:PosteriorResult.ppc", "src/elisa/infer/results.py:MLEResult.gof"]}
{"id": "C48", "title": "Progress bars always complete", "statement": "For every number of evaluations and cores accepted, the progress bar receives exactly the total number of evaluations under every interleaving of the workers, and is closed exactly once.", "quantifier": "all neval, ncores, update rates; all interleavings", "why_tests_cant": "Concurrency: all schedules.", "anchors": ["src/elisa/util/misc.py:progress_bar_factory"]}
{"id": "C49", "title": "Plot data caches never serve stale results", "statement": "After the bootstrap (ppc) result of a fit is replaced, residual statistics computed for plots come from the current result.", "quantifier": "all histories of boot calls and plot queries, all object identity (id) allocations", "why_tests_cant": "Depends on garbage collection and id reuse.", "anchors": ["src/elisa/plot/data.py:_cache_method_with_check"]}
{"id": "C50", "title": "Requested parameter subsets are validated", "statement": "A request for results on some parameters is accepted iff every requested name is a known non-fixed, non-forwarded parameter; the accepted list has no duplicates and follows the canonical parameter order; every rejected name is reported with the right reason.", "quantifier": "all parameter tables, all request lists", "why_tests_cant": "Universal over name tables.", "anchors": ["src/elisa/infer/helper.py:check_params", "src/elisa/infer/results.py:MLEResult.covar"]}
{"id": "C51", "title": "Simulating from existing data keeps the channel layout", "statement": "simulate_from_data returns observations with the same channels, energy range, grouping and good-channel mask as the template data.", "quantifier": "all templates", "why_tests_cant": "Universal over observations.", "anchors": ["src/elisa/models/model.py:CompiledModel.simulate_from_data", "src/elisa/data/base.py:ObservationData"]}
{"id": "C52", "title": "Confidence level conversion", "statement": "Every confidence level given either as a probability in (0,1) or as a number of sigmas >= 1 is converted to a probability in (0,1), the conversion is monotone on each range, and converting a probability is the identity.", "quantifier": "all real levels", "why_tests_cant": "Real interval case analysis.", "anchors": ["src/elisa/infer/results.py:FitResult._to_unit_cl"]}
{"id": "C60", "title": "OGIP spectrum fields", "statement": "Reading a spectrum file honours its fields: columns are taken as they are, absent ones get their defaults (good quality, every channel its own group, scales of one), the statistics flag of the header wins over the argument, rates and their statistical errors are converted to counts by the exposure, and a QUALITY value given for the whole spectrum (header keyword) applies to every channel.", "quantifier": "all spectrum files that are accepted", "why_tests_cant": "Any combination of columns and keywords, any number of channels.", "anchors": ["src/elisa/data/ogip.py:Spectrum.__init__"]}
{"id": "C61", "title": "Photon energy grid stays positive and increasing", "statement": "The photon grid read from a response file is the file's grid; only a non-positive first edge is replaced, by a positive value below the second edge.", "quantifier": "all ENERG_LO/ENERG_HI columns", "why_tests_cant": "All real-valued grids.", "anchors": ["src/elisa/data/ogip.py:Response._read_response"]}
{"id": "C62", "title": "Simulated counts follow the assumed likelihood", "statement": "Data simulated by a fit (bootstrap, predictive checks, simulation study) are drawn, for every data set and statistic, from the probability law that the likelihood of that data set assumes: Poisson or Gaussian, with the same standard deviations.", "quantifier": "all combinations of data sets, statistics, backgrounds and prior operations on the data", "why_tests_cant": "Any number of data sets with any statistics and any history of grouping and range changes.", "anchors": ["src/elisa/infer/helper.py:get_helper", "src/elisa/infer/likelihood.py"]}
{"id": "C63", "title": "Observed data stored by a fit", "statement": "For every accepted set of named data sets, the observed data of a fit hold under the name of each data set its net spectrum, and under the names of its counts the on and off counts entering the likelihood; entries of different data sets never overwrite each other.", "quantifier": "all accepted fit inputs and all names", "why_tests_cant": "All names, including those that collide with derived names.", "anchors": ["src/elisa/infer/helper.py:get_helper"]}
{"id": "C64", "title": "Rows of a stored simulation belong together", "statement": "In a stored bootstrap or predictive-check result, row i of every array (simulated data, fitted parameters, models, deviances and, for predictive checks, the parameter values the data were simulated from) belongs to one and the same simulation, and exactly the simulations with a valid fit are kept.", "quantifier": "all numbers of simulations, fit outcomes, device counts and call histories", "why_tests_cant": "Any pattern of valid and invalid fits over any number of simulations.", "anchors": ["src/elisa/infer/results.py:MLEResult.boot", "src/elisa/infer/results.py:PosteriorResult.ppc"]}
{"id": "C65", "title": "Bootstrap confidence intervals are central sample intervals", "statement": "After a successful bootstrap, the interval of each requested parameter can be computed for every level, has lower end <= upper end, lies within the range of the valid samples, leaves at most the nominal proportion of the samples on either side, and never shrinks when the level increases.", "quantifier": "all bootstrap outcomes, levels and parameter subsets", "why_tests_cant": "Real-valued samples of every size and order.", "anchors": ["src/elisa/infer/results.py:MLEResult._ci_boot", "src/elisa/infer/results.py:_to_unit_cl"]}
{"id": "C66", "title": "Covariance matrix entries", "statement": "covar() returns a matrix labelled by the requested parameters followed by the requested functions, whose entry (a, b) is the covariance of a and b: propagated linearly through the gradients (hess), or the sample covariance of the bootstrap samples (boot).", "quantifier": "all parameter sets, subsets, functions, matrices and samples", "why_tests_cant": "Matrices of every size and every selection of rows.", "anchors": ["src/elisa/infer/results.py:MLEResult.covar", "src/elisa/infer/results.py:MLEResult._covar_hess", "src/elisa/infer/results.py:MLEResult._covar_boot"]}
{"id": "C67", "title": "Information criteria", "statement": "For every accepted fit, the result reports the small-sample corrected Akaike criterion stat + 2k + 2k(k+1)/(n-k-1) and the Bayesian criterion stat + k ln n.", "quantifier": "all fits (numbers of parameters and channels)", "why_tests_cant": "All numbers of channels and parameters, including the degenerate ones.", "anchors": ["src/elisa/infer/results.py:MLEResult.__init__"]}
{"id": "C69", "title": "Residuals of simulated data", "statement": "The residuals of the simulated data sets shown in plots are: for deviance residuals, numbers whose square is the deviance of the channel, for Pearson residuals the distance to the model in standard deviations (in quadrature over source and background; NaN if a standard deviation is 0, see C111), both with the sign of data minus model; the band drawn from them contains the nominal proportion of the simulations.", "quantifier": "all simulated results, statistics, channel numbers, levels", "why_tests_cant": "Real-valued arrays of every size.", "anchors": ["src/elisa/plot/data.py:MLEPlotData", "src/elisa/plot/residuals.py:pearson_residuals"]}
{"id": "C53", "title": "Redshift and velocity shifts move the spectrum as documented", "statement": "If a model computes exact bin integrals (or bin means) of a spectrum, then its redshifted or velocity-shifted version computes, bin by bin, the integral (mean) of the shifted spectrum with the documented 1/(1+z) factor; redshifts compose as (1+z1)(1+z2), redshift 0 changes nothing, and shifting a numerically integrated component equals integrating the shifted continuum.", "quantifier": "every energy grid, redshift > -1 or velocity in range, every spectrum and every exact model function", "why_tests_cant": "an integral identity over all grids, spectra and factors", "anchors": ["src/elisa/models/conv.py:ZAShift", "src/elisa/models/conv.py:ZMShift", "src/elisa/models/conv.py:VAShift", "src/elisa/models/conv.py:VMShift"]}
{"id": "C54", "title": "Analytically integrated components return the exact bin integrals", "statement": "PowerLaw, PLPhFlux, PLEnFlux, Lorentz return on every energy grid the exact integral of the documented spectrum over each bin (with the requested photon/energy flux in the band, resp. the line normalised to K photons on the half line); Constant and PLAbs return the exact bin means.", "quantifier": "all parameter values and all positive increasing grids", "why_tests_cant": "real-analysis identities for a continuum of parameters, including the alpha = 1 limit", "anchors": ["src/elisa/models/add.py:_powerlaw_integral", "src/elisa/models/add.py:PowerLaw", "src/elisa/models/add.py:PLFluxNorm", "src/elisa/models/add.py:Lorentz", "src/elisa/models/mul.py:PLAbs", "src/elisa/models/mul.py:Constant"]}
{"id": "C55", "title": "The broken power law integrates its documented spectrum", "statement": "BrokenPL returns for every bin the integral of K (E/Eb)^-alpha with the index changing at Eb, also for the bin that contains the break.", "quantifier": "all parameters in range and all grids", "why_tests_cant": "depends on the position of the break relative to every bin", "anchors": ["src/elisa/models/add.py:BrokenPL"]}
{"id": "C56", "title": "Band functions follow their documented formula, are continuous, and Ep is the spectral peak", "statement": "Band and BandEp equal their documented formula and are continuous at every energy; in BandEp and Compt the parameter Ep is where E^2 N(E) is largest.", "quantifier": "all parameters in range and all energies", "why_tests_cant": "a continuum of parameters and energies, and a maximum over all energies", "anchors": ["src/elisa/models/add.py:Band", "src/elisa/models/add.py:BandEp", "src/elisa/models/add.py:Compt"]}
{"id": "C57", "title": "Spectral components never return negative photon numbers, absorption lies in [0, 1]", "statement": "With parameters inside their configured ranges, every built-in additive component returns one non-negative number per bin, absorption components return values in [0,1], ExpFac values >= 1, for both integration methods, and no formula divides by zero.", "quantifier": "every component, every parameter vector in range, every grid, both methods", "why_tests_cant": "ranges over a continuum of parameters and grids", "anchors": ["src/elisa/models/add.py", "src/elisa/models/mul.py", "src/elisa/models/model.py:NumericalIntegral._make_integral"]}
{"id": "C58", "title": "Numerical integration has a bounded error", "statement": "For a monotone continuum the total over the grid differs from the true integral by at most 1/2 (trapz) or 1/3 (simpson) times the widest bin times the total variation; the energy flux computed with geometric mid energies is within (emax/emin)^(1/(2(n-1))) of the true energy flux.", "quantifier": "all monotone (resp. continuous non-negative) spectra, all grids", "why_tests_cant": "error bounds over function spaces", "anchors": ["src/elisa/models/model.py:NumericalIntegral._make_integral", "src/elisa/models/model.py:CompiledModel.flux", "src/elisa/models/conv.py:EnFlux"]}
{"id": "C59", "title": "Numerically integrated components evaluate their documented formula", "statement": "BentPL, CutoffPL, Compt, Gauss, OTTB, OTTS, Edge, ExpAbs, ExpFac, GAbs, HighECut evaluate exactly the documented formula; blackbodies do so within 1e-4 (and 0 beyond 50 kT); the smoothly broken power law evaluates its documented formula.", "quantifier": "all parameters and all positive energies", "why_tests_cant": "a continuum of parameters and energies, including saturated branches", "anchors": ["src/elisa/models/add.py", "src/elisa/models/mul.py"]}
{"id": "C70", "title": "Spectrum data are accepted exactly when well-formed and stored as given", "statement": "Building spectrum data from arrays succeeds exactly when there is at least one channel, every array that is given (errors, quality, grouping, area and background scaling, systematic errors) has one entry per channel (a scalar scaling or systematic error stands for every channel), the exposure is positive, errors, systematic errors and scalings are non-negative, Poisson counts are non-negative, and quality flags are among -1, 0, 1, 2, 5. The stored spectrum then holds the counts, exposure and flags as given, Gaussian errors combined in quadrature with the systematic error, and zero scalings replaced by one outside channels of quality 1.", "quantifier": "All count, error, flag and scaling arrays of any length, Poisson or Gaussian, with or without each optional array", "why_tests_cant": "Acceptance is an if-and-only-if over all array contents; tests try a handful of malformed inputs.", "anchors": ["src/elisa/data/base.py: SpectrumData.__init__"]}
{"id": "C71", "title": "Bad channels are those flagged in the source or the background", "statement": "After any sequence of operations a channel counts as usable exactly when neither the source nor the background (when present) flags it as bad: quality 1 always, qualities 2 and 5 when bad data are to be ignored. An observation can be built only if at least one channel is usable.", "quantifier": "All spectra, backgrounds, quality arrays, ignore_bad settings and operation histories", "why_tests_cant": "The flag must stay the same through every history of groupings and range changes.", "anchors": ["src/elisa/data/base.py: ObservationData.__init__, ObservationData.good_quality"]}
{"id": "C72", "title": "Estimated response width is the full width at half maximum", "statement": "For each photon energy with positive peak response, the estimated width in channels is the distance between the nearest channels on each side of the peak where the response is at most half the peak, or twice the half width when only one side reaches half maximum by the detector edge, and undefined (-1) when neither does; it is at least one otherwise. The width of a channel is that of the photon bin containing the channel's centre energy (clamped to the grid).", "quantifier": "All response matrices with any number of photon bins and channels, and all energy grids", "why_tests_cant": "Every shape of redistribution row, including one-sided and multi-peaked rows, is covered.", "anchors": ["src/elisa/data/base.py: ResponseData.fwhm, ResponseData.channel_fwhm"]}
{"id": "C73", "title": "Progress of parallel ensemble samplers under every schedule", "statement": "When emcee or zeus runs n samplers in parallel, at every moment and for every interleaving of the sampler processes and the listener no progress bar counts more than warm-up plus sampling iterations, is closed twice, or is advanced after being closed; if no sampler fails every schedule terminates with all samplers returned, all bars complete and closed and no message unread. REFUTED part: if a sampler process fails before its last message, the listener can never end, so the interpreter waits for it at exit.", "quantifier": "all numbers of samplers, warm-up and sampling iterations, all interleavings and crash points", "why_tests_cant": "the property ranges over all interleavings of n processes and a listener and over every crash point", "anchors": "src/elisa/infer/samplers/ensemble/base.py run, _progress_listener; emcee.py, zeus.py sampling_fn"}
{"id": "C74", "title": "Samples of every walker end up in the right place", "statement": "The posterior samples of sampler i consist of all samples of walker 0 in time order, then those of walker 1, and so on: sample w*steps+t of chain i is walker w of sampler i at step t, none is lost or repeated.", "quantifier": "all numbers of samplers, walkers and steps and all sample values", "why_tests_cant": "ranges over all array sizes", "anchors": "src/elisa/infer/samplers/ensemble/base.py run; src/elisa/infer/fit.py _generate_result_from_numpyro"}
{"id": "C75", "title": "Starting points and seeds of the ensemble samplers", "statement": "Every walker starts within ten per cent of the requested starting point in every coordinate and all samplers get different seeds. REFUTED: walkers start at distinct points (a coordinate starting at exactly 0, such as the unconstrained value of a uniform prior at its midpoint, is 0 for all walkers and is never moved by any sequence of stretch or differential moves); zeus accepts every seed drawn (the last ones reach 2^32 and are refused).", "quantifier": "all jitters, starting points, walkers, move sequences and seeds", "why_tests_cant": "ranges over all random draws and arbitrarily long move sequences", "anchors": "src/elisa/infer/samplers/ensemble/base.py run; src/elisa/infer/fit.py numpyro ensemble initialisation; zeus.py get_random_state"}
{"id": "C76", "title": "Reported sampling efficiency", "statement": "The relative efficiency reported by a nested sampler is the effective sample size over the number of samples (jaxns). REFUTED for nautilus and ultranest, where it equals the effective sample size itself; re-reading an ultranest run fails when printing, and otherwise reports an effective size of 0; the tree depth is never derived from the number of steps.", "quantifier": "all effective sizes and sample lists", "why_tests_cant": "ranges over all sample sets", "anchors": "src/elisa/infer/fit.py jaxns, nautilus, ultranest, _generate_result_from_numpyro; src/elisa/infer/samplers/ns/ultranest.py"}
{"id": "C77", "title": "Process-wide settings are restored", "statement": "A successful sampling call (and one rejected for bad states) leaves the multiprocessing start method, numpy's global random state and nautilus's pool class as they were; the jax shmap-merge flag is restored even on failure. REFUTED on failure: the start method, the random state and the patched pool stay changed.", "quantifier": "all initial settings, sampler outcomes and bodies", "why_tests_cant": "ranges over all outcomes of the samplers and previous settings", "anchors": "src/elisa/infer/samplers/ensemble/base.py run; ns/ultranest.py run; ns/nautilus.py __init__; src/elisa/util/config.py jax_pmap_shmap_merge"}
{"id": "C78", "title": "The linear-logarithmic axis is an order-preserving bijection", "statement": "The axis of spectral plots (linear up to a threshold, logarithmic above) accepts exactly base > 1, threshold > 0 and scale > 0; its transform is strictly increasing, continuous (no jump at the threshold), linear below and logarithmic above, and the two transforms invert each other on all reals. The automatic scale gives the part below the threshold exactly the requested fraction of the axis. Ticks below and above the threshold come only from the linear, resp. logarithmic locator, and do not depend on the order of the limits. REFUTED: lin_scale is not, as documented, the number of decades used for [0, threshold]; it is 1/(1-1/base) times that.", "quantifier": "all bases, thresholds, scales, axis limits, fractions and real values", "why_tests_cant": "ranges over all reals and all axis settings", "anchors": "src/elisa/plot/scale.py LinLogTransform, InvertedLinLogTransform, LinLogLocator.tick_values, LinLogScale, get_scale"}
{"id": "C79", "title": "Plot residuals have the right sign, order and size", "statement": "Deviance residuals are real, square to the Poisson deviance, have the sign of data minus model (zero iff equal) and grow strictly with the counts; joint residuals are the root of the summed squares. The Poisson probability integral transform is the probability of at most the observed counts, inside [0,1), and randomised transforms never order two counts wrongly. Simulated transforms are the fraction of simulations not above the observation. Quantile residuals are finite, and flagged as lower or upper limit exactly if all or none of the simulations are as low as the observation. REFUTED: the 'next smaller' net count used to randomise W-statistic transforms is not the next smaller one for general background ratios; the functions of elisa.plot.residuals flag the limits the other way round; combining residuals with an array of degrees of freedom always fails for two or more channels.", "quantifier": "all counts, model values, ratios, simulations, random numbers", "why_tests_cant": "infinitely many counts, ratios and random numbers", "anchors": "src/elisa/plot/residuals.py deviance_residuals_*, pit_*, quantile_residuals_*; src/elisa/plot/data.py quantile_residuals_mle, pit"}
{"id": "C68", "title": "Quantities derived from posterior samples", "statement": "The samples used for functions and covariances are joint posterior draws: each draw exactly once if there are at most 10000, else a multiple of the number of devices of them. Every credible interval (parameter or function) is the central one of the requested level, holds the median, has errors of the right sign, and grows with the level. Covariances of free parameters and functions are the empirical covariances of the samples. Leave-one-out expectations are weighted means between the smallest and the largest value. REFUTED: covariances involving composite parameters fail or come out all equal to one number; functions of composite parameters pass the checks but cannot be evaluated; nothing works for functions if the number of draws is not a multiple of the number of devices; with levels that round to 1 the intervals of functions are one-sigma intervals.", "quantifier": "all posteriors, numbers of chains, draws and devices, random indices, levels, functions and requested names", "why_tests_cant": "ranges over all samples, functions and levels", "anchors": "src/elisa/infer/results.py PosteriorResult.covar, ci, _ci_fn, _params_dist, _loo_expectation, FitResult._check_fn, _to_unit_cl"}
{"id": "C80", "title": "Numbers shown in interval titles", "statement": "For every central value other than zero and all bounds, the title of a corner plot shows the central value to within half a unit of its last digit and the lower and upper error with their sign, never rounded away to zero unless the error is exactly zero, each to within half a unit of its last digit, all with the same power of ten.", "quantifier": "all real central, lower and upper values, all positive precisions and exponent thresholds", "why_tests_cant": "rounding behaviour near powers of ten is only hit on a measure-small set of values", "anchors": "src/elisa/util/misc.py: report_interval"}
{"id": "C81", "title": "Nested samplers see the priors and the names of the model", "statement": "The transform from the unit interval handed to a nested sampler has the law of the parameter's prior: for every value x, the points mapped to at most x form a segment whose length is the prior probability of at most x (inverse cdf, monotone transforms of it, wrapped, Bernoulli and categorical priors); a categorical parameter takes each value with its probability and no other value. Entries of array parameters are labelled once each, in the order of the flattened array, with different labels. Every column of the unit cube gets a label, and its own label if the sites of the model are in alphabetical order. REFUTED: if they are not, ultranest reports columns of the cube under names of other parameters.", "quantifier": "all prior distributions of these kinds, chains of monotone transforms, quantiles, array shapes, parameter names", "why_tests_cant": "ranges over all real quantiles, distributions and shapes", "anchors": "src/elisa/infer/samplers/util.py ravel_params_names, uniform_reparam_transform, uniform_reparam_model; src/elisa/infer/samplers/ns/ultranest.py UltraNestSampler.run"}
{"id": "C82", "title": "Settings of the computation environment", "statement": "Setting the number of CPU devices leaves exactly one device-count flag in XLA_FLAGS, the first, with the value of the last call; every other flag is kept in order; repeated calls replace the value. The number of parallel processes is between 1 and the number of devices and equals the request when possible; non-positive requests are rejected. Only cpu, gpu and tpu are accepted as platforms. REFUTED: the number of devices set can be zero or negative; turning off double precision turns it on whenever JAX_ENABLE_X64 is set to any non-empty string, such as 0.", "quantifier": "all flag strings, numbers of cores, requests, sequences of two calls, environment values", "why_tests_cant": "ranges over all strings and integers", "anchors": "src/elisa/util/config.py set_cpu_cores, get_parallel_number, jax_enable_x64, set_jax_platform"}
{"id": "C83", "title": "Finite-difference derivatives of models", "statement": "For models differentiated numerically, the derivative returned for each energy bin is the sum over the parameters with a tangent of tangent times difference quotient, hence linear in the tangents, and the value returned is the model itself. The step is positive and relative to the parameter (absolute for zero). Forward quotients are exact for models linear in the parameter, central ones for quadratic models; otherwise they equal the derivative at a point within one step, with an error of at most M*h (forward) or M*h^2/6 (central). Unknown methods and derivatives with respect to energies are rejected. REFUTED: quotients stay within the parameter bounds.", "quantifier": "all models, parameter values, tangents, both methods, any machine precision > 0", "why_tests_cant": "ranges over all real functions and points", "anchors": "src/elisa/util/misc.py define_fdjvp"}
{"id": "C84", "title": "Profile likelihood intervals are taken from the requested parameter's own profile", "statement": "MLEResult.ci(method='profile') returns, for each requested free parameter, the transforms of (fitted value + lower offset) and (fitted value + upper offset) in the unconstrained space the minimizer works in, whatever else is requested; profiling there and profiling the deviance over the allowed parameters is the same, so the ends are where the profile has risen by the asked amount. For increasing transforms the interval holds the fitted value, its errors have the right sign, and it grows with the offsets; for decreasing transforms (priors bounded above only) the two ends come out swapped. For functions and composite parameters the penalized deviance has its minimum at the fit, accepts every value the function can take within the rise, and accepts nothing further than a relative error sqrt(rtol * rise) from such a value; the tolerance used never exceeds 0.01, a hundredth of the relative error, or hundred times the asked one unless it is the asked one. A function that is zero at the fit cannot be profiled, and tolerances <= 0 are let through. An invalid fit gives nan for everything, a valid one an interval for every name.", "quantifier": "All transforms, fitted values, minimizer offsets, requested names, functions, tolerances and deviance functions", "why_tests_cant": "Tests run a few fits with increasing transforms and cannot range over every transform, deviance and penalty", "anchors": "src/elisa/infer/results.py: MLEResult.ci, _ci_free, _ci_fn, _ci_invalid, _loss_factory"}
{"id": "C85", "title": "Fluxes, luminosities and isotropic energies belong to the right data, component and parameters", "statement": "MLEResult.flux/lumin/eiso report, for every data and (with comps) every component: the flux of that component at the fitted values overwritten by the user's params, times the conversion factor; the standard error of the same quantity; errors = interval - value. The computation is done once per model, for the first data that uses it, and handed to all data with the same model. With the profile method the interval is exp of the log flux plus the minimizer's offsets, hence positive and around the value; with the bootstrap it is the central interval of the fluxes at the bootstrap parameters. lumin and eiso of a fit agree with lumin and eiso of the model and follow 4 pi d^2 times the flux of the redshifted band (times duration/(1+z)); for power laws this is the (1+z)^(index-2) K correction. PosteriorResult gives mean, std, median and central interval of the fluxes at the posterior samples. flux raises for cl <= 0, without bootstrap, for unknown methods, and with comps if any model has a single component. Not guaranteed by the code: names 'data_label' can collide and then one component gets another's interval; with params the profile interval ignores them so the value can lie outside; the bootstrap 'dist' lacks data that share a model and also holds parameter samples scaled as if they were fluxes.", "quantifier": "All models, data names, labels, parameter values, samples, energy grids, redshifts, conversion factors and minimizer offsets", "why_tests_cant": "Depends on the naming of data and components, on which data share models, and on every parameter value; tests use one model per data set", "anchors": "src/elisa/infer/results.py: FitResult.__init__ (_flux, _model_mapping), MLEResult._intensity_ci, flux, lumin, eiso, _ci_boot; PosteriorResult._ci_fn, _intensity_ci; src/elisa/models/model.py: CompiledModel.ne, ene, flux, lumin, eiso"}
{"id": "C86", "title": "Starting points of maximum likelihood fits", "statement": "MaxLikeFit.mle(init) starts the local search, parameter by parameter, at the value given by the user and at the default value where none is given, moved to unconstrained space by the bijection of that same parameter; names unknown to the model are ignored silently. method='minuit' starts there whatever was fitted before; an unknown method raises ValueError and leaves the object as it was. method='lm' searches from the guess of the call with a solver that keeps, for the life of the object, the step limit, throw and verbosity of the first 'lm' call. method='ns' starts from the first of the samples with the largest log likelihood summed over all channels of all data; the samples are those of the first 'ns' call, and the guess of the user does not matter.", "quantifier": "All models, bijections, initial guesses, solvers, sets of samples and histories of calls to mle", "why_tests_cant": "Depends on the history of earlier calls on the same object and on every dictionary of guesses", "anchors": "src/elisa/infer/fit.py: Fit._optimize_lm, Fit._optimize_ns, MaxLikeFit.mle, BayesFit._check_init; src/elisa/infer/helper.py: constr_dic_to_unconstr_arr"}
{"id": "C87", "title": "Log likelihoods stored with a posterior", "statement": "The log_likelihood group of a posterior holds, for every data set, its log likelihood per channel under the name of the data, under the names of its on and off measurements those of each, their sum under name_total, all channels of all data one after the other in the order of the data under 'channels', and the total, which is the sum of those of the data sets, under 'total'. Not guaranteed if names of data collide with the derived ones: with data 'A' and 'A_total' the entry 'A_total' is the sum over the channels of 'A'.", "quantifier": "All sets of data, statistics and values of the log likelihoods", "why_tests_cant": "Depends on the names chosen for the data and on every value of the channels", "anchors": "src/elisa/infer/helper.py: get_loglike; src/elisa/infer/fit.py: BayesFit._generate_results"}
{"id": "C88", "title": "Ways to give a parameter to a component", "statement": "Assigning to a parameter of a component (at construction, comp.x = v, comp['x'] = v): None takes the configured default, range, scale and fixedness; a number fixes the parameter to it within the configured range; [d], [d, min, max], [d, min, max, log] and a mapping with default, min, max (log and fixed default to False) make a parameter with exactly these settings, a free one sitting on a bound being moved inside by 1e-10 of the range. Values out of range, sequences of other lengths, incomplete mappings and non-scalar arrays raise ValueError, other types TypeError, unknown names KeyError or AttributeError; whatever raises changes nothing. A Parameter object is shared, not copied. No other parameter of any component changes, and over any session every parameter stays sound. Not guaranteed: a mapping without log/fixed drops the configured ones; giving a parameter to another component overwrites its LaTeX everywhere.", "quantifier": "All configurations, arguments, sessions of assignments on any number of components", "why_tests_cant": "Ranges over all values and forms of the argument and all histories of assignments", "anchors": "src/elisa/models/model.py: _param_setter, Component.__init__, Component.__getitem__, __setitem__, __setattr__; src/elisa/models/parameter.py: UniformParameter.__init__"}
{"id": "C89", "title": "Settings of components take effect", "statement": "After any history of settings and evaluations, a newly made evaluation function uses the last accepted abundance table, cross-section and integration rule; a value that is not offered raises ValueError and changes nothing. PhAbs, TBAbs and WAbs always find their table, whatever was set, and give for every bin the average of exp(-nH sigma(E)) by the rule in force. Not guaranteed: the differentiation rule (grad_method) of a python component is fixed by the first evaluation, later settings are reported but not used; a user's own subclass of PhotonAbsorption cannot be evaluated.", "quantifier": "All classes, histories of settings and evaluations, column densities, tables and energy grids", "why_tests_cant": "The set of histories is infinite; tests set an option once", "anchors": "src/elisa/models/model.py: NumericalIntegral.method, _make_integral, PyComponent.grad_method, PyAnaInt.eval, PyNumInt.eval; src/elisa/models/mul.py: PhotonAbsorption, PhAbs, TBAbs, WAbs; src/elisa/models/tables/generate_xsect_table.py"}
{"id": "C90", "title": "Parameters integrated over an interval", "statement": "When a parameter is declared as an interval, the model value is the mean of the model over that interval (over the product of the intervals if there are several): it equals the model if the model does not depend on the parameters, lies between the bounds of the model on the intervals whichever end is given first, is the sum of the values of the additive components, and does not depend on the value passed for the parameter.", "quantifier": "all models, parameter values, numbers of intervals and interval ends, with a quadrature that returns the integral", "why_tests_cant": "Iterated real integrals over arbitrary functions and any number of intervals.", "anchors": ["src/elisa/util/integrate.py:make_integral_factory", "src/elisa/models/parameter.py:ConstantInterval", "src/elisa/models/model.py:_compile_model_fn"]}
{"id": "C91", "title": "XSPEC components are evaluated on their grid", "statement": "A component that wraps a routine of XSPEC passes it the values of the parameters in the order in which they are declared, whatever the order in which they are given. With an energy grid that extends the one of the data, the routine gets a grid that contains the energies of the data unchanged, in order, and starts and ends at the declared energies; the user gets one value for each bin of the data, the value computed for that bin; energies outside of the extension are refused with ValueError and all others accepted; the extension has no effect on anything computed bin by bin. Not guaranteed: with no extension to high energies (high_ngrid = 0) the result is empty; an extension that starts exactly at the first energy adds bins of no width.", "quantifier": "all routines, parameter values, grids of energies, linear or logarithmic extensions and numbers of added energies", "why_tests_cant": "The grids, routines and numbers of bins are arbitrary.", "anchors": ["src/elisa/models/xs.py:XspecAdditive.eval", "src/elisa/models/xs.py:XspecMultiplicative.eval", "src/elisa/models/xs.py:XspecConvolvedModel.eval", "src/elisa/models/xs.py:XspecConvolution"]}
{"id": "C92", "title": "Quantile and distribution plots are right", "statement": "In a quantile-quantile plot the points are the sorted residuals against increasing, symmetric quantiles of the reference law; the band with simulations holds the stated proportion of the simulated residuals of that rank, around the median, and without simulations it is ordered around the line; detrending subtracts the reference from everything. The empirical distribution plot shows at every rank the proportion of values not above it, increases and ends at one, with the simultaneous band of the sample size.", "quantifier": "all residuals, simulations, levels in (0,1), quantile functions", "why_tests_cant": "Any number of residuals and simulations and any real values.", "anchors": ["src/elisa/plot/plotter.py:_get_qq", "src/elisa/plot/plotter.py:_get_pit_ecdf"]}
{"id": "C93", "title": "Step plots show every channel once", "statement": "A step plot draws exactly, for every channel in order, the value of the channel from its lower to its upper edge; channels that do not touch are drawn in separate lines; ribbons do the same for the area between the lower and upper values of each.", "quantifier": "all channel edges and values, with any number of gaps", "why_tests_cant": "Any number of channels and gaps.", "anchors": ["src/elisa/plot/plotter.py:_plot_step", "src/elisa/plot/plotter.py:_plot_ribbon"]}
{"id": "C94", "title": "Plot settings are checked and used", "statement": "An assignment to a plot setting is accepted exactly if the value is admissible and raises ValueError otherwise; it changes only the setting it names, so after any history of assignments the settings are admissible; residuals are marked as outliers exactly if they are outside the widest band; colours set by the user are used for every data set until they are reset, whatever the palette. Not guaranteed: an empty list of levels is accepted and then outliers cannot be marked; with the palette None the first plot has no colours.", "quantifier": "all histories of assignments, residuals, bands and colours", "why_tests_cant": "Histories are unbounded.", "anchors": ["src/elisa/plot/plotter.py:PlotConfig", "src/elisa/plot/plotter.py:Plotter.set_colors", "src/elisa/plot/plotter.py:Plotter.colors", "src/elisa/plot/plotter.py:Plotter.plot_residuals"]}
{"id": "C95", "title": "Markers, shades, smoothing and log ranges", "statement": "There is one marker for each data set, different for up to eight data sets (the ninth repeats the third); a colour gradient has the number of shades asked for, from the largest to the smallest factor, ordered in every channel and in the valid range; smoothing gives a weighted mean, within the bounds of the values, exactly where the weight reaches the threshold; the range of a logarithmic axis is positive, contains all values within the stated number of decades below the largest, and is not wider than that number and 0.15. Not guaranteed: at one standard deviation from a single point the default threshold gives no value, against the documentation.", "quantifier": "all numbers of data sets, colours, factors, points, thresholds and ranges", "why_tests_cant": "Real-valued and unbounded inputs.", "anchors": ["src/elisa/plot/util.py", "src/elisa/plot/plotter.py:_adjust_log_range"]}
{"id": "C96", "title": "Names of models show the names of components where the components are", "statement": "The name (and the LaTeX form) of a model, made by replacing the ids in its text by the current names of the components, is what one gets by writing the names in place of the components, whatever the names contain besides, in whatever order the ids are stored, for ids of one length (at least three hexadecimal digits) that do not occur in the names. Not guaranteed: with ids of different lengths an id inside another one is replaced.", "quantifier": "all models, ids, names and orders", "why_tests_cant": "Unbounded expressions, ids and names; sequential textual replacement is correct only under conditions on all of them.", "anchors": ["src/elisa/models/model.py:Model._id_to_label", "src/elisa/models/model.py:CompositeModel", "src/elisa/models/model.py:ConvolvedModel", "src/elisa/models/model.py:Model.name"]}
{"id": "C97", "title": "User-defined components: what the class statement accepts and what an instance holds", "statement": "An empty parameter configuration or one with a wrong entry is refused, as is a class whose declared static methods are not static. An instance of a class with its own configuration has exactly the configured parameters in order, each made from what was given by position or keyword or else from the default, and the other arguments reach the prototype; calls outside the signature are refused. After any history of assignments and deletions an object has the attributes it had, unknown names are refused, and the components of a model stay. Not guaranteed: a configuration that is a list is accepted, and then the parameters are whatever was given, not Parameters; a class derived from a concrete component cannot be instantiated, with or without a configuration of its own.", "quantifier": "all class definitions below the library's prototypes, all calls, all histories of assignments", "why_tests_cant": "Unbounded class hierarchies, signatures, arguments and histories.", "anchors": ["src/elisa/models/model.py:ComponentMeta", "src/elisa/models/model.py:Component", "src/elisa/models/model.py:Model"]}
{"id": "C98", "title": "Sign of the residuals shown", "statement": "The sign the plots attach to a residual is + exactly when the counts of the channel reach the counts the fitted model predicts for the measurement (source plus profiled background) and - otherwise, for all five statistics, although it is computed from the background-subtracted spectrum and the source model alone; the same holds for simulated data of all statistics but pstat, where the background is not subtracted from the simulated counts and channels between source and source plus background get the wrong sign.", "quantifier": "every statistic, channel, response row, photon model, exposure, width, observed or simulated counts whose model lies inside the clip range of the likelihood (and background >= 0 for pgstat)", "why_tests_cant": "relates a profiled-likelihood root to a background-subtracted comparison; true or false only for all real values of counts, ratio and background", "anchors": ["src/elisa/plot/data.py:PlotData.sign", "src/elisa/infer/helper.py:get_counts_data", "src/elisa/infer/likelihood.py:wstat_background,pgstat_background", "src/elisa/data/base.py:FixedData.ce"]}
{"id": "C99", "title": "Leave-one-out probability integral transforms", "statement": "The pair of transforms reported for every channel of a posterior belongs to that channel of that data set, lies in [0,1] with the first not above the second, the second being the weight of the draws not above the data; for Poisson data (and for net spectra when the background ratio or its inverse is a whole number) the step between the two is the weight of the draws that equal the data; for every other rational ratio the lower value is not the next smaller possible value.", "quantifier": "every fit (any number of data sets, any mix of statistics), every number of draws, every weights, counts, ratio, width and exposure", "why_tests_cant": "a lattice argument over all integer counts and rational ratios; a test sees only a few of them", "anchors": ["src/elisa/infer/results.py:PosteriorResult._loo_pit"]}
{"id": "C100", "title": "Channel labels identify the noticed channels", "statement": "The labels of the noticed channels of a fit are distinct, name the observation, the channel type and the group (its number, or the labels of its good channels), and selecting stored values by the labels of a data set gives the values of that data set in order.", "quantifier": "every grouping, quality, noticed range, raw labels, and every list of data sets with distinct names whose channel types and raw labels have no underscore", "why_tests_cant": "string-injectivity over all names and groupings", "anchors": ["src/elisa/data/base.py:ResponseData.group_energy", "src/elisa/data/base.py:ObservationData.set_grouping", "src/elisa/infer/helper.py:get_helper", "src/elisa/infer/results.py:PosteriorResult._loo_expectation"]}
{"id": "C101", "title": "Loading an observation uses the files, row, name and flags one expects", "statement": "Data(...) reads the n-th row of 'file{n}' (n from 1) and the whole table of 'file'; a name, response, ancillary response or background given as an argument wins over the header, else the header's is used unless it is blank or none; POISSERR of the header decides the statistics, else the argument must; without a name or response, or with sizes that differ, the load fails with ValueError; the object is the one built from the arrays read, grouped if requested; the BKG and NET warnings are given exactly when the header says so.", "quantifier": "all paths, file contents, headers and arguments", "why_tests_cant": "The combinations of header keywords, arguments, row specifiers and failures are unbounded; a test fixes a handful of files.", "anchors": ["src/elisa/data/ogip.py:Data.__init__", "src/elisa/data/ogip.py:Spectrum.__init__", "src/elisa/data/ogip.py:Response.__init__", "src/elisa/data/ogip.py:_warn_on_spectrum_classification"]}
{"id": "C102", "title": "Summaries of a posterior describe all draws of all chains", "statement": "The mean, standard deviation and median of a posterior result are, for every parameter and after any reads in any order, those of all draws of all chains. The deviance of every data set and of all data is the mean and median over the draws of minus twice the log likelihood, and the mean for all data is the sum over data sets. The printed tables show these numbers, one row for every parameter and data set in their order, with the central 68.3 % interval as errors of the median; effective sample sizes are those of the parameters; R-hat is not given for a single chain; the best fit is searched from the draw with the largest likelihood, the first such, every parameter taken from the same draw. Shown not to hold: the table of Pareto shapes counts a channel whose shape equals an end of a labelled range in the wrong row (exactly then); the total median deviance is not the sum; a parameter named 'reff' makes the result unprintable; a parameter without an effective sample size (too few draws) makes the whole run fail.", "quantifier": "every set of draws, chains, data sets, log likelihoods, Pareto shapes and history of reads", "why_tests_cant": "tests check one posterior; the order statistics, ties and edge values depend on every draw", "anchors": ["src/elisa/infer/results.py:PosteriorResult._tabs", "src/elisa/infer/results.py:PosteriorResult._compute_stat", "src/elisa/infer/results.py:PosteriorResult.deviance", "src/elisa/infer/results.py:PosteriorResult._mle", "src/elisa/infer/results.py:PosteriorResult.ess", "src/elisa/infer/results.py:PosteriorResult.rhat", "src/elisa/infer/fit.py:BayesFit._get_ess"]}
{"id": "C103", "title": "Samplers are run and continued as asked", "statement": "Every chain of a sampler gives the asked number of draws, one every `thinning` steps after the warm-up; the number of chains (and, for the ensemble samplers, of walkers: `chains`, default four per free parameter) is the one asked for or the documented default; the walkers of draw i are those after warmup + (i+1)*thinning steps. A post-warm-up state is accepted exactly if it is a state of the same kind of sampler (numpyro), or one state for every sampler with a position for every walker (emcee, zeus); then there is no warm-up. Sampling a steps and continuing from the returned states for b steps gives the draws of a run with a + b steps. User-given starting values take precedence over an initialisation strategy. Shown not to hold with tuning (default of zeus): what is tuned in the warm-up is not used in the sampling phase, nor after a continuation.", "quantifier": "every sampler step function, number of steps, thinning, chains, samplers, states given", "why_tests_cant": "tests run a few steps with one sampler; the law of continuation holds for all splits of a run and all step functions", "anchors": ["src/elisa/infer/samplers/ensemble/base.py:EnsembleSampler.run", "src/elisa/infer/samplers/ensemble/emcee.py:EmceeSampler.get_sampling_fn", "src/elisa/infer/samplers/ensemble/zeus.py:ZeusSampler.get_sampling_fn", "src/elisa/infer/samplers/ensemble/numpyro.py:NumpyroEnsembleSampler.init", "src/elisa/infer/fit.py:BayesFit._run_numpyro_mcmc", "src/elisa/infer/fit.py:BayesFit._set_numpyro_mcmc_post_warmup_state"]}
{"id": "C104", "title": "What the spectral plots show", "statement": "A request for plots is read as words separated by white space; unknown words raise ValueError. One figure is made for all spectral words together and one for each other plot. The spectral figure has, in this order, one panel each for data, N(E), E N(E), E^2 N(E) and residuals, exactly those asked for; the residuals are those of the last residual word. In each model panel every data set is drawn once: one step per photon energy bin inside of the energy range of its channels (or of the user's grid), of height N/(dE), times the geometric mean energy (squared) in erg, times the factor to Jy if asked for, at the best fit or as posterior median, with the user's parameter values put in; the bands are the central intervals of each configured level over bootstrap or posterior samples; dotted lines show the components when configured and there are at least two. Findings: white space at either end of the request makes it fail; asking for both erg and Jy shows Jy only; data whose channels cover less than two photon energies make the plot fail with IndexError; the unfolded model of a posterior without levels raises TypeError.", "quantifier": "all requests, configurations, fits, posteriors, numbers of data sets, energy grids, parameter overrides and levels", "why_tests_cant": "Tests compare a few figures; the claim ranges over all texts, all combinations of words, all grids and all samples", "anchors": ["src/elisa/plot/plotter.py:Plotter.plot_spec", "src/elisa/plot/plotter.py:Plotter.plot_unfolded", "src/elisa/plot/plotter.py:MLEResultPlotter.__call__", "src/elisa/plot/plotter.py:PosteriorResultPlotter.__call__", "src/elisa/plot/data.py:MLEPlotData.unfolded_model", "src/elisa/plot/data.py:PosteriorPlotData.unfolded_model", "src/elisa/plot/data.py:PlotData.photon_egrid"]}
{"id": "C105", "title": "Errors of fitted parameters", "statement": "After a fit, the error reported for every parameter is the square root of its propagated variance J C J^T, where C is the inverse of the observed information (twice the inverse Hessian of the deviance) whenever the covariance it gives for the parameters is positive definite or the minimiser has no covariance, and the covariance of the minimiser otherwise; at a proper minimum with parameters that depend independently on the free ones, C is the inverse information and no error is missing; a parameter of a single free parameter has error |dp/da| sigma_a; a negative variance gives no number. The maximum of a posterior always uses the inverse information. (Finding: with any parameter derived from others the propagated covariance is singular, so the Hessian is never used when the minimiser has a covariance: adding a derived parameter can change the errors of the others.)", "quantifier": "all Hessians, Jacobians, numbers of free and derived parameters, and covariances of the minimiser", "why_tests_cant": "Universal over matrices of every size; a test sees only a few fits.", "anchors": ["src/elisa/infer/helper.py:get_helper", "src/elisa/infer/results.py:MLEResult.__init__", "src/elisa/infer/results.py:PosteriorResult._mle"]}
{"id": "C106", "title": "Diagnostic plots with one panel per data set", "statement": "The quantile, transform and goodness-of-fit figures have a large panel for all data sets and a visible small panel for each, none left empty; each panel shows the residuals, transforms or deviances of its own data set and the large one those of all channels; simulated bands are drawn exactly if every data set has simulations, joined simulation by simulation; the goodness-of-fit curve shows all simulated deviances in order, with the proportion of simulations above each, the observed deviance, and its p-value unless no simulation reaches it; without simulations it raises RuntimeError. (Findings: a data set called 'total' takes the place of the large panel; the vertical axis is labelled P(D >= d) but the curve is smaller by at least 1/n, zero at the largest simulation.)", "quantifier": "all numbers and names of data sets, residuals, transforms, deviances and simulations", "why_tests_cant": "Universal over collections of data sets and simulations of every size.", "anchors": ["src/elisa/plot/plotter.py:Plotter.plot_qq", "src/elisa/plot/plotter.py:Plotter.plot_pit", "src/elisa/plot/plotter.py:Plotter.plot_gof"]}
{"id": "C107", "title": "Plots of data and response", "statement": "The plot of a spectrum spans every noticed channel, its total minus background rate is the net count spectrum with errors added in quadrature, and its significance has the sign of the net counts; the response plots draw every channel in use over its own energies, and hatch exactly the bins outside the noticed ranges. REFUTED in part: the effective area is drawn one bin too low (each photon bin shows the area of the next), with two or more gaps between the channels in use the matrix hatching covers noticed channels, and a noticed range narrower than the photon bins raises IndexError.", "quantifier": "every spectrum, background, response, noticed ranges, quality mask and history of regroupings", "why_tests_cant": "the gaps, ranges and masks combine in unboundedly many ways; the figures come out without an error in the wrong cases", "anchors": ["src/elisa/data/base.py:ObservationData.plot_spec", "src/elisa/data/base.py:ResponseData.plot_effective_area", "src/elisa/data/base.py:ResponseData.plot_matrix"]}
{"id": "C108", "title": "Warmup and sampling of BlackJAX NUTS", "statement": "Every warmup iteration of the BlackJAX NUTS sampler makes one adaptation with the stages of the schedule in order, and no later iteration makes any; all draws after a warmup use one step size and mass matrix; the reported mean acceptance rate is the mean over the current phase; the energy and gradient kept with a position are those of the position; a continued chain keeps the step size and mass matrix. REFUTED in part: without warmup the first draw uses another step size than the others, a chain continued with a longer warmup is still adapted while its draws are kept, and every continuation replays the same random keys.", "quantifier": "every length of the warmup and of the run, every transition, adaptation and schedule", "why_tests_cant": "invariants over all iterations of a chain; the wrong cases give draws without any error", "anchors": ["src/elisa/infer/samplers/blackjax/nuts.py:BlackJAXNUTS.init", "src/elisa/infer/samplers/blackjax/nuts.py:BlackJAXNUTS.__init__", "src/elisa/infer/fit.py:BayesFit._run_numpyro_mcmc"]}
{"id": "C109", "title": "Error bars of binned counts from the W statistic", "statement": "wstat_errors(n_on, n_off, a, uplim) returns, for every bin with positive net counts, an interval that is exactly the set of source counts s >= 0 for which some background makes the on/off Poisson deviance at most 1 above the smallest deviance over all sources and backgrounds; for every other bin the lower end is 0 and the upper end is the largest s whose deviance is within the increment of the requested upper limit, and the bin is marked. The net counts (0 where negative) are the most likely source counts and lie inside the interval. Both equations solved have exactly one solution on their side of the best value, so the result does not depend on the start of the search. With whole counts and at least one count in the bin the start is finite; in a bin without any counts it is not.", "quantifier": "all non-negative on and off counts, all positive ratios and increments, all source counts, and every root finder whose answers are roots", "why_tests_cant": "that an interval equals a profile-likelihood set is a statement about every real source count and every background; a test evaluates a few counts", "anchors": ["src/elisa/plot/errorbars.py:wstat", "src/elisa/plot/errorbars.py:wstat_errors", "src/elisa/plot/errorbars.py:pgstat", "src/elisa/infer/likelihood.py:wstat_background"]}
{"id": "C110", "title": "What nested samplers explore and what they return", "statement": "For every model and every point of the unit cube, the function explored by jaxns, nautilus and ultranest is the log-likelihood of the observations alone at the parameters to which the priors (possibly depending on earlier parameters) send the point; the values returned for a point are those parameters and the quantities derived from them, under their own names, and the original model evaluated at them has log density log prior + that log-likelihood. Every parameter owns one block of columns of the cube, with the labels of its entries; derived values appended to a row (ultranest) do not change its log-likelihood and have one label each. ignore_nan only replaces values that are not finite. Every sample handed out is the image of a point of the run; a nautilus run that stopped at a limit and a jaxns sampler that has not run raise. The requested effective sample size wins over user keywords, nautilus always discards the exploration phase and evaluates one point at a time, jaxns gets exactly the arguments of the call. REFUTED: every model with distinct names can be sampled (parameters K and u_K together cannot).", "quantifier": "all programs of latent, observed and deterministic sites with static structure, all priors and likelihoods, all points of the cube, all keyword dictionaries", "why_tests_cant": "a test samples one model; that prior and likelihood are neither counted twice nor mixed up is a statement about every model and every point", "anchors": ["src/elisa/infer/samplers/util.py:UniformReparam", "src/elisa/infer/samplers/util.py:uniform_reparam_model", "src/elisa/infer/samplers/ns/jaxns.py:JAXNSSampler", "src/elisa/infer/samplers/ns/nautilus.py:NautilusSampler", "src/elisa/infer/samplers/ns/ultranest.py:UltraNestSampler", "src/elisa/infer/fit.py:BayesFit.jaxns", "src/elisa/infer/fit.py:BayesFit.nautilus", "src/elisa/infer/fit.py:BayesFit.ultranest"]}
{"id": "C111", "title": "Residuals of the observed data", "statement": "For a maximum likelihood fit the deviance residual of a channel is a number whose square is the channel's deviance and which is negative exactly when the counts are below the counts predicted (source plus background); the Pearson residual is the distance in standard deviations (counts and background in quadrature where the background is profiled), negative in the same cases; for chi2 data all three kinds are the same number. For a posterior the deviance residual squares to the leave-one-out mean of the deviance over the draws, the Pearson residual has the mean size of those of the draws, both with the sign of data minus mean model; a posterior concentrated in one point shows the residuals of that point; after a predictive check the residuals at the best fit are shown instead. Quantile residuals are numbers, marked as limits exactly if the transform is 0 or 1, and ordered like the transforms where these are fractions of simulations. Other words are refused. REFUTED: for W-statistic channels without background counts whose source exceeds a/(a+1) n the Pearson residual of a fit is NaN, and that of a posterior is shown as 0 whatever the counts (such draws are silently left out of the mean); with weighted or randomised transforms a channel whose transform is 0 can have the larger quantile residual.", "quantifier": "all data sets of the five statistics, channels inside the clips of the likelihood, photon models, posterior draws and normalised weights, random numbers, distribution functions that may round to 0 or 1", "why_tests_cant": "the claims quantify over all fits and draws; NaN only appears for special combinations of statistic, counts and model", "anchors": ["src/elisa/plot/data.py:MLEPlotData.residuals", "src/elisa/plot/data.py:MLEPlotData._pearson_residuals", "src/elisa/plot/data.py:PosteriorPlotData.residuals", "src/elisa/plot/data.py:PosteriorPlotData._pearson_residuals", "src/elisa/plot/data.py:PosteriorPlotData.quantile_residuals", "src/elisa/plot/residuals.py:pearson_residuals", "src/elisa/plot/plotter.py:Plotter.plot_residuals"]}
{"id": "C112", "title": "Colours, markers and smoothed curves of the plots", "statement": "scale_color with a positive factor gives, for every 7-character text '#rrggbb', the text whose three components are the old ones times the factor, truncated to an integer and clipped to 0..255, and it refuses everything else with ValueError; a larger factor never gives a darker colour, factor 1 changes nothing. get_color_gradient gives exactly n colours from the brightest to the darkest, and get_contour_colors gives n line and n area colours, a line never brighter than its area. get_colors and get_markers give exactly n entries, neighbouring markers always differ and the first eight are distinct (the third and the ninth are the same: refuted for nine data sets). gaussian_kernel_smooth gives one value per evaluation point, missing exactly where the summed Gaussian weight is below the threshold; values lie between the smallest and the largest datum, commute with changes of units, and at the data points themselves are never missing for thresholds up to 1; the documented meaning of the default threshold (one sigma) fails for a lone point.", "quantifier": "every text, every real factor, every number of colours/markers, all data sets, bandwidths, thresholds and evaluation points", "why_tests_cant": "colour texts, factors and sample sets are unbounded; a test fixes a handful of palettes and chains", "anchors": ["src/elisa/plot/util.py: get_colors, get_markers, scale_color, get_color_gradient, get_contour_colors, gaussian_kernel_smooth"]}
{"id": "C113", "title": "Corner and trace plots show each parameter's own numbers", "statement": "plot_corner gives every plotted parameter its own title and label, the title reporting the 15.865%, 50% and 84.135% points of that parameter's samples; there are as many line and area colours as levels (a line never brighter than its area, points in the brightest), and axis ranges are set only when a plotted parameter is constant, and then enclose exactly the samples of every other parameter. It refuses wrong numbers of titles or labels (AssertionError). plot_trace refuses exactly unknown parameters and wrong numbers of scales or labels (ValueError); a row is logarithmic iff asked for and all samples are positive; each chain is drawn with its own samples and deviances, moved by less than one draw; the smoothed curve has a value at every evaluation point and stays within the samples of its chain; there is exactly one mark per divergence, at its draw and sample, inside the axis. Refuted: an unknown parameter of plot_corner gives KeyError, not the ValueError of the code; one number as level (documented) is never accepted; a parameter whose median is zero cannot be plotted; marks vanish when a logarithmic axis was asked for and some sample is not positive.", "quantifier": "all posteriors (any number of parameters, chains and draws), all choices of parameters, titles, labels, scales, levels, colours, and all divergence flags", "why_tests_cant": "samples, parameter sets and argument forms are unbounded; tests draw one figure", "anchors": ["src/elisa/plot/misc.py: plot_corner, plot_trace"]}
{"id": "C114", "title": "What the ensemble samplers sample and store", "statement": "The vector of a walker and the dictionary of free parameters determine each other: unravelling and ravelling lose and move nothing, whatever the order and shapes of the sites. Every stored sample has each site of the model exactly once, free parameters first; its log probability is minus the potential at that walker's point and each field is that site's value at the same point, independent of other walkers. A log probability that is not a number is kept, or with ignore_nan becomes minus infinity, and then no walker has one (the documentation says -1e300: refuted; and -inf becomes a finite number). The differential move of the zeus sampler gives one direction per walker, each the scaled difference of two different walkers and no ordered pair twice, refuses exactly when there are fewer than two walkers, and after any history of calls with any numbers of walkers behaves like a new one.", "quantifier": "all models (sites, shapes, values), all ensembles of walkers, all random draws and all histories of calls", "why_tests_cant": "models, ensembles and call histories are unbounded; a test runs one ensemble", "anchors": ["src/elisa/infer/samplers/util.py: get_model_info", "src/elisa/infer/samplers/ensemble/base.py: EnsembleSampler.__init__", "src/elisa/infer/samplers/ensemble/zeus.py: DifferentialMove"]}
{"id": "C115", "title": "Arrays of parameters", "statement": "Evaluating a compiled model, N(E), E N(E), E^2 N(E), its folded spectrum or its flux for an array of parameter sets of any shape gives an array of that shape (followed by the energy axis) whose entry i is what the call gives for the i-th parameter set alone, total and by component, including the error if it fails; an array whose last axis does not match the number of free parameters, a mapping without known names, and arrays of different shapes are refused; unknown names are silently ignored.", "quantifier": "every compiled model whose evaluation can be traced, energy grid, array shape (any number of axes), index, array or mapping argument", "why_tests_cant": "tests evaluate a few shapes; the property ranges over all shapes, indices and models", "anchors": ["src/elisa/models/model.py:CompiledModel._prepare_eval", "src/elisa/models/model.py:CompiledModel.eval", "src/elisa/models/model.py:CompiledModel.flux", "src/elisa/models/model.py:CompiledModel.ce"]}
{"id": "C116", "title": "Classes generated for the XSPEC library", "statement": "For every model XSPEC describes, the generated class has exactly XSPEC's parameters in XSPEC's order with XSPEC's default, limits and fixed flag (-1 and 1e10 where XSPEC gives none), followed by a norm for additive models; parameter names are usable Python argument names; whatever the order of the values, XSPEC's routine receives them in XSPEC's order; convolutions act on additive models except partcov, vmshift and zmshift, which act on multiplicative ones; descriptions that cannot be turned into a class (no parameters and not additive, clashing or reserved names) are refused and never mis-wired; each model of the catalogue is available under its own name.", "quantifier": "every model description (names, types, any number of parameters, any limits), every catalogue, every mapping of values", "why_tests_cant": "The catalogue depends on the XSPEC version installed; a test sees the models of one version, not the descriptions of every version, nor every clash of names.", "anchors": ["src/elisa/models/xs.py:_generate_xspec_models", "src/elisa/models/xs.py:_XSPEC_MODEL_TEMPLATE_ADD", "src/elisa/models/xs.py:_XSPEC_MODEL_TEMPLATE_CON", "src/elisa/models/model.py:ComponentMeta.__new__"]}
{"id": "C117", "title": "Labels with sub- and superscripts", "statement": "set_suffix_config accepts four templates exactly if each of them can be filled with one text, and otherwise raises ValueError and changes no setting, so that the settings are usable after any sequence of calls. With usable settings add_suffix fails only if the numbers of strings and suffixes differ; otherwise the i-th string gets the i-th suffix put in the template (LaTeX strings and suffixes are put in braces, or the suffix in \\mathrm), an empty suffix adds nothing to the string, and one string gives one string. The labels of a fit, the component names with a number as subscript and the data as superscript, are all different for the default settings and for every template with characters of its own that occur in no name. In unicode mode they are different only if no two sets of data have the same superscripts.", "quantifier": "every call of set_suffix_config, every list of strings, suffixes and options, every list of components and data of a fit", "why_tests_cant": "the failures depend on rarely used characters and templates: tests try the default settings and some names", "anchors": ["src/elisa/util/misc.py:set_suffix_config", "src/elisa/util/misc.py:add_suffix", "src/elisa/infer/fit.py:Fit.__init__"]}
{"id": "C118", "title": "Composite parameters: default, fixed, description and LaTeX", "statement": "Arithmetic between parameters gives a composite parameter and arithmetic with anything else raises TypeError. A composite's default is its value at the defaults of its base parameters, and raises RuntimeError exactly if one of them is an interval; it is fixed (logarithmic) exactly if all its base parameters are. Its description has exactly one entry for every parameter used in it, at any depth and however often it is used, with that parameter's own attributes. Its LaTeX label is the text of its name with the LaTeX names of the parameters, with balanced braces and every exponent in braces.", "quantifier": "every composite parameter of any depth, with shared parts", "why_tests_cant": "composites are built by repeated operations to any depth: tests try small ones", "anchors": ["src/elisa/models/parameter.py:Parameter._make_composite_parameter", "src/elisa/models/parameter.py:CompositeParameter"]}
{"id": "C119", "title": "Two residuals of a channel combined", "statement": "combine_residuals gives one value per channel whose absolute value is as improbable for a standard normal variable as the sum of the two squares is for a chi-square variable with the given degrees of freedom, with the sign given; for one degree of freedom it is the root of the sum. It is zero only if both are, increases with the sum, and does not depend on the order of the two. Arrays of different lengths raise ValueError. Degrees of freedom may be given per channel.", "quantifier": "all arrays of residuals, degrees of freedom and signs", "why_tests_cant": "the probabilities are compared for every pair of numbers; tests try some", "anchors": ["src/elisa/plot/residuals.py:combine_residuals"]}
{"id": "C120", "title": "Units shown in labels", "statement": "The label of a parameter's unit has every base of the unit with its own power exactly once, after the scale, in the order of the places where their names are first found in the text the user gave; a text that is no unit gives no label, or ValueError if asked for.", "quantifier": "every text, every unit with any number of bases and names", "why_tests_cant": "units are free texts with many bases and aliases", "anchors": ["src/elisa/util/misc.py:get_unit_latex"]}
{"id": "C121", "title": "Replacing texts in nested structures", "statement": "replace_string leaves everything unchanged in which no key of the mapping occurs, keeps lists, tuples and their places, and turns a text that is a key into its value if keys and values do not contain other keys.", "quantifier": "every nested structure of texts, lists, tuples and dictionaries, every mapping", "why_tests_cant": "structures of any depth", "anchors": ["src/elisa/util/misc.py:replace_string"]}
{"id": "C122", "title": "Two halves of the linear-logarithmic axis", "statement": "On an axis of the linear-log scale of the spectral plots, the tick machinery of each half sees just its half of the interval: if the threshold lies strictly inside the shown (or data) interval the linear half is told [vmin, threshold] and the logarithmic one [threshold, vmax], which together cover the interval and share only the threshold; otherwise both are told the whole interval. The number of ticks offered to a half is the number that fits on the axis times the fraction of the drawn length the half takes, rounded (halves to even); it is between 0 and the whole number, and the numbers of both halves add up to the whole number if it is even and to that, one more or one less if it is odd. With the automatically chosen scale the linear half is given the requested fraction of the ticks. Every shown tick is labelled by the formatter of the half whose locator proposed it; a linear label that reads as zero is shown as '0' and no other label is changed; the linear formatter is told exactly the places not above the threshold.", "quantifier": "every base, threshold and scale accepted by the constructor; every interval, also inverted; every number of ticks; every locator and formatter of matplotlib; every list of places", "why_tests_cant": "Examples show some axis; that the halves meet, that their ticks add up for every threshold, scale and tick count, and that no tick is labelled by the wrong formatter are universal facts.", "anchors": ["/repo/src/elisa/plot/scale.py: _DummyAxis.get_view_interval, _DummyAxis.get_data_interval, _DummyAxis.get_tick_space, _LinLogFormatter.__call__, _LinLogFormatter.set_locs, LinLogLocator.tick_values, get_scale"]}
{"id": "C123", "title": "Count spectra, folded models and Pareto shapes as plotted", "statement": "The count spectrum shows one point per noticed channel with that channel's rate and error; its horizontal bar starts at the channel's lower and ends at its upper energy (on a logarithmic axis around the geometric, on a linear one around the arithmetic mean, strictly inside the channel). The legend has one column up to five data sets and otherwise the fewest columns that hold four entries each. The folded model is drawn once per channel at the best fit, or as median of the posterior draws; the bands are, in every channel and for every configured level, the central interval over the bootstrap fits or draws, and are missing exactly if there are no bootstrap fits or no levels; a level outside of (0,1) is refused if there are samples. The k-hat plot shows every data set its own Pareto shapes in its own channels, crosses mark exactly the channels with a shape over 0.7, and the line at 0.7 is drawn exactly if some cross is. Two channels of the same label make the k-hat plot fail.", "quantifier": "every list of data sets with any channels, every stored array of shapes (also not a number), every fit with any bootstrap fits or draws, any levels, both axis scales", "why_tests_cant": "Tests look at single figures; that no channel, data set or level is mixed up or dropped is a statement about all of them.", "anchors": ["/repo/src/elisa/plot/plotter.py: Plotter.plot_folded, Plotter.plot_ce, PosteriorResultPlotter.plot_khat", "/repo/src/elisa/plot/data.py: MLEPlotData.ce_model, MLEPlotData.ce_model_ci, PosteriorPlotData.ce_model, PosteriorPlotData.ce_model_ci, PosteriorPlotData.get_model_median", "/repo/src/elisa/data/base.py: FixedData (channel_emean, channel_emid, channel_errors)"]}
{"id": "C124", "title": "Keyword for the installed version of jax", "statement": "The callback used for the numerical integration is given the keyword of new versions of jax (vmap_method) exactly from version 0.6.0 on, and the old keyword with the caller's flag before, for every version a.b.c whatever follows the third number, numbers being compared as numbers (0.10.0 is newer than 0.6.0). The numbers read from a version text are exactly the numbers written in it, in order. Without a version the installed one is used.", "quantifier": "all version texts (ASCII), all numbers of any length", "why_tests_cant": "A test uses one installed version; comparisons of versions go wrong at numbers with more digits, which concerns versions not yet released.", "anchors": ["/repo/src/elisa/util/scipy_nquad.py: _parse_version, _pure_callback_kwargs"]}
{"id": "C125", "title": "Saved results are loaded as saved", "statement": "A result saved to a file is loaded again with the same algorithm and with no other (an unknown algorithm raises ValueError and touches no file). After any history of saves a path holds the last result saved there; no save, successful, failing or stopped at any moment, changes another file. Shown not to hold: a save over an existing file that fails in dill, or is stopped, loses the earlier result.", "quantifier": "every history of saves to any paths with any algorithms and results; every moment at which the process is stopped; every dill and compression that keep their promises (reading what was written, refusing a foreign format)", "why_tests_cant": "Tests save one result and load it; the state after a crash in the middle of a save, or after an arbitrary history, is never looked at.", "anchors": ["/repo/src/elisa/infer/results.py: FitResult.save, FitResult.load"]}
{"id": "C126", "title": "Titles and labels of parameters", "statement": "For every model and every selection of its named parameters the plots have exactly one title and one label per parameter, in the order of the selection, whatever texts are used and although some units are not known to astropy. The title of a component parameter is the LaTeX text of a component that has this parameter - the one its public name names - in math mode and followed by a blank (nothing if that text is empty), then the LaTeX text of the parameter in math mode. The label adds, on a second line and in brackets, the unit configured for the last component parameter that is this parameter (nothing if there is none or astropy does not know it). An auxiliary parameter has no component and no unit, and repeated LaTeX texts of auxiliary parameters are numbered in the same order as their names. Shown not to hold: a parameter linked to two components is named after one of them, but shown with the unit of the other.", "quantifier": "every session of assignments, every model with good names, every selection of names, all LaTeX texts and units, every answer of astropy other than an unexpected exception", "why_tests_cant": "links between components, the order of slots and the texts are arbitrary; tests plot one model", "anchors": ["src/elisa/models/model.py:get_model_info (comp_latex_mapping, latex_mapping, unit_mapping)", "src/elisa/infer/helper.py:get_helper (pname_to_latex, pname_to_unit, pname_to_comp_latex)", "src/elisa/plot/plotter.py:comps_latex, params_latex, params_titles, params_labels"]}
{"id": "C127", "title": "Attributes of models and components are protected", "statement": "Once made, a compiled model refuses every assignment and every deletion with AttributeError and stays as it is, whatever is tried and in whatever order. A model or component refuses every deletion and, at any point of any history of assignments and deletions, every assignment to a name that is not one of its attributes (so a mistyped name is never silently accepted); it always has the same attributes. The components of a model cannot be replaced. An accepted assignment of a plain attribute is seen and changes nothing else. Shown not to hold: the protection of a model can be switched off by an ordinary assignment, because its own flag is one of the attributes it lets pass; then components can be replaced.", "quantifier": "all histories of assignments and deletions (errors caught), all objects, classes with plain attributes and properties", "why_tests_cant": "any sequence of attribute names and values can be tried; tests try a few names on a fresh object", "anchors": ["src/elisa/models/model.py:Model.__setattr__, __delattr__", "src/elisa/models/model.py:CompiledModel.__setattr__, __delattr__", "src/elisa/models/model.py:Component.__setattr__, __delattr__"]}
