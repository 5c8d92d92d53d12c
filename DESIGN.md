# Formal model of wcxve/elisa in Rocq (Coq 8.16.1)

The code under study is `/repo/src/elisa` (cited below as `data/…`, `models/…`, `infer/…`,
`util/…`, `plot/…`).  It is never run here: the only tie between code and model is the reading,
so every definition cites the file and lines it models, and every simplification is stated in
that comment.  This file is generated by `tools/gen_design.py` from `tools/design_head.md` (this part), the properties,
the manifest, the Coq files and `Print Assumptions`.

## Conventions

* Exceptions are values: `res A := Ok a | Err e` (file `Base.v`), one `err` constructor per
  Python exception class that matters.  Warnings are values too, where a property speaks of them.
* Arrays are lists; OGIP flags and integer counts are `Z`; indices and lengths are `nat`;
  floating-point values are modelled either by `Z` (where the code only adds and compares: any
  finite set of float64 values lies in `2^-1074 Z`, so `Z` in that unit loses nothing but rounding) or
  by the reals `R` (where the code divides, takes roots or logarithms).  Rounding is **not** modelled, and NaN and infinities only
  where a definition says so (an explicit case of its result).
* Dictionaries are association lists in insertion order; `put` replaces in place or appends, as a Python `dict` does.
  Strings are lists of characters.
* Python objects with identity (parameters, components, grouping flags, plot caches) are positions in a store; a property over
  histories is a theorem over all lists of operations, by induction, for the state machine whose steps are the public calls.
* Threads and processes (progress bars, shared counters) are interleavings of atomic steps given by an inductive relation.
* Loops are structural recursion or fuelled recursion whose out-of-fuel case is an explicit error that the theorems exclude.
* Libraries (NumPyro distributions, minuit, tinygp, arviz, emcee, XSPEC, JAX transformations …) enter as universally quantified
  functions, with the facts used about them as hypotheses *in the statement* (for example "`sf` is the survival function of the
  standard normal law"): never as axioms or section variables left open.
* Each area has a model file (definitions only), usually a proof file, and a `Prop_*.v` file that holds the statements: the specification
  vocabulary the statement needs, the theorem, `Print Assumptions`, and `Example`s that show that the hypotheses can be met.
* `_refuted` theorems are witnesses that a property as one would state it is false of the (faithful) model, that is, defects or
  undocumented limits of the code; where the set of bad inputs can be characterised, the theorem is an equivalence.
  `_partial` theorems prove a weaker or conditional version; what is missing is said beside them.

## How the proofs go

Grouping: loop invariants over "index lists 0 :: increasing < n", exchange arguments for optimality.  Scales: sums over concatenated
groups.  Statistics: concavity and the Gibbs inequality.  Data objects: state machines, invariants over call histories.
Expressions: printer/parser round trips by induction.  Spectral components: Coquelicot integrals and derivatives of the closed
forms, error terms of the quadratures.  Naming: injectivity of suffixing on strings.  Fits, samplers, results and plots: list
algebra, decision tables, interleavings.

## Trusted base

* Coq's kernel (`coqc` 8.16.1).
* The axioms that `Print Assumptions` reports, all from the standard library, abbreviated by one letter in the lists below:
  **F** `ClassicalDedekindReals.sig_forall_dec`, **N** `ClassicalDedekindReals.sig_not_dec`,
  **E** `FunctionalExtensionality.functional_extensionality_dep` (these three come with the real numbers of the standard library),
  **C** `Classical_Prop.classic` (comes with Coquelicot's integrals and the stdlib's analysis).  No axiom of any other library
  and none of our own.  `coqchk` additionally lists the opaque fields of the modules `Rdefinitions.RbaseSymbolsImpl`,
  `Rdefinitions.RinvImpl` and `ssr.ssrunder.Under_rel` of Coq itself: they are sealed definitions, not assumptions.
* The faithfulness of the model, as documented beside each definition, in particular: no floating-point rounding; the libraries
  behave as the quantified functions they are replaced by; Python's own semantics of lists, dictionaries, slices, properties and
  decorators as encoded.
* Testing of the statements: `seeded/LOG.jsonl` holds the deliberate bugs put in copies of the model and the theorems each one broke.

## Every property

Status, where it is modelled, and what it needed.  The letters after a theorem are its assumptions (`-`: closed under the global context).

### C01 Adaptive grouping always yields a partition of the channels (partial)
* code: src/elisa/data/grouping.py:group_const; src/elisa/data/grouping.py:group_min; src/elisa/data/grouping.py:group_opt; src/elisa/data/grouping.py:group_optsig_normal; src/elisa/data/grouping.py:group_sig_lima; src/elisa/data/grouping.py:group_sig_gv; src/elisa/data/grouping.py:group_optsig_lima; src/elisa/data/grouping.py:group_optsig_gv; src/elisa/data/grouping.py:group_sig_normal
* model: Gibbs, Grouping, GroupingConst, GroupingOpt, Scale, Significance, GroupRefute; statements in Prop_Grouping
* theorems: `C01_partition` CEFN, `C01_const_refuted` -
* Proved for every routine on its domain; refuted for group_const with scale larger than the number of channels (C01_const_refuted).

### C02 Constant grouping puts the requested number of channels in each group (partial)
* code: src/elisa/data/grouping.py:group_const
* model: Gibbs, Grouping, GroupingConst, GroupingOpt, Scale, Significance, GroupRefute; statements in Prop_Grouping
* theorems: `C02_const_sizes` -, `C02_short_refuted` -
* Proved for 0 < c <= n; refuted for n < c, where success is reported and no group is described.

### C03 Minimum-count grouping: success flag is truthful (proved)
* code: src/elisa/data/grouping.py:group_min; src/elisa/data/base.py:ObservationData.group
* model: Gibbs, Grouping, GroupingConst, GroupingOpt, Scale, Significance, GroupRefute; statements in Prop_Grouping
* theorems: `C03_min_success` -, `C03_min_defined` -

### C04 Minimum-count grouping is the finest possible (proved)
* code: src/elisa/data/grouping.py:group_min
* model: Gibbs, Grouping, GroupingConst, GroupingOpt, Scale, Significance, GroupRefute; statements in Prop_Grouping
* theorems: `C04_min_finest` -, `C04_min_minimal_groups` -

### C05 Significance grouping: success flag is truthful, groups are minimal (proved)
* code: src/elisa/data/grouping.py:group_sig_lima; src/elisa/data/grouping.py:group_sig_gv; src/elisa/data/grouping.py:group_sig_normal
* model: Gibbs, Grouping, GroupingConst, GroupingOpt, Scale, Significance, GroupRefute; statements in Prop_Grouping
* theorems: `C05_lima` CEFN, `C05_gv` CEFN, `C05_normal` EFN
* All three variants, with the real significance formulas.

### C06 A successful normal-significance group has a positive uncertainty (partial)
* code: src/elisa/data/grouping.py:group_sig_normal; src/elisa/data/grouping.py:group_optsig_normal
* model: Gibbs, Grouping, GroupingConst, GroupingOpt, Scale, Significance, GroupRefute; statements in Prop_Grouping
* theorems: `C06_normal_zero_error_refuted` EFN, `C06_normal_positive_error_partial` EFN
* False as stated: refuted by a zero-variance last group; the partial theorem gives what holds.

### C07 Optimal binning never exceeds the resolution-based bin size (proved)
* code: src/elisa/data/grouping.py:group_opt
* model: Gibbs, Grouping, GroupingConst, GroupingOpt, Scale, Significance, GroupRefute; statements in Prop_Grouping
* theorems: `C07_opt_plain` CEFN, `C07_bin_size_bounds` CEFN, `C07_natural_end_unique` -
* Includes the real bin-size formula (1 <= size <= max 1 FWHM).

### C08 Optimal binning with minimum counts meets the minimum (proved)
* code: src/elisa/data/grouping.py:group_opt
* model: Gibbs, Grouping, GroupingConst, GroupingOpt, Scale, Significance, GroupRefute; statements in Prop_Grouping
* theorems: `C08_opt_min` CEFN

### C09 Optimal significance binning picks the smallest extension (partial)
* code: src/elisa/data/grouping.py:group_optsig_normal; src/elisa/data/grouping.py:group_optsig_lima; src/elisa/data/grouping.py:group_optsig_gv
* model: Gibbs, Grouping, GroupingConst, GroupingOpt, Scale, Significance, GroupRefute; statements in Prop_Grouping
* theorems: `C09_optsig_lima` CEFN, `C09_optsig_gv` CEFN, `C09_optsig_normal_partial` CEFN, `C09_optsig_normal_refuted` CEFN
* Proved for Poisson data (Li-Ma, GV); refuted for Gaussian data because the uncertainty of an extension is summed linearly.

### C10 Grouping a grouped spectrum's scale equals grouping it once (proved)
* code: src/elisa/data/grouping.py:_group_scale_data; src/elisa/data/grouping.py:_ScaleGroupData
* model: Gibbs, Grouping, GroupingOpt, Scale, Significance, GroupRefute; statements in Prop_Scale
* theorems: `C10_regroup` EF, `C10_compose_groups` -

### C11 The scale used to judge a candidate bin is the scale of the final bin (proved)
* code: src/elisa/data/grouping.py:_scale_from_interval; src/elisa/data/grouping.py:_interval_back_ratio; src/elisa/data/grouping.py:_group_back_ratio; src/elisa/data/grouping.py:_build_scale_prefix
* model: Gibbs, Grouping, GroupingOpt, Scale, Significance, GroupRefute; statements in Prop_Scale
* theorems: `C11_interval_ratio` EF

### C12 Grouped scales are means (proved)
* code: src/elisa/data/grouping.py:_group_scale_data
* model: Gibbs, Grouping, GroupingOpt, Scale, Significance, GroupRefute; statements in Prop_Scale
* theorems: `C12_scale_is_mean` EF, `C12_scale_bounds` EF, `C12_constant_scale` EF, `C12_no_good_channel` EF

### C13 Li-Ma significance is well defined and has the right sign (proved)
* code: src/elisa/data/grouping.py:significance_lima
* model: Gibbs, Grouping, GroupingOpt, Scale, Significance, GroupRefute; statements in Prop_Scale
* theorems: `C13_lima_sign` CEFN

### C14 Vianello significance is well defined and has the right sign (proved)
* code: src/elisa/data/grouping.py:significance_gv
* model: Gibbs, Grouping, GroupingOpt, Scale, Significance, GroupRefute; statements in Prop_Scale
* theorems: `C14_gv_mle` EFN, `C14_gv_sign` CEFN

### C15 Grouping conserves counts and variance (proved)
* code: src/elisa/data/base.py:SpectrumData.group; src/elisa/data/base.py:ObservationData.set_grouping
* model: Grouping, Scale, Significance, Data, DataState, DataBad, DataSim, DataAlias; statements in Prop_Data
* theorems: `C15_conservation` EFN, `C15_groups_partition` -
* grouped counts/variances are the sums over the good channels of each group and add up to the good total, for any flags whose first entry starts a group (the code enforces that)

### C16 Folding commutes with grouping (proved)
* code: src/elisa/data/base.py:ResponseData.group; src/elisa/data/base.py:SpectrumData.group; src/elisa/infer/likelihood.py:chi2
* model: Grouping, Scale, Significance, Data, DataState, DataBad, DataSim, DataAlias; statements in Prop_Data
* theorems: `C16_fold_commutes` CEFN
* for every photon model and every history of calls on an observation built through the constructors

### C17 Channel grouping keeps energy bounds consistent (proved)
* code: src/elisa/data/base.py:ResponseData.group
* model: Grouping, Scale, Significance, Data, DataState, DataBad, DataSim, DataAlias; statements in Prop_Data
* theorems: `C17_energy_bounds` CEFN, `C17_tiling` EF
* exact min/max bounds; contiguous grids are tiled

### C18 Noticed channels are exactly the good groups inside the energy range (proved)
* code: src/elisa/data/base.py:ObservationData.set_erange; src/elisa/data/base.py:ObservationData.set_grouping; src/elisa/data/base.py:ObservationData._get_channel_mask
* model: Grouping, Scale, Significance, Data, DataState, DataBad, DataSim, DataAlias; statements in Prop_Data, Prop_Data2
* theorems: `C18_noticed_channels` CEFN, `C18_failed_call_no_effect` CEFN, `C18_area` CEFN
* invariant over all finite histories of set_erange/set_grouping/group, successful or failing

### C19 Energy range validation (proved)
* code: src/elisa/data/base.py:ObservationData.set_erange
* model: Grouping, Scale, Significance, Data, DataState, DataBad, DataSim, DataAlias; statements in Prop_Data
* theorems: `C19_erange_validation` CEFN, `C19_constructor_erange` EFN
* accept iff non-empty, increasing, pairwise strictly separated; sorted; rejection leaves the state unchanged

### C20 Observation-level grouping meets the requested scale (partial)
* code: src/elisa/data/base.py:ObservationData.group; src/elisa/data/base.py:ObservationData.set_grouping
* model: Gibbs, Grouping, GroupingConst, GroupingOpt, Scale, Significance, Data, DataState, DataSeg, DataGroup, DataGroup2, DataBad; statements in Prop_Group
* theorems: `C20_request_met_partial` CEFN, `C20_bad_channel_refuted` CEFN, `C20_preserved_group_refuted` CEFN, `C20_const_short_refuted` CEFN, `C20_descending_refuted` CEFN, `C20_claim_refuted` CEFN
* proved for all histories, methods and intervals when energies ascend and channels inside intervals are usable; false otherwise (bad channel inside an interval, cut data group, short interval for const, descending energies): refuted by concrete observations

### C21 Energy segments are grouped independently (partial)
* code: src/elisa/data/base.py:ObservationData.group; src/elisa/data/grouping.py:group_const
* model: Gibbs, Grouping, GroupingConst, GroupingOpt, Scale, Significance, Data, DataState, DataSeg, DataGroup, DataGroup2, DataBad; statements in Prop_Group
* theorems: `C21_segments_independent_partial` CEFN, `C21_const_short_refuted` CEFN, `C21_descending_refuted` CEFN, `C21_claim_refuted` CEFN
* proved for all histories when channel energies ascend and const has enough bins per interval; refuted for descending energies and for const with a short interval

### C22 Net spectrum is source minus scaled background (proved)
* code: src/elisa/data/base.py:ObservationData.set_grouping; src/elisa/data/grouping.py:_group_back_ratio
* model: Grouping, Scale, Significance, Data, DataState, DataBad, DataSim, DataAlias; statements in Prop_Data
* theorems: `C22_net_spectrum` CEFN, `C22_scale_is_mean` EFN
* ratio is the exposure*area*backscale ratio with the group means of C12

### C23 Bad channels never contribute (partial)
* code: src/elisa/data/base.py:ObservationData.__init__; src/elisa/data/base.py:SpectrumData.group; src/elisa/data/base.py:ResponseData.group; src/elisa/data/grouping.py:_group_scale_data
* model: Grouping, Scale, Significance, Data, DataState, DataBad, DataSim, DataAlias; statements in Prop_Data
* theorems: `C23_bad_channels_partial` CEFN, `C23_net_inference_refuted` EF
* holds for every history when the NET inference of the two spectra agrees; refuted otherwise: the `net` auto-inference looks at the sign of counts in bad channels (C23_net_inference_refuted)

### C24 Setting a grouping does not modify the caller's array and later caller edits do not leak in (partial)
* code: src/elisa/data/base.py:ObservationData.set_grouping; src/elisa/data/base.py:ObservationData.set_erange
* model: Grouping, Scale, Significance, Data, DataState, DataBad, DataSim, DataAlias; statements in Prop_Data
* theorems: `C24_caller_array_modified_refuted` -, `C24_later_edit_leaks_refuted` -, `C24_array_unchanged_partial` -
* refuted: set_grouping keeps the caller's array by reference and writes its first flag (C24_*_refuted); partial positive theorem

### C25 Response file expansion (proved)
* code: src/elisa/data/ogip.py:Response._read_response
* model: Significance, Data, Ogip; statements in Prop_Ogip
* theorems: `C25_shape` F, `C25_covered` EF, `C25_uncovered` EF, `C25_accepts` EF, `C25_too_few_rejected` EF, `C25_round_trip` EF, `C25_compress` EF, `C25_arf` EF, `C25_arf_mismatch` F
* Element-wise characterisation, exact acceptance condition, rejection of short rows, round trip for every cutting into blocks and in particular for maximal runs, ARF product. FITS parsing itself is not modelled.

### C26 Systematic errors are added once, in quadrature (partial)
* code: src/elisa/data/ogip.py:Spectrum.__init__; src/elisa/data/base.py:SpectrumData.__init__
* model: Significance, Data, Ogip; statements in Prop_Ogip
* theorems: `C26_arrays` EFN, `C26_poisson_ignores_sys` EFN, `C26_file_twice` EFN, `C26_file_refuted` EFN, `C26_keyword_refuted` EFN, `C26_no_sys` EFN
* Proved for the array class (C26_arrays). Refuted for files: the SYS_ERR column is added twice (C26_file_twice, C26_file_refuted) and a SYS_ERR keyword is dropped (C26_keyword_refuted).

### C27 Uniform parameter invariant (partial)
* code: src/elisa/models/parameter.py:UniformParameter; src/elisa/models/parameter.py:UniformParameter._check_and_set_values
* model: Param, Expr, Composite; statements in Prop_Param
* theorems: `C27_init` EF, `C27_bounds_invariant` EF, `C27_strict_refuted` EF, `C27_log_refuted` EF, `C27_invariant_partial` EF
* Bounds/distribution part is an invariant of every history; strictness and log>0 are refuted by accepted assignments (min = default; log = True with min <= 0) and hold on all other histories.

### C28 A rejected parameter assignment changes nothing (proved)
* code: src/elisa/models/parameter.py:UniformParameter._check_and_set_values
* model: Param, Expr, Composite; statements in Prop_Param
* theorems: `C28_rejected_assignment_is_noop` EF, `C28_accepted_assignment_effect` EF, `C28_log_with_validation_refuted` EF
* With numpyro argument validation off (its default, never enabled by elisa); with it on the log setter is refuted.

### C29 Composite parameters compute what their printed expression says (proved)
* code: src/elisa/models/parameter.py:CompositeParameter._id_to_label; src/elisa/models/parameter.py:CompositeParameter._id_to_value
* model: Param, Expr, Composite; statements in Prop_Param
* theorems: `C29_name_denotes_value` EF, `C29_table_entry_denotes_value` EF, `C29_nodes` -
* All operator trees and call-style functions; power and user functions arbitrary.

### C30 Model expressions compute what their printed expression says (proved)
* code: src/elisa/models/model.py:CompositeModel; src/elisa/models/model.py:Model._id_to_label
* model: Expr, ModelAlg; statements in Prop_Model
* theorems: `C30_name_denotes_model` EF
* Component functions and convolutions arbitrary; the reader is the independent one of Expr.v.

### C31 Model algebra is type safe (proved)
* code: src/elisa/models/model.py:CompositeModel.__init__; src/elisa/models/model.py:ConvolutionModel.__call__; src/elisa/models/model.py:ConvolvedModel.__init__
* model: Expr, ModelAlg; statements in Prop_Model
* theorems: `C31_sum_accepted_iff` -, `C31_product_accepted_iff` -, `C31_convolution_accepted_iff` -, `C31_accepted_models_have_a_dimension` -, `C31_only_operators_are_dimensionless` -

### C32 Additive components sum to the total (partial)
* code: src/elisa/models/model.py:Model._additive_comps; src/elisa/models/model.py:CompositeModel._additive_comps; src/elisa/models/model.py:ConvolvedModel._additive_comps; src/elisa/models/model.py:Model._compile_additive_fn; src/elisa/models/conv.py:PhFlux.convolve
* model: Expr, ModelAlg; statements in Prop_Model
* theorems: `C32_components_sum_partial` EF, `C32_no_components` EF, `C32_shifts_preserve_sums` EF, `C32_repeated_component_refuted` EF, `C32_flux_normalisation_refuted` EF
* Proved for additive components occurring once and sum-preserving convolutions (all shifts); refuted for a component used twice (label collapse) and for PhFlux/EnFlux over a sum.

### C33 Component and parameter names are unique (partial)
* code: src/elisa/util/misc.py:build_namespace; src/elisa/util/misc.py:add_suffix; src/elisa/infer/fit.py:Fit.__init__
* model: Namespace; statements in Prop_Namespace
* theorems: `C33_numbering` -, `C33_components_refuted` -, `C33_parameters_refuted` -, `C33_components_partial` -, `C33_aux_parameters_partial` -, `C33_fit_components_partial` -, `C33_all_parameters_partial` -
* Numbering proved unique for names that do not look like numbered duplicates; refuted otherwise.

### C34 A compiled model accepts its own parameter vector (partial)
* code: src/elisa/models/model.py:Model.compile; src/elisa/models/model.py:CompiledModel._prepare_eval
* model: Expr, Composite, Namespace, ModelInfo; statements in Prop_Compile
* theorems: `C34_mapping` -, `C34_sequence_partial` -, `C34_shared_refuted` -
* Mapping = new defaults for all models (C34_mapping). Sequence = mapping proved when no free parameter is used by two component parameters; the code rejects every sequence otherwise (C34_shared_refuted: params_id keeps duplicates, zip(strict=True)).

### C35 Shared parameters have one value everywhere (partial)
* code: src/elisa/models/model.py:get_model_info; src/elisa/models/parameter.py:AssignmentTracker
* model: Expr, Composite, Namespace, ModelInfo; statements in Prop_Compile
* theorems: `C35_partial` -, `C35_address_reuse_refuted` -
* All sessions in which no component is created at the address of a dropped one; with address reuse the stale tracker record makes get_model_info fail (C35_address_reuse_refuted).

### C36 Flux is additive over energy (proved)
* code: src/elisa/models/model.py:CompiledModel.flux; src/elisa/models/model.py:CompiledModel.ne
* model: Expr, ModelAlg; statements in Prop_Model
* theorems: `C36_models_are_binwise` EFN, `C36_flux_additive_over_bands` EFN, `C36_flux_linear` EFN, `C36_flux_nonneg` EFN, `C36_flux_meaning` EFN, `C36_grids` CEFN, `C36_quadrature_exact` EF

### C37 Flux normalisation yields the requested flux (proved)
* code: src/elisa/models/conv.py:PhFlux.convolve; src/elisa/models/conv.py:EnFlux.convolve
* model: Expr, ModelAlg; statements in Prop_Model
* theorems: `C37_photon_flux_is_F` CEFN, `C37_energy_flux_is_F` CEFN, `C37_rescaling_is_irrelevant` CEFN, `C37_shape_kept` EFN
* For models with non-zero flux in the band.

### C38 Flux band settings take effect (proved)
* code: src/elisa/models/conv.py:NormConvolution.eval; src/elisa/models/conv.py:NormConvolution.emin; src/elisa/models/conv.py:NormConvolution.emax
* model: Expr, ModelAlg; statements in Prop_Model
* theorems: `C38_current_settings_are_used` CEFN, `C38_assignments_take_effect` CEFN, `C38_rejected_assignment_is_noop` CEFN

### C39 W-stat profiles the background exactly (proved)
* code: src/elisa/infer/likelihood.py:wstat_background; src/elisa/infer/likelihood.py:wstat
* model: Gibbs, Likelihood; statements in Prop_Likelihood
* theorems: `C39_wstat_nonneg` EFN, `C39_wstat_optimal` CEFN

### C40 PG-stat profiles the background exactly (proved)
* code: src/elisa/infer/likelihood.py:pgstat_background; src/elisa/infer/likelihood.py:pgstat
* model: Gibbs, Likelihood; statements in Prop_Likelihood
* theorems: `C40_pgstat_nonneg` EFN, `C40_pgstat_optimal` CEFN, `C40_profile_deviance` CEFN

### C41 Deviance is non-negative and zero only for a perfect fit (proved)
* code: src/elisa/infer/likelihood.py:BetterPoisson.log_prob; src/elisa/infer/likelihood.py:BetterNormal.log_prob; src/elisa/infer/helper.py:get_helper
* model: Gibbs, Likelihood; statements in Prop_Likelihood
* theorems: `C41_deviance_nonneg` CEFN, `C41_point_nonneg` CEFN, `C41_totals` CEFN, `C41_zero_iff_perfect` CEFN, `C41_formula` CEFN, `C41_wstat_zero` CEFN, `C41_pgstat_zero` CEFN, `C41_poisson_exact` CEFN
* All statistics; zero iff perfect fit also for wstat/pgstat.

### C42 Least-squares residuals encode the deviance (proved)
* code: src/elisa/infer/helper.py:get_helper
* model: Gibbs, Likelihood; statements in Prop_Likelihood
* theorems: `C42_residual_deviance` CEFN

### C43 Automatic statistic selection is valid (proved)
* code: src/elisa/infer/fit.py:Fit._parse_input
* model: Grouping, Scale, Significance, Data, DataState, DataBad, DataSim, Namespace, FitInput; statements in Prop_Fit
* theorems: `C43_accepts` EF, `C43_automatic` CEFN, `C43_automatic_suitable` F, `C43_tables` EF
* Acceptance of Fit inputs is an iff over all argument shapes (single or sequence), names, models and statistics; the automatic choice is characterised for every observation after any sequence of operations and passes its own check iff Gaussian uncertainties are non-zero.

### C44 Parameter vector and dictionary forms are inverse (proved)
* code: src/elisa/infer/helper.py:get_helper; src/elisa/infer/helper.py:check_params
* model: Expr, Composite, Namespace, ModelInfo, HelperNames; statements in Prop_Helper
* theorems: `C44_array` -, `C44_dictionary` -, `C44_inverse` -, `C44_names` -, `C44_values` -, `C44_defaults` -
* Vector/dictionary conversions are mutually inverse for every list of distinct names and every pair of inverse bijections (numpyro's transforms are taken to be inverse on their supports: hypothesis of C44_inverse); the names themselves, their uniqueness and order, the values of free and composed parameters and the default vector are proved for every session and model.

### C45 Parallel batch fitting equals sequential fitting (proved)
* code: src/elisa/infer/helper.py:get_helper
* model: Data, Namespace, FitInput, HelperData, Batch; statements in Prop_Batch
* theorems: `C45_refitted_names` -, `C45_each_once` F, `C45_parallel_is_sequential` F, `C45_uneven_refused` F, `C45_accepts` F
* For every number of data sets, devices and every fit function: each simulated data set is fitted exactly once, from its own starting values, and entry i of every reported array comes from the fit of data set i; parallel = sequential whenever the parallel factor divides the number of data sets and is refused otherwise; acceptance conditions given.

### C46 Bootstrap and predictive simulations are cached by their arguments (partial)
* code: src/elisa/infer/results.py:MLEResult.boot; src/elisa/infer/results.py:PosteriorResult.ppc
* model: Data, Namespace, FitInput, HelperData, Batch, Results; statements in Prop_Results
* theorems: `C46_boot_cache` EF, `C46_ppc_cache` EF, `C46_repeated_call` EF, `C46_default_seed_refuted` EF, `C46_single_refuted` EF
* Proved for every history of calls: the stored result is the one a fresh call with the same number and seed would produce, and it is reused exactly when the rounded number and the explicitly given seed agree. Refuted parts: with the default seed nothing is ever reused; a bootstrap of one simulation always fails.

### C47 p-values are proportions consistent with the deviances (partial)
* code: src/elisa/infer/results.py:MLEResult.boot; src/elisa/infer/results.py:PosteriorResult.ppc; src/elisa/infer/results.py:MLEResult.gof
* model: Data, Namespace, FitInput, HelperData, Batch, Results; statements in Prop_Results
* theorems: `C47_boot_pvalues` EF, `C47_ppc_pvalues` EF, `C47_in_unit` EF, `C47_gof` EF, `C47_no_valid_refuted` EF
* p-values are the proportions of valid simulations with a deviance at least the observed one, in [0,1], and gof reports them; when no simulation is valid they are nan (refuted).

### C48 Progress bars always complete (partial)
* code: src/elisa/util/misc.py:progress_bar_factory
* model: Progress; statements in Prop_Progress
* theorems: `C48_accepted` -, `C48_partial` -, `C48_one_device` -, `C48_close_many_refuted` -, `C48_never_closed_refuted` -
* every interleaving of the host callbacks of the devices (each device's callbacks in program order): the bar receives exactly neval, before any close, and is closed between 1 and ncores times; exactly-once closing is refuted for two or more devices (counter read outside the lock) and for zero evaluations

### C49 Plot data caches never serve stale results (partial)
* code: src/elisa/plot/data.py:_cache_method_with_check
* model: Data, HelperData, FitInput, Results, Summary, PlotCache; statements in Prop_PlotCache
* theorems: `C49_distinct_identities_partial` EFN, `C49_paced_partial` EFN, `C49_residuals_partial` EFN, `C49_reused_identity_refuted` EFN
* Proved for every history of calls when identities are never reused, and with reuse when every displayed quantity is displayed between replacements; refuted in general: an identity reused two replacements later leaves the residuals of the old result in the plot.

### C50 Requested parameter subsets are validated (partial)
* code: src/elisa/infer/helper.py:check_params; src/elisa/infer/results.py:MLEResult.covar
* model: Expr, Composite, Namespace, ModelInfo, HelperNames; statements in Prop_Helper
* theorems: `C50_accepts` -, `C50_rejects_partial` -, `C50_reason_refuted` -, `C50_fixed_aux_refuted` -
* Acceptance is an iff and the accepted list is characterised for every model; linked/fixed/integrated rejections report exactly the offending names. Two parts of the claim are refuted: a list containing one unknown name reports existing linked/fixed names as not existing, and a fixed auxiliary parameter shown in the table is said not to exist.

### C51 Simulating from existing data keeps the channel layout (partial)
* code: src/elisa/models/model.py:CompiledModel.simulate_from_data; src/elisa/data/base.py:ObservationData
* model: Grouping, Scale, Significance, Data, DataState, DataBad, DataSim, Simulate; statements in Prop_Simulate
* theorems: `C51_layout` CEFN, `C51_succeeds` CEFN, `C51_descending_refuted` CEFN, `C51_zero_scale_refuted` CEFN, `C51_net_lost` CEFN
* layout, statistics type, exposures, grouping and energy ranges proved for every successful simulation from any template state, with sufficient conditions for success; refuted for descending channel energies and for zero background scales in bad channels; the net flag is lost

### C52 Confidence level conversion (proved)
* code: src/elisa/infer/results.py:FitResult._to_unit_cl
* model: Data, Namespace, FitInput, HelperData, HelperNames, Batch, Results, Summary; statements in Prop_Summary
* theorems: `C52_levels` EF, `C52_monotone` EF
* For every symmetric law with a strictly decreasing positive tail function; conversion, idempotence, range and monotonicity.

### C60 OGIP spectrum fields (partial)
* code: src/elisa/data/ogip.py:Spectrum.__init__
* model: Significance, Data, Ogip; statements in Prop_Ogip
* theorems: `C60_quality_keyword_refuted` EFN, `C60_rates` EFN, `C60_fields` EFN
* Every field is characterised for all accepted files (C60_fields, C60_rates); the QUALITY keyword is dropped by the code (C60_quality_keyword_refuted).

### C61 Photon energy grid stays positive and increasing (proved)
* code: src/elisa/data/ogip.py:Response._read_response
* model: Significance, Data, Ogip; statements in Prop_Ogip
* theorems: `C61_grid_unchanged` EF, `C61_grid_positive` EF
* The positivity theorem needs a second edge above 1e-30 keV, the constant used by the code.

### C62 Simulated counts follow the assumed likelihood (partial)
* code: src/elisa/infer/helper.py:get_helper; src/elisa/infer/likelihood.py
* model: Grouping, Scale, Significance, Data, DataState, DataBad, DataSim, Namespace, FitInput, HelperData, Batch, OneChannel; statements in Prop_HelperData
* theorems: `C62_simulated_law_partial` CEFN, `C62_chi2_background_refuted` CEFN
* Proved for every accepted fit and all statistics except chi2 with a background, where the claim is refuted: the simulated net counts scatter with the error of the gross counts although the likelihood uses the net error.

### C63 Observed data stored by a fit (partial)
* code: src/elisa/infer/helper.py:get_helper
* model: Grouping, Scale, Significance, Data, DataState, DataBad, DataSim, Namespace, FitInput, HelperData, Batch, OneChannel; statements in Prop_HelperData
* theorems: `C63_observed_data` CEFN, `C63_pstat_refuted` CEFN, `C63_colliding_names_refuted` CEFN, `C63_total_name_refuted` F, `C63_dof` -
* The entries are characterised for every accepted fit. Refuted parts: with pstat the entry named after the data set is the gross spectrum; a data set called X_Non overwrites the on counts of X; a data set called total makes every batch fit fail.

### C64 Rows of a stored simulation belong together (partial)
* code: src/elisa/infer/results.py:MLEResult.boot; src/elisa/infer/results.py:PosteriorResult.ppc
* model: Data, Namespace, FitInput, HelperData, Batch, Results; statements in Prop_Results
* theorems: `C64_boot_rows` EF, `C64_ppc_rows_partial` EF, `C64_ppc_draws` EF, `C64_ppc_rows_refuted` EF
* Proved for the bootstrap and, for the predictive check, for everything obtained from the fits; the parameters the data were simulated from are not restricted to the valid simulations, so they are misaligned after an invalid fit (refuted).

### C65 Bootstrap confidence intervals are central sample intervals (partial)
* code: src/elisa/infer/results.py:MLEResult._ci_boot; src/elisa/infer/results.py:_to_unit_cl
* model: Data, Namespace, FitInput, HelperData, HelperNames, Batch, Results, Summary; statements in Prop_Summary
* theorems: `C65_interval` EF, `C65_central` EF, `C65_nested` EF, `C65_defined` EF, `C65_few_valid_refuted` EF
* Order, range, central proportions, nesting and definedness proved; with fewer valid simulations than devices no interval can be computed (refuted).

### C66 Covariance matrix entries (partial)
* code: src/elisa/infer/results.py:MLEResult.covar; src/elisa/infer/results.py:MLEResult._covar_hess; src/elisa/infer/results.py:MLEResult._covar_boot
* model: Data, Namespace, FitInput, HelperData, HelperNames, Batch, Results, Summary; statements in Prop_Summary
* theorems: `C66_hess` EF, `C66_boot_partial` EF, `C66_boot_one_parameter_refuted` -
* Proved for the Hessian method and for bootstrap with at least two quantities; with one parameter the bootstrap covariance raises an error (refuted).

### C67 Information criteria (partial)
* code: src/elisa/infer/results.py:MLEResult.__init__
* model: Data, Namespace, FitInput, HelperData, HelperNames, Batch, Results, Summary; statements in Prop_Summary
* theorems: `C67_criteria` CEFN, `C67_one_dof_refuted` EF, `C67_no_dof_refuted` EF
* Formulas proved when n > k+1; with n = k+1 the result cannot be built (ZeroDivisionError), with n = k the correction has the wrong sign (refuted).

### C69 Residuals of simulated data (proved)
* code: src/elisa/plot/data.py:MLEPlotData; src/elisa/plot/residuals.py:pearson_residuals
* model: Data, HelperData, FitInput, Results, Summary, PlotCache; statements in Prop_PlotCache
* theorems: `C69_deviance` EFN, `C69_pearson` EFN, `C69_band` EFN, `C69_model_band` EFN, `C69_posterior` EFN
* For every result of consistent shape.

### C53 Redshift and velocity shifts move the spectrum as documented (proved)
* code: src/elisa/models/conv.py:ZAShift; src/elisa/models/conv.py:ZMShift; src/elisa/models/conv.py:VAShift; src/elisa/models/conv.py:VMShift
* model: ModelAlg, Components, ComponentSpec, ComponentShapes, ComponentQuad; statements in Prop_Components
* theorems: `C53_zashift` EF, `C53_zmshift` EF, `C53_velocity` EF, `C53_compose` EF, `C53_numerical` EF
* For models that are exact on every grid (e.g. power laws) or numerically integrated components.

### C54 Analytically integrated components return the exact bin integrals (partial)
* code: src/elisa/models/add.py:_powerlaw_integral; src/elisa/models/add.py:PowerLaw; src/elisa/models/add.py:PLFluxNorm; src/elisa/models/add.py:Lorentz; src/elisa/models/mul.py:PLAbs; src/elisa/models/mul.py:Constant
* model: ModelAlg, Components, ComponentSpec, ComponentShapes, ComponentQuad; statements in Prop_Components
* theorems: `C54_power_law` CEFN, `C54_photon_flux_norm` CEFN, `C54_energy_flux_norm` CEFN, `C54_lorentz` CEFN, `C54_constant` EF, `C54_pl_abs_partial` CEFN, `C54_pl_abs_refuted` CEFN
* PLAbs fails at the admitted alpha = 1 (C54_pl_abs_refuted); all other cases are proved.

### C55 The broken power law integrates its documented spectrum (partial)
* code: src/elisa/models/add.py:BrokenPL
* model: ModelAlg, Components, ComponentSpec, ComponentShapes, ComponentQuad; statements in Prop_Components
* theorems: `C55_integral_partial` CEFN, `C55_length` CEFN, `C55_integral_refuted` CEFN, `C55_break_bin_refuted` CEFN
* False of the code: bins lack the factor Eb (C55_integral_refuted), and the bin with the break is wrong because the result of f.at[].set is dropped (C55_break_bin_refuted). Proved: Eb times the value is right for bins not containing the break.

### C56 Band functions follow their documented formula, are continuous, and Ep is the spectral peak (partial)
* code: src/elisa/models/add.py:Band; src/elisa/models/add.py:BandEp; src/elisa/models/add.py:Compt
* model: ModelAlg, Components, ComponentSpec, ComponentShapes, ComponentQuad; statements in Prop_Components2
* theorems: `C56_band_documented_partial` CEFN, `C56_band_continuous_partial` CEFN, `C56_band_refuted` CEFN, `C56_band_documented_refuted` CEFN, `C56_band_ep_partial` CEFN, `C56_band_ep_peak` CEFN, `C56_compt_peak_partial` CEFN, `C56_compt_peak_refuted` CEFN
* Holds for alpha - beta >= 1/Ec; below, the code clamps and the spectrum jumps at 1 keV (refuted). For Compt with alpha > 2 (in range) Ep is the minimum (refuted).

### C57 Spectral components never return negative photon numbers, absorption lies in [0, 1] (partial)
* code: src/elisa/models/add.py; src/elisa/models/mul.py; src/elisa/models/model.py:NumericalIntegral._make_integral
* model: ModelAlg, Components, ComponentSpec, ComponentShapes, ComponentQuad; statements in Prop_Components2
* theorems: `C57_additive_nonneg_partial` CEFN, `C57_multiplicative_partial` CEFN, `C57_no_division_by_zero_partial` CEFN, `C57_no_division_by_zero_refuted` CEFN
* The ranges admit sigma = 0 (Gauss, GAbs) and Ec = 0 (Edge), where the code divides by zero (refuted), and flux bands off the positive axis; everything else is proved.

### C58 Numerical integration has a bounded error (proved)
* code: src/elisa/models/model.py:NumericalIntegral._make_integral; src/elisa/models/model.py:CompiledModel.flux; src/elisa/models/conv.py:EnFlux
* model: ModelAlg, Components, ComponentSpec, ComponentShapes, ComponentQuad; statements in Prop_Components2
* theorems: `C58_total_error` EFN, `C58_bin_error` EFN, `C58_decreasing_components` CEFN, `C58_energy_flux` EFN, `C58_energy_flux_on_grid` CEFN
* Floating point rounding is not modelled.

### C59 Numerically integrated components evaluate their documented formula (partial)
* code: src/elisa/models/add.py; src/elisa/models/mul.py
* model: ModelAlg, Components, ComponentSpec, ComponentShapes, ComponentQuad; statements in Prop_Components2
* theorems: `C59_additive_documented` CEFN, `C59_multiplicative_documented` EFN, `C59_blackbody` CEFN, `C59_blackbody_rad` CEFN, `C59_smoothly_broken_partial` CEFN, `C59_smoothly_broken_refuted` CEFN
* SmoothlyBrokenPL has the documented shape but an amplitude off by 4^rho Eb^alpha1 (refuted; 20 times at the default parameters).

### C70 Spectrum data are accepted exactly when well-formed and stored as given (proved)
* code: src/elisa/data/base.py: SpectrumData.__init__
* model: Grouping, Scale, Significance, Data, DataState; statements in Prop_Data2
* theorems: `C70_accepts` EFN, `C70_stores` EFN
* Acceptance is an iff; storage is per channel.

### C71 Bad channels are those flagged in the source or the background (proved)
* code: src/elisa/data/base.py: ObservationData.__init__, ObservationData.good_quality
* model: Grouping, Scale, Significance, Data, DataState; statements in Prop_Data2
* theorems: `C71_good_channels` CEFN, `C71_some_good` CEFN

### C72 Estimated response width is the full width at half maximum (partial)
* code: src/elisa/data/base.py: ResponseData.fwhm, ResponseData.channel_fwhm
* model: Grouping, Data, DataState, Fwhm; statements in Prop_Fwhm
* theorems: `C72_fwhm` EF, `C72_peak` EF, `C72_width_unique` EF, `C72_positive_or_undefined` EF, `C72_empty_row` EF, `C72_channel` EF, `C72_single_bin_refuted` EF
* Rows with positive peak; a response with a single photon bin raises instead (C72_single_bin_refuted), because the row is squeezed to a scalar.

### C73 Progress of parallel ensemble samplers under every schedule (partial)
* code: src/elisa/infer/samplers/ensemble/base.py run, _progress_listener; emcee.py, zeus.py sampling_fn
* model: Sampling; statements in Prop_Sampling
* theorems: `C73_never_over` -, `C73_complete` -, `C73_terminates` -, `C73_ends` -, `C73_crash_refuted` -, `C73_can_finish` -
* Proved as an invariant over all schedules plus termination by a decreasing measure; the crash case is refuted (C73_crash_refuted). C73_can_finish shows complete executions exist from every crash-free state.

### C74 Samples of every walker end up in the right place (proved)
* code: src/elisa/infer/samplers/ensemble/base.py run; src/elisa/infer/fit.py _generate_result_from_numpyro
* model: Sampling; statements in Prop_Sampling
* theorems: `C74_layout` -
* Index formula for every sampler, walker and step.

### C75 Starting points and seeds of the ensemble samplers (partial)
* code: src/elisa/infer/samplers/ensemble/base.py run; src/elisa/infer/fit.py numpyro ensemble initialisation; zeus.py get_random_state
* model: Sampling; statements in Prop_Sampling
* theorems: `C75_near_partial` EF, `C75_frozen_refuted` EF, `C75_midpoint` CEFN, `C75_seeds` -, `C75_zeus_seeds` -, `C75_zeus_refuted` -
* Positive part C75_near_partial, C75_seeds, C75_zeus_seeds (exact condition); counterexamples C75_frozen_refuted (general, for every starting point with a zero coordinate), C75_zeus_refuted.

### C76 Reported sampling efficiency (partial)
* code: src/elisa/infer/fit.py jaxns, nautilus, ultranest, _generate_result_from_numpyro; src/elisa/infer/samplers/ns/ultranest.py
* model: Sampling; statements in Prop_Sampling
* theorems: `C76_jaxns` EF, `C76_nested_refuted` EF, `C76_read_file_refuted` -, `C76_tree_depth_refuted` -
* C76_jaxns positive; the others are refuted for every input.

### C77 Process-wide settings are restored (partial)
* code: src/elisa/infer/samplers/ensemble/base.py run; ns/ultranest.py run; ns/nautilus.py __init__; src/elisa/util/config.py jax_pmap_shmap_merge
* model: Sampling; statements in Prop_Sampling
* theorems: `C77_restored` -, `C77_failure_refuted` -, `C77_gathered` -
* C77_restored positive; C77_failure_refuted for every previous start method other than spawn.

### C78 The linear-logarithmic axis is an order-preserving bijection (partial)
* code: src/elisa/plot/scale.py LinLogTransform, InvertedLinLogTransform, LinLogLocator.tick_values, LinLogScale, get_scale
* model: LinLog; statements in Prop_LinLog
* theorems: `C78_accepts` EF, `C78_default_accepted` CEFN, `C78_increasing` CEFN, `C78_inverse` CEFN, `C78_continuous` CEFN, `C78_shape` CEFN, `C78_lin_scale_refuted` CEFN, `C78_fraction` CEFN, `C78_fraction_total` CEFN, `C78_ticks` EF, `C78_ticks_swap` EF
* everything proved but the documented meaning of lin_scale, which is refuted; the ticks' minor formatting is not modelled

### C79 Plot residuals have the right sign, order and size (partial)
* code: src/elisa/plot/residuals.py deviance_residuals_*, pit_*, quantile_residuals_*; src/elisa/plot/data.py quantile_residuals_mle, pit
* model: Gibbs, Residuals; statements in Prop_Residuals
* theorems: `C79_deviance` CEFN, `C79_deviance_increasing` CEFN, `C79_joint` CEFN, `C79_pit` EFN, `C79_pit_order` EFN, `C79_simulated` EF, `C79_simulated_normal` EF, `C79_minus_partial` EF, `C79_minus_refuted` EF, `C79_quantile_finite` EFN, `C79_quantile_increasing` EFN, `C79_keep_sign` EFN, `C79_limits` EF, `C79_limits_other_refuted` EF, `C79_combine_refuted` -
* the lower value of simulated transforms is proved right for integer (or one over integer) ratios and refuted in general; two further documented behaviours refuted; the normal quantile function is a parameter of the model (any increasing function)

### C68 Quantities derived from posterior samples (partial)
* code: src/elisa/infer/results.py PosteriorResult.covar, ci, _ci_fn, _params_dist, _loo_expectation, FitResult._check_fn, _to_unit_cl
* model: Data, Namespace, FitInput, HelperData, HelperNames, Batch, Results, Summary, Posterior; statements in Prop_Posterior
* theorems: `C68_draws` F, `C68_ci` EF, `C68_ci_defined_partial` EF, `C68_nested` EF, `C68_level_refuted` EF, `C68_covar_partial` EF, `C68_covar_refuted` EF, `C68_function_refuted` EF, `C68_devices_refuted` EF, `C68_loo` CEFN, `C68_functions` EF
* the positive part is proved for free parameters and functions of free parameters when the number of samples used is a multiple of the number of devices; the failures outside are proved as refutations; highest density intervals (arviz) are not modelled

### C80 Numbers shown in interval titles (partial)
* code: src/elisa/util/misc.py: report_interval
* model: Report; statements in Prop_Report
* theorems: `C80_mid_partial` CEFN, `C80_mid_refuted` CEFN, `C80_errors` CEFN, `C80_defined` CEFN, `C80_zero_refuted` CEFN
* Errors proved in full. Central value proved except when rounding carries to the next power of ten: there the title is a factor of ten too small (refuted: 9999 shown as 1.00 x 10^3). Central value zero raises ValueError (refuted). Decimal rounding is modelled exactly (round half to even of the real number).

### C81 Nested samplers see the priors and the names of the model (proved)
* code: src/elisa/infer/samplers/util.py ravel_params_names, uniform_reparam_transform, uniform_reparam_model; src/elisa/infer/samplers/ns/ultranest.py UltraNestSampler.run
* model: Namespace, Nested; statements in Prop_Nested
* theorems: `C81_labels` -, `C81_cube_labels` -, `C81_cube_labels_refuted` -, `C81_prior` EF, `C81_categorical` EF
* Univariate distributions are given by a cdf and an inverse cdf that belong together; MultivariateNormal and Dirichlet not modelled. The label claim is refuted for models whose sites are not in alphabetical order (C81_cube_labels_refuted); the returned samples are not affected.

### C82 Settings of the computation environment (proved)
* code: src/elisa/util/config.py set_cpu_cores, get_parallel_number, jax_enable_x64, set_jax_platform
* model: Namespace, Config, Batch; statements in Prop_Config
* theorems: `C82_flags` -, `C82_last_wins` -, `C82_cores_refuted` -, `C82_parallel` -, `C82_x64_refuted` -, `C82_platform` -
* ASCII strings; the flags claim is for words that either set the device count or do not mention it (others lose the text from the mention on).

### C83 Finite-difference derivatives of models (proved)
* code: src/elisa/util/misc.py define_fdjvp
* model: Data, FiniteDiff; statements in Prop_FiniteDiff
* theorems: `C83_quotients` CEFN, `C83_linear` CEFN, `C83_exact` CEFN, `C83_mean_value` CEFN, `C83_central_error` CEFN, `C83_forward_error` CEFN, `C83_bounds_refuted` CEFN, `C83_rejects` CEFN
* exact real arithmetic; refuted part in C83_bounds_refuted

### C84 Profile likelihood intervals are taken from the requested parameter's own profile (proved)
* code: src/elisa/infer/results.py: MLEResult.ci, _ci_free, _ci_fn, _ci_invalid, _loss_factory
* model: Data, Namespace, FitInput, HelperData, ModelInfo, HelperNames, Batch, Results, ModelAlg, Profile; statements in Prop_Profile
* theorems: `C84_free` F, `C84_free_contains` EF, `C84_swapped_refuted` EF, `C84_invariance` F, `C84_ends` F, `C84_penalty` EFN, `C84_penalty_minimum` EF, `C84_tolerance` CEFN, `C84_fn_refuted` EF, `C84_answer` F
* C84_free, C84_free_contains, C84_invariance, C84_ends, C84_penalty, C84_penalty_minimum, C84_tolerance and C84_answer are the proved parts; C84_swapped_refuted (upper-bounded priors) and C84_fn_refuted (zero-valued functions, nonpositive rtol) record what does not hold of the code. iminuit's search itself is not modelled.

### C85 Fluxes, luminosities and isotropic energies belong to the right data, component and parameters (proved)
* code: src/elisa/infer/results.py: FitResult.__init__ (_flux, _model_mapping), MLEResult._intensity_ci, flux, lumin, eiso, _ci_boot; PosteriorResult._ci_fn, _intensity_ci; src/elisa/models/model.py: CompiledModel.ne, ene, flux, lumin, eiso
* model: Data, Namespace, FitInput, HelperData, ModelInfo, ModelAlg, Batch, Results, Summary, Intensity; statements in Prop_Intensity
* theorems: `C85_mapping` -, `C85_value` CEFN, `C85_readable` -, `C85_profile_contains` CEFN, `C85_boot_central` CEFN, `C85_raises` CEFN, `C85_defined` CEFN, `C85_collision_refuted` CEFN, `C85_params_refuted` CEFN, `C85_dist` CEFN, `C85_lumin` CEFN, `C85_k_correction` CEFN, `C85_posterior` EFN
* C85_mapping, C85_value, C85_readable, C85_profile_contains, C85_boot_central, C85_raises, C85_defined, C85_lumin, C85_k_correction, C85_posterior are the proved parts; C85_collision_refuted, C85_params_refuted and C85_dist (first data of each model only; parameter samples scaled) record what does not hold. Highest density intervals (arviz) are not modelled.

### C86 Starting points of maximum likelihood fits (proved)
* code: src/elisa/infer/fit.py: Fit._optimize_lm, Fit._optimize_ns, MaxLikeFit.mle, BayesFit._check_init; src/elisa/infer/helper.py: constr_dic_to_unconstr_arr
* model: Data, Namespace, FitInput, HelperData, ModelInfo, HelperNames, Batch, Loglike; statements in Prop_Loglike
* theorems: `C86_start` -, `C86_unknown_ignored_refuted` -, `C86_minuit` EF, `C86_unsupported` EF, `C86_lm` EF, `C86_ns` EF, `C86_options_refuted` EF
* start value per free parameter, minuit/lm/ns over any history of calls; refuted: misspelt names are ignored, options of later lm calls are ignored. The numerical solvers are parameters of the model.

### C87 Log likelihoods stored with a posterior (proved)
* code: src/elisa/infer/helper.py: get_loglike; src/elisa/infer/fit.py: BayesFit._generate_results
* model: Data, Namespace, FitInput, HelperData, ModelInfo, HelperNames, Batch, Loglike; statements in Prop_Loglike
* theorems: `C87_sums` EF, `C87_stored` F, `C87_collision_refuted` EF
* for one posterior sample, names that do not collide; collision refuted

### C88 Ways to give a parameter to a component (proved)
* code: src/elisa/models/model.py: _param_setter, Component.__init__, Component.__getitem__, __setitem__, __setattr__; src/elisa/models/parameter.py: UniformParameter.__init__
* model: Param, Namespace, HelperData, HelperNames, ParamArg; statements in Prop_ParamArg
* theorems: `C88_forms` EF, `C88_shared` EF, `C88_refused` EF, `C88_atomic` EF, `C88_unknown` EF, `C88_session` EF, `C88_defaults` EF, `C88_mapping_forgets_refuted` EF, `C88_latex_refuted` EF
* strings as numbers inside mappings/sequences are not modelled; trackers are in C33-C35

### C89 Settings of components take effect (proved)
* code: src/elisa/models/model.py: NumericalIntegral.method, _make_integral, PyComponent.grad_method, PyAnaInt.eval, PyNumInt.eval; src/elisa/models/mul.py: PhotonAbsorption, PhAbs, TBAbs, WAbs; src/elisa/models/tables/generate_xsect_table.py
* model: Namespace, HelperData, HelperNames, ModelAlg, Components, FiniteDiff, Settings; statements in Prop_Settings
* theorems: `C89_last_accepted` -, `C89_refused` -, `C89_absorption` CEFN, `C89_new` -, `C89_subclass_refuted` CEFN, `C89_grad_first` -, `C89_grad_refuted` -
* which tables exist is read from the generating script; the HDF5 file itself is not modelled

### C90 Parameters integrated over an interval (proved)
* code: src/elisa/util/integrate.py:make_integral_factory; src/elisa/models/parameter.py:ConstantInterval; src/elisa/models/model.py:_compile_model_fn
* model: Interval; statements in Prop_Interval
* theorems: `C90_mean` EF, `C90_volume` EF, `C90_independent` EF, `C90_bounds` EF, `C90_additive` EF, `C90_overwritten` EF, `C90_made` -, `C90_point_refuted` EF
* The quadrature is assumed exact (C90_exact shows one exists). C90_point_refuted: an interval of no length is accepted and the model becomes 0/0 instead of its value at the point.

### C91 XSPEC components are evaluated on their grid (proved)
* code: src/elisa/models/xs.py:XspecAdditive.eval; src/elisa/models/xs.py:XspecMultiplicative.eval; src/elisa/models/xs.py:XspecConvolvedModel.eval; src/elisa/models/xs.py:XspecConvolution
* model: Data, Namespace, HelperData, ModelAlg, Xspec; statements in Prop_Xspec
* theorems: `C91_arguments` F, `C91_grid` CEFN, `C91_bins` CEFN, `C91_local` CEFN, `C91_refuses` CEFN, `C91_no_high_extension_refuted` CEFN, `C91_edge_refuted` CEFN
* The routines of XSPEC are arbitrary functions of the arguments and the grid.

### C92 Quantile and distribution plots are right (proved)
* code: src/elisa/plot/plotter.py:_get_qq; src/elisa/plot/plotter.py:_get_pit_ecdf
* model: Data, HelperData, Results, Summary, PlotCache, PlotCurves; statements in Prop_PlotCurves
* theorems: `C92_positions` EFN, `C92_theoretical` EFN, `C92_points` EFN, `C92_band` EFN, `C92_theory_band` EFN, `C92_ecdf` EF, `C92_ecdf_shape` EF
* Quantile functions of the normal and beta laws are arbitrary monotone functions; the simultaneous interval is a parameter.

### C93 Step plots show every channel once (proved)
* code: src/elisa/plot/plotter.py:_plot_step; src/elisa/plot/plotter.py:_plot_ribbon
* model: Data, HelperData, Results, Summary, PlotCache, PlotCurves; statements in Prop_PlotCurves
* theorems: `C93_step` EF, `C93_gap` EF, `C93_ribbon` EF

### C94 Plot settings are checked and used (proved)
* code: src/elisa/plot/plotter.py:PlotConfig; src/elisa/plot/plotter.py:Plotter.set_colors; src/elisa/plot/plotter.py:Plotter.colors; src/elisa/plot/plotter.py:Plotter.plot_residuals
* model: Data, Namespace, HelperData, Results, Summary, ModelAlg, PlotSettings; statements in Prop_PlotSettings
* theorems: `C94_checked` EF, `C94_frame` EF, `C94_valid` EF, `C94_outliers` EF, `C94_no_level_refuted` EF, `C94_colors` -, `C94_no_palette_refuted` -

### C95 Markers, shades, smoothing and log ranges (proved)
* code: src/elisa/plot/util.py; src/elisa/plot/plotter.py:_adjust_log_range
* model: Data, Namespace, HelperData, Results, Summary, ModelAlg, PlotSettings; statements in Prop_PlotSettings
* theorems: `C95_markers` -, `C95_markers_refuted` -, `C95_gradient` CEFN, `C95_contours` CEFN, `C95_smooth` EFN, `C95_one_sigma_refuted` CEFN, `C95_log_range` CEFN

### C96 Names of models show the names of components where the components are (proved)
* code: src/elisa/models/model.py:Model._id_to_label; src/elisa/models/model.py:CompositeModel; src/elisa/models/model.py:ConvolvedModel; src/elisa/models/model.py:Model.name
* model: Namespace, Expr, ModelAlg, Labels; statements in Prop_Labels
* theorems: `C96_name` -, `C96_latex` -, `C96_order` -, `C96_lengths_refuted` -
* ids are hexadecimal strings of one common length, names contain none of them (good_mapping)

### C97 User-defined components: what the class statement accepts and what an instance holds (proved)
* code: src/elisa/models/model.py:ComponentMeta; src/elisa/models/model.py:Component; src/elisa/models/model.py:Model
* model: Namespace, HelperData, Classes; statements in Prop_Classes
* theorems: `C97_config` -, `C97_static` -, `C97_instance` -, `C97_list_config_refuted` -, `C97_subclass_refuted` -, `C97_guard` -

### C98 Sign of the residuals shown (proved)
* code: src/elisa/plot/data.py:PlotData.sign; src/elisa/infer/helper.py:get_counts_data; src/elisa/infer/likelihood.py:wstat_background,pgstat_background; src/elisa/data/base.py:FixedData.ce
* model: Gibbs, Likelihood, Signs; statements in Prop_Signs
* theorems: `C98_observed` EFN, `C98_simulated` EFN, `C98_pstat_refuted` EFN, `C98_negative_background_refuted` EFN
* the unrestricted claim is refuted for simulated pstat data (C98_pstat_refuted) and for negative pgstat backgrounds (C98_negative_background_refuted); both are stated as theorems about the code as it is

### C99 Leave-one-out probability integral transforms (proved)
* code: src/elisa/infer/results.py:PosteriorResult._loo_pit
* model: Gibbs, Likelihood, Signs, Namespace, HelperData, ChanLabels, LooPit; statements in Prop_LooPit
* theorems: `C99_channels` EFN, `C99_ordered` EFN, `C99_weight` CEFN, `C99_counts` CEFN, `C99_net` CEFN, `C99_step_refuted` EF
* the claim of the code's comment ('next small net spectrum values') is refuted for ratios p/q with p, q >= 2 coprime (C99_step_refuted)

### C100 Channel labels identify the noticed channels (proved)
* code: src/elisa/data/base.py:ResponseData.group_energy; src/elisa/data/base.py:ObservationData.set_grouping; src/elisa/infer/helper.py:get_helper; src/elisa/infer/results.py:PosteriorResult._loo_expectation
* model: Namespace, ChanLabels; statements in Prop_ChanLabels
* theorems: `C100_unique` -, `C100_form` -, `C100_across` -, `C100_select` -, `C100_repeated` -, `C100_raw_refuted` -, `C100_type_refuted` -, `C100_default_quality_refuted` -
* proved for raw labels that are distinct and without '+' / '_'; refuted for repeated raw labels (not checked), for channel types with underscores, and for grouping without a quality array

### C101 Loading an observation uses the files, row, name and flags one expects (proved)
* code: src/elisa/data/ogip.py:Data.__init__; src/elisa/data/ogip.py:Spectrum.__init__; src/elisa/data/ogip.py:Response.__init__; src/elisa/data/ogip.py:_warn_on_spectrum_classification
* model: Significance, Data, DataState, Namespace, Ogip, Loading; statements in Prop_Loading
* theorems: `C101_specifier` -, `C101_no_specifier` -, `C101_braces_in_directory_refuted` -, `C101_row` EFN, `C101_negative_row_refuted` EFN, `C101_table` EFN, `C101_header_name` -, `C101_load` CEFN, `C101_counting_statistics` EFN, `C101_refused` CEFN, `C101_flag_needed` CEFN, `C101_response` EF, `C101_warnings` CEFN, `C101_decline_background_refuted` CEFN, `C101_missing_arf_unnoticed_refuted` EF
* refuted corners, stated as theorems: negative row numbers are accepted (C101_negative_row_refuted), text after the closing brace is dropped (C101_braces_in_directory_refuted), a background named in the header cannot be declined (C101_decline_background_refuted), the warning for a matrix without ancillary response is never given (C101_missing_arf_unnoticed_refuted)

### C102 Summaries of a posterior describe all draws of all chains (proved)
* code: src/elisa/infer/results.py:PosteriorResult._tabs; src/elisa/infer/results.py:PosteriorResult._compute_stat; src/elisa/infer/results.py:PosteriorResult.deviance; src/elisa/infer/results.py:PosteriorResult._mle; src/elisa/infer/results.py:PosteriorResult.ess; src/elisa/infer/results.py:PosteriorResult.rhat; src/elisa/infer/fit.py:BayesFit._get_ess
* model: Data, Namespace, FitInput, HelperData, ModelInfo, HelperNames, Batch, Results, Summary, Loglike, PostSummary; statements in Prop_PostSummary
* theorems: `C102_summary` EFN, `C102_median_halves` EF, `C102_deviance` EF, `C102_total_mean` EF, `C102_total_median_refuted` EF, `C102_khat` EF, `C102_khat_labels_refuted` EF, `C102_ess` EF, `C102_ess_undefined_refuted` EF, `C102_reff_name_refuted` EFN, `C102_params_tab` EFN, `C102_stat_tab` EF, `C102_divergence` -, `C102_best_start` EF
* arviz's estimators of the effective sample size and R-hat are arbitrary functions of the chains; rounding for print is not modelled

### C103 Samplers are run and continued as asked (proved)
* code: src/elisa/infer/samplers/ensemble/base.py:EnsembleSampler.run; src/elisa/infer/samplers/ensemble/emcee.py:EmceeSampler.get_sampling_fn; src/elisa/infer/samplers/ensemble/zeus.py:ZeusSampler.get_sampling_fn; src/elisa/infer/samplers/ensemble/numpyro.py:NumpyroEnsembleSampler.init; src/elisa/infer/fit.py:BayesFit._run_numpyro_mcmc; src/elisa/infer/fit.py:BayesFit._set_numpyro_mcmc_post_warmup_state
* model: Data, Namespace, HelperData, Batch, Resume; statements in Prop_Resume
* theorems: `C103_schedule` -, `C103_states` -, `C103_no_warmup` -, `C103_continue` -, `C103_tuning_lost_refuted` EF, `C103_numpyro_state` -, `C103_numpyro_run` -, `C103_walkers` -, `C103_numpyro_start` -
* the steps of the samplers are arbitrary functions of the tuning, the positions and the random state; numpyro's thinning is taken as documented

### C104 What the spectral plots show (proved)
* code: src/elisa/plot/plotter.py:Plotter.plot_spec; src/elisa/plot/plotter.py:Plotter.plot_unfolded; src/elisa/plot/plotter.py:MLEResultPlotter.__call__; src/elisa/plot/plotter.py:PosteriorResultPlotter.__call__; src/elisa/plot/data.py:MLEPlotData.unfolded_model; src/elisa/plot/data.py:PosteriorPlotData.unfolded_model; src/elisa/plot/data.py:PlotData.photon_egrid
* model: Data, Namespace, HelperData, ModelAlg, Config, Results, Summary, Intensity, PlotCache, PlotCurves, PlotSettings, PostSummary, Spectral; statements in Prop_Spectral
* theorems: `C104_words` -, `C104_blank_edges_refuted` -, `C104_figures` -, `C104_panels` -, `C104_curves` EFN, `C104_defined` EFN, `C104_narrow_refuted` EFN, `C104_no_level_refuted` EFN, `C104_jy` EF, `C104_units_refuted` -, `C104_nothing` -
* Text is ASCII; colours, widths and axis limits are not modelled. The _refuted theorems state the findings.

### C105 Errors of fitted parameters (proved)
* code: src/elisa/infer/helper.py:get_helper; src/elisa/infer/results.py:MLEResult.__init__; src/elisa/infer/results.py:PosteriorResult._mle
* model: Data, Namespace, HelperData, Summary, FitErrors, FitErrorsSpec; statements in Prop_FitErrors
* theorems: `C105_errors` EFN, `C105_chosen` EFN, `C105_singular` EFN, `C105_derived_refuted` EFN, `C105_posterior` EFN, `C105_one` EFN, `C105_defined` EF
* Derivatives (jax) and the minimiser are inputs; matrix inversion is any function that inverts; exact reals, so the Cholesky test has no rounding. C105_derived_refuted and C105_adding_parameter_refuted: with derived parameters the Hessian is discarded.

### C106 Diagnostic plots with one panel per data set (proved)
* code: src/elisa/plot/plotter.py:Plotter.plot_qq; src/elisa/plot/plotter.py:Plotter.plot_pit; src/elisa/plot/plotter.py:Plotter.plot_gof
* model: Data, Namespace, HelperData, Batch, Results, Summary, PlotCache, PlotCurves, Diagnostics; statements in Prop_Diagnostics
* theorems: `C106_layout` -, `C106_total_name_refuted` -, `C106_qq` EFN, `C106_qq_drawn` EFN, `C106_pit` EF, `C106_gof_needs_simulations` -, `C106_gof` EF, `C106_gof_curve` EF, `C106_gof_label_refuted` EF, `C106_gof_text` EF
* Colours, text and axis limits are not modelled; the residuals themselves are those of C69, C79 and C99. Names differ and none is 'total' (otherwise C106_total_name_refuted). C106_gof_label_refuted: the curve is not the labelled probability.

### C107 Plots of data and response (partial)
* code: src/elisa/data/base.py:ObservationData.plot_spec; src/elisa/data/base.py:ResponseData.plot_effective_area; src/elisa/data/base.py:ResponseData.plot_matrix
* model: Data, Significance, HelperData, DataState, DataPlots; statements in Prop_DataPlots
* theorems: `C107_hatched` EF, `C107_hatching_defined` EF, `C107_ranges` EF, `C107_area` EF, `C107_step_shifted_partial` EF, `C107_step_refuted` EF, `C107_matrix` EF, `C107_matrix_hatched` EF, `C107_matrix_hatch_refuted` EF, `C107_spec` CEFN
* The step of the effective area plot and the hatching with several gaps are refuted (C107_step_refuted, C107_matrix_hatch_refuted); what is drawn instead is proved. The rest is proved. matplotlib's step (where='pre'), pcolormesh and fill_betweenx are taken at their documented meaning.

### C108 Warmup and sampling of BlackJAX NUTS (partial)
* code: src/elisa/infer/samplers/blackjax/nuts.py:BlackJAXNUTS.init; src/elisa/infer/samplers/blackjax/nuts.py:BlackJAXNUTS.__init__; src/elisa/infer/fit.py:BayesFit._run_numpyro_mcmc
* model: Nuts; statements in Prop_Nuts
* theorems: `C108_arguments` -, `C108_adaptation` EF, `C108_frozen` EF, `C108_no_warmup_partial` EF, `C108_mean_rate` EF, `C108_potential` EF, `C108_continued` EF, `C108_continued_adapts_partial` EF, `C108_replayed_refuted` EF, `C108_no_warmup_refuted` EF, `C108_continued_refuted` EF
* Refuted: C108_no_warmup_refuted, C108_continued_refuted, C108_replayed_refuted (what happens instead is proved in general). One transition and the adaptation (blackjax) are arbitrary functions; that numpyro skips the warmup of a continued chain, sets the kernel up with the new warmup and replaces the key is taken from numpyro.

### C109 Error bars of binned counts from the W statistic (partial)
* code: src/elisa/plot/errorbars.py:wstat; src/elisa/plot/errorbars.py:wstat_errors; src/elisa/plot/errorbars.py:pgstat; src/elisa/infer/likelihood.py:wstat_background
* model: Gibbs, Likelihood, HelperData, Errorbars; statements in Prop_Errorbars
* theorems: `C109_interval` CEFN, `C109_limit` CEFN, `C109_marked` CEFN, `C109_best` CEFN, `C109_inside` CEFN, `C109_profile` CEFN, `C109_pgstat` CEFN, `C109_unique` CEFN, `C109_start_partial` CEFN, `C109_start_refuted` CEFN, `C109_empty_limit` CEFN, `C109_bins` CEFN, `C109_start_values` CEFN
* Proved for every root finder that returns exact roots; the equations of the bins are solved one by one in the model (the code solves them in one vector call). That every search starts at a finite value is proved for whole counts with at least one count in the bin and refuted for an empty bin (logarithm of a zero error).

### C110 What nested samplers explore and what they return (partial)
* code: src/elisa/infer/samplers/util.py:UniformReparam; src/elisa/infer/samplers/util.py:uniform_reparam_model; src/elisa/infer/samplers/ns/jaxns.py:JAXNSSampler; src/elisa/infer/samplers/ns/nautilus.py:NautilusSampler; src/elisa/infer/samplers/ns/ultranest.py:UltraNestSampler; src/elisa/infer/fit.py:BayesFit.jaxns; src/elisa/infer/fit.py:BayesFit.nautilus; src/elisa/infer/fit.py:BayesFit.ultranest
* model: Namespace, HelperData, Nested, NestedRun, ChanLabels; statements in Prop_NestedRun
* theorems: `C110_target` EF, `C110_names` EF, `C110_same_model` EF, `C110_columns` -, `C110_row` EF, `C110_nan` EF, `C110_shown` EF, `C110_nautilus` EF, `C110_ultranest` EF, `C110_jaxns` F, `C110_jaxns_samples` EF, `C110_jaxns_settings` -, `C110_jaxns_termination` -, `C110_nautilus_settings` -, `C110_ultranest_settings` -, `C110_names_refuted` CEFN, `C110_sum` F
* The numpyro handlers are modelled on programs with static structure, without parallel enumeration; the three libraries are parameters (points of the run, indices drawn). Refuted: a model with parameters x and u_x cannot be sampled although its names are distinct.

### C111 Residuals of the observed data (partial)
* code: src/elisa/plot/data.py:MLEPlotData.residuals; src/elisa/plot/data.py:MLEPlotData._pearson_residuals; src/elisa/plot/data.py:PosteriorPlotData.residuals; src/elisa/plot/data.py:PosteriorPlotData._pearson_residuals; src/elisa/plot/data.py:PosteriorPlotData.quantile_residuals; src/elisa/plot/residuals.py:pearson_residuals; src/elisa/plot/plotter.py:Plotter.plot_residuals
* model: Gibbs, Likelihood, Namespace, HelperData, Data, Posterior, Residuals, Signs, LooPit, ShownResiduals; statements in Prop_ShownResiduals
* theorems: `C111_deviance` CEFN, `C111_pearson` CEFN, `C111_wstat_nan_refuted` CEFN, `C111_chi2_same` CEFN, `C111_words` CEFN, `C111_which` CEFN, `C111_loo_deviance` CEFN, `C111_loo_pearson` CEFN, `C111_concentrated` CEFN, `C111_wstat_loo_refuted` CEFN, `C111_quantile` EF, `C111_quantile_mle` EFN, `C111_order` EF, `C111_order_refuted` EF
* the parts marked REFUTED are false of the code and proved false (C111_wstat_nan_refuted, C111_wstat_loo_refuted, C111_order_refuted); the others are proved

### C112 Colours, markers and smoothed curves of the plots (partial)
* code: src/elisa/plot/util.py: get_colors, get_markers, scale_color, get_color_gradient, get_contour_colors, gaussian_kernel_smooth
* model: Namespace, HelperData, Data, Colors; statements in Prop_Colors
* theorems: `C112_scale` EF, `C112_scale_refused` EF, `C112_scale_ok_iff` EF, `C112_unchanged` EF, `C112_brighter` EF, `C112_gradient` CEFN, `C112_gradient_ok` CEFN, `C112_contours` CEFN, `C112_colors` -, `C112_markers` -, `C112_markers_refuted` -, `C112_smooth_defined` EFN, `C112_smooth_own` EFN, `C112_smooth_between` EFN, `C112_smooth_affine` EFN, `C112_threshold_refuted` CEFN, `C112_hex` -
* Proved except: nine or more data sets share a marker (refuted), and one sigma away from a lone point the default threshold already yields NaN (refuted).

### C113 Corner and trace plots show each parameter's own numbers (partial)
* code: src/elisa/plot/misc.py: plot_corner, plot_trace
* model: Namespace, HelperData, Data, Results, Summary, Report, Colors, TracePlots; statements in Prop_TracePlots
* theorems: `C113_corner_titles` CEFN, `C113_corner_levels` CEFN, `C113_corner_range` CEFN, `C113_corner_ok` CEFN, `C113_corner_unknown_refuted` CEFN, `C113_corner_one_level_refuted` CEFN, `C113_corner_zero_refuted` CEFN, `C113_corner_count` CEFN, `C113_trace_ok_iff` CEFN, `C113_trace` CEFN, `C113_trace_marks` CEFN, `C113_mark_top` CEFN, `C113_mark_refuted` CEFN
* Everything stated is proved; partial because of the four refuted expectations (KeyError for unknown parameters, single level, zero median, marks on a log axis with non-positive samples). Kernel density curves (arviz) and drawing are not modelled.

### C114 What the ensemble samplers sample and store (partial)
* code: src/elisa/infer/samplers/util.py: get_model_info; src/elisa/infer/samplers/ensemble/base.py: EnsembleSampler.__init__; src/elisa/infer/samplers/ensemble/zeus.py: DifferentialMove
* model: Namespace, HelperData, Nested, EnsembleProb; statements in Prop_EnsembleProb
* theorems: `C114_ravel` -, `C114_names` -, `C114_record` F, `C114_nan` F, `C114_nan_value_refuted` F, `C114_move_history` F, `C114_move` F
* All proved; partial because the documented value -1e300 for NaN is refuted (it is -inf).

### C115 Arrays of parameters (partial)
* code: src/elisa/models/model.py:CompiledModel._prepare_eval; src/elisa/models/model.py:CompiledModel.eval; src/elisa/models/model.py:CompiledModel.flux; src/elisa/models/model.py:CompiledModel.ce
* model: Data, Namespace, HelperData, BatchEval; statements in Prop_BatchEval
* theorems: `C115_eval` F, `C115_ne` EF, `C115_ene` EFN, `C115_ce` EF, `C115_flux` EFN, `C115_flux_entries` EFN, `C115_refused` F, `C115_formulas` EFN, `C115_unknown_ignored_refuted` F
* C115_unknown_ignored_refuted: a misspelt name in a mapping is ignored and the result is that without it. Size-one broadcasting on the last axis is not modelled.

### C116 Classes generated for the XSPEC library (partial)
* code: src/elisa/models/xs.py:_generate_xspec_models; src/elisa/models/xs.py:_XSPEC_MODEL_TEMPLATE_ADD; src/elisa/models/xs.py:_XSPEC_MODEL_TEMPLATE_CON; src/elisa/models/model.py:ComponentMeta.__new__
* model: Param, Namespace, HelperData, HelperNames, Batch, ParamArg, ModelAlg, Xspec, Classes, XspecModels; statements in Prop_XspecModels
* theorems: `C116_name` -, `C116_config` EF, `C116_call` EF, `C116_accepts` EF, `C116_catalogue` EF, `C116_all_or_nothing_refuted` EF, `C116_defaults` EF, `C116_switch_refuted` EF
* Two refutations: one unusable model makes the whole catalogue unavailable, and a switch whose default is below -1 makes a class that cannot be constructed with its defaults. Units, descriptions and links are not modelled; identifiers are ASCII.

### C117 Labels with sub- and superscripts (partial)
* code: src/elisa/util/misc.py:set_suffix_config; src/elisa/util/misc.py:add_suffix; src/elisa/infer/fit.py:Fit.__init__
* model: Namespace, HelperData, Suffix; statements in Prop_Suffix
* theorems: `C117_accepted` -, `C117_plain` -, `C117_no_place` -, `C117_width` -, `C117_set` -, `C117_session` -, `C117_add` -, `C117_defaults` -, `C117_unique` -, `C117_unicode_partial` -, `C117_unicode_refuted` -, `C117_template_refuted` -, `C117_latex` -, `C117_latex_unique` -, `C117_digits` -, `C117_kept` -
* In unicode mode data named C and c get the same superscript, so two components share a label (C117_unicode_refuted), and a template such as [%.0s] is accepted although it drops the suffix (C117_template_refuted). C117_unique proves different labels for every template that keeps its suffix between characters of its own, C117_unicode_partial for names whose superscripts differ.

### C118 Composite parameters: default, fixed, description and LaTeX (proved)
* code: src/elisa/models/parameter.py:Parameter._make_composite_parameter; src/elisa/models/parameter.py:CompositeParameter
* model: Expr, Composite, Namespace, HelperData, Derived; statements in Prop_Derived
* theorems: `C118_operators` -, `C118_interval` -, `C118_default` -, `C118_no_default` -, `C118_fixed_log` -, `C118_infos` -, `C118_latex_text` -, `C118_latex` -
* The template of a function is that of its name. A label set by the user for the composite itself is not modelled.

### C119 Two residuals of a channel combined (partial)
* code: src/elisa/plot/residuals.py:combine_residuals
* model: Data, DataState, DataSim, HelperData, CombineRes; statements in Prop_CombineRes
* theorems: `C119_equivalent_unique` EF, `C119_combined` EFN, `C119_order` EF, `C119_zero` EF, `C119_swap` EFN, `C119_refused` EFN, `C119_sign_refused` EFN, `C119_array_refuted` EFN, `C119_array_partial` EFN
* Degrees of freedom per channel raise ValueError for two or more channels, because the array is compared with 1.0 (C119_array_refuted); C119_array_partial covers one channel. Arrays of length one are not stretched in the model.

### C120 Units shown in labels (partial)
* code: src/elisa/util/misc.py:get_unit_latex
* model: Namespace, Expr, ModelAlg, Labels, UnitText; statements in Prop_UnitText
* theorems: `C120_letters` -, `C120_place` -, `C120_unit` -, `C120_invalid` -, `C120_order_refuted` -
* The places found are not always those of the bases themselves: a base whose name is part of another word of the text is shown too early (keV s V gives keV V s, C120_order_refuted). What astropy reads is a parameter of the model.

### C121 Replacing texts in nested structures (partial)
* code: src/elisa/util/misc.py:replace_string
* model: Namespace, Expr, ModelAlg, Labels, UnitText; statements in Prop_UnitText
* theorems: `C121_untouched` -, `C121_places` -, `C121_names_partial` -, `C121_exchange_refuted` -, `C121_entries_refuted` -
* A text already replaced is replaced again, so two names cannot be exchanged (C121_exchange_refuted), and keys that become equal lose entries (C121_entries_refuted).

### C122 Two halves of the linear-logarithmic axis (partial)
* code: /repo/src/elisa/plot/scale.py: _DummyAxis.get_view_interval, _DummyAxis.get_data_interval, _DummyAxis.get_tick_space, _LinLogFormatter.__call__, _LinLogFormatter.set_locs, LinLogLocator.tick_values, get_scale
* model: LinLog, LinLogAxis; statements in Prop_LinLogAxis
* theorems: `C122_halves` EF, `C122_round` EF, `C122_tick_space` CEFN, `C122_tick_sum` CEFN, `C122_auto_scale` CEFN, `C122_text` EF, `C122_value_kept` EF, `C122_ticks_texts` EF, `C122_locs` EF, `C122_no_locs_refuted` -
* Real numbers instead of floats; matplotlib's own locators and formatters are arbitrary functions. set_locs() without argument is refuted: its default None is iterated over and TypeError is raised. An inverted axis gives the larger end first, so both halves are told the whole interval (second part of C122_halves).

### C123 Count spectra, folded models and Pareto shapes as plotted (proved)
* code: /repo/src/elisa/plot/plotter.py: Plotter.plot_folded, Plotter.plot_ce, PosteriorResultPlotter.plot_khat; /repo/src/elisa/plot/data.py: MLEPlotData.ce_model, MLEPlotData.ce_model_ci, PosteriorPlotData.ce_model, PosteriorPlotData.ce_model_ci, PosteriorPlotData.get_model_median; /repo/src/elisa/data/base.py: FixedData (channel_emean, channel_emid, channel_errors)
* model: Data, Namespace, HelperData, ModelAlg, Config, Results, Summary, Intensity, PlotCache, PlotCurves, PostSummary, ChanLabels, Spectral, CountPlot; statements in Prop_CountPlot
* theorems: `C123_bar` EFN, `C123_counts` EFN, `C123_legend` EFN, `C123_folded` EF, `C123_level` EF, `C123_khat` EFN, `C123_repeated` EFN
* Real numbers instead of floats; on a logarithmic axis the lower energies must not be negative. Colours, markers and line widths are left out.

### C124 Keyword for the installed version of jax (partial)
* code: /repo/src/elisa/util/scipy_nquad.py: _parse_version, _pure_callback_kwargs
* model: Namespace, Versions; statements in Prop_Versions
* theorems: `C124_numbers` -, `C124_order` -, `C124_keyword` -, `C124_installed` -, `C124_short_refuted` -, `C124_candidate_refuted` -
* Shown not to hold: the version text 0.6 counts as older than 0.6.0, and a release candidate of 0.6.0 counts as 0.6.0.

### C125 Saved results are loaded as saved (partial)
* code: /repo/src/elisa/infer/results.py: FitResult.save, FitResult.load
* model: Namespace, SavedResults; statements in Prop_SavedResults
* theorems: `C125_algorithms` -, `C125_loaded` -, `C125_others` -, `C125_error` -, `C125_history` -, `C125_stopped` -, `C125_failed_save_refuted` -, `C125_stopped_save_refuted` -
* Not atomic: refuted by C125_failed_save_refuted and C125_stopped_save_refuted. dill and the compressed files are parameters with their promises as premises; an instance that keeps them is given (C125_ex). Errors of the file system are reported as KeyError (missing) and RuntimeError (unreadable).

### C126 Titles and labels of parameters (proved)
* code: src/elisa/models/model.py:get_model_info (comp_latex_mapping, latex_mapping, unit_mapping); src/elisa/infer/helper.py:get_helper (pname_to_latex, pname_to_unit, pname_to_comp_latex); src/elisa/plot/plotter.py:comps_latex, params_latex, params_titles, params_labels
* model: Expr, Composite, Namespace, ModelInfo, HelperNames, UnitText, ParamLabels; statements in Prop_ParamLabels
* theorems: `C126_texts` -, `C126_unit_refuted` -
* The numbering of component LaTeX texts is cid_to_latex (parameter of the model); what astropy makes of a unit is a parameter. C126_unit_refuted: a norm shared by a power law and a black body.

### C127 Attributes of models and components are protected (proved)
* code: src/elisa/models/model.py:Model.__setattr__, __delattr__; src/elisa/models/model.py:CompiledModel.__setattr__, __delattr__; src/elisa/models/model.py:Component.__setattr__, __delattr__
* model: Namespace, Guarded; statements in Prop_Guarded
* theorems: `C127_compiled` -, `C127_delete` -, `C127_history` -, `C127_takes_effect` -, `C127_property` -, `C127_switch_off_refuted` -
* Histories that leave the two private names of the protection alone (with them: C127_switch_off_refuted); checks and conversions inside property setters are left out (C88, C89 cover them); direct changes of __dict__ are outside the model.

## Source files, function by function

The fraction of the lines of each file that some definition of the model cites (`tools/coverage.py -a` prints the functions and the model files one by one), and the functions that no definition cites.  Property getters that only return a stored attribute are left out of the list.

| file | cited | model files | functions not modelled |
|---|---|---|---|
| `data/base.py` | 95 % | Base, ChanLabels, CountPlot, Data, DataAlias, DataPlots, EnsembleProb, FitInput, Fwhm, Resume, Scale, Signs | - |
| `data/grouping.py` | 99 % | Base, Data, Grouping, Scale, Significance | - |
| `data/ogip.py` | 92 % | Loading, Ogip | - |
| `infer/fit.py` | 85 % | FitInput, Loglike, Namespace, NestedRun, PostSummary, Resume, Sampling, Signs, Suffix | `Fit._helper`, `Fit.__repr__`, `Fit._repr_html_`, `Fit._make_info_table`, `BayesFit.emcee`, `BayesFit.zeus` |
| `infer/helper.py` | 87 % | Batch, ChanLabels, FitErrors, HelperData, HelperNames, Likelihood, Loglike, LooPit, ParamLabels, Posterior, Progress, ShownResiduals, Signs | - |
| `infer/likelihood.py` | 64 % | Likelihood, ShownResiduals, Signs | `_get_resp_matrix` |
| `infer/results.py` | 79 % | ChanLabels, FitErrors, Intensity, LooPit, PostSummary, Posterior, Profile, Results, SavedResults, ShownResiduals, Summary | `MLEResult.__repr__`, `MLEResult._repr_html_`, `MLEResult._tabs`, `MLEResult.plot`, `MLEResult._ci_fn.get_minuit`, `MLEResult._raise_if_no_boot`, `MLEResult.deviance`, `PosteriorResult.__init__`, `PosteriorResult.__repr__`, `PosteriorResult._repr_html_`, `PosteriorResult.plot`, `PosteriorResult.flux`, `PosteriorResult.lumin`, `PosteriorResult.eiso`, `PosteriorResult.waic`, `PosteriorResult.loo`, `PosteriorResult.lnZ`, `PosteriorResult._psislw` |
| `infer/samplers/blackjax/nuts.py` | 68 % | Nuts | `BlackJAXNUTS.postprocess_fn`, `BlackJAXNUTS.init.wa_update`, `BlackJAXNUTS.get_diagnostics_str`, `BlackJAXNUTS.__getstate__` |
| `infer/samplers/ensemble/base.py` | 96 % | EnsembleProb, Resume, Sampling | - |
| `infer/samplers/ensemble/emcee.py` | 96 % | Resume, Sampling | - |
| `infer/samplers/ensemble/numpyro.py` | 76 % | Resume | - |
| `infer/samplers/ensemble/zeus.py` | 99 % | EnsembleProb, Resume, Sampling | - |
| `infer/samplers/ns/jaxns.py` | 43 % | NestedRun | `JAXNSSampler.__init__`, `JAXNSSampler.get_weighted_samples`, `JAXNSSampler.print_summary`, `JAXNSSampler.diagnostics` |
| `infer/samplers/ns/nautilus.py` | 77 % | NestedRun, Sampling | - |
| `infer/samplers/ns/ultranest.py` | 65 % | Nested, NestedRun, Sampling | `UltraNestSampler.ess`, `UltraNestSampler.lnZ` |
| `infer/samplers/util.py` | 99 % | EnsembleProb, Nested, NestedRun, PlotSettings | - |
| `models/add.py` | 100 % | Classes, Components, ModelAlg | - |
| `models/conv.py` | 77 % | Classes, ModelAlg | `PhFlux.convolve` |
| `models/model.py` | 92 % | BatchEval, Classes, Components, Composite, HelperNames, Intensity, Interval, Labels, ModelAlg, ModelInfo, Namespace, ParamArg, ParamLabels, Settings, Simulate, XspecModels | `Model.__init__`, `Model._cid_to_clatex`, `Model.latex`, `Model.__repr__`, `Model._repr_html_`, `Model.__getitem__`, `CompiledModel.__repr__`, `CompiledModel._repr_html_`, `ConvolutionComponent.eval`, `get_mtype_str` |
| `models/mul.py` | 100 % | Classes, Components, Settings | - |
| `models/parameter.py` | 87 % | Composite, Derived, Interval, ModelInfo, Param, ParamArg | `Parameter.__init__`, `Parameter._id_to_label`, `DistParameter.default`, `UniformParameter._dist_expr` |
| `models/tables/generate_xsect_table.py` | 0 % | - | `get_cross_sections`, `get_wabs_cross_sections` |
| `models/xs.py` | 87 % | Classes, Xspec, XspecModels | `XspecComponentMeta.__call__`, `XspecComponent.grad_method`, `XspecConvolution.eval` |
| `plot/data.py` | 85 % | CountPlot, PlotCache, Residuals, ShownResiduals, Signs, Spectral | `_get_cached_method_decorator`, `_get_cached_method_with_check_decorator`, `_get_cached_method_with_check_decorator.decorator`, `MLEPlotData.get_model_boot`, `MLEPlotData.get_data_boot`, `PosteriorPlotData.get_model_ppc`, `PosteriorPlotData.get_model_mle` |
| `plot/errorbars.py` | 100 % | Errorbars | - |
| `plot/misc.py` | 44 % | TracePlots | - |
| `plot/plotter.py` | 90 % | CountPlot, Diagnostics, ParamLabels, PlotCurves, PlotSettings, ShownResiduals, Spectral | `Plotter.ndata`, `Plotter.params_titles`, `MLEResultPlotter.get_plot_data`, `MLEResultPlotter.plot_corner`, `PosteriorResultPlotter.get_plot_data`, `PosteriorResultPlotter.plot_trace`, `PosteriorResultPlotter.plot_corner` |
| `plot/residuals.py` | 99 % | CombineRes, PlotCache, Residuals, ShownResiduals | - |
| `plot/scale.py` | 59 % | LinLog, LinLogAxis | `_DummyAxis.__init__`, `LinLogTransform.inverted`, `_LinLogFormatter.__init__`, `_LinLogFormatter.set_axis`, `LinLogLocator.__init__`, `LinLogLocator.set_axis`, `LinLogLocator.create_dummy_axis`, `LinLogScale.set_default_locators_and_formatters` |
| `plot/util.py` | 100 % | Colors | - |
| `util/config.py` | 90 % | Batch, Config, Sampling | - |
| `util/integrate.py` | 100 % | Interval | - |
| `util/misc.py` | 89 % | FiniteDiff, Namespace, Progress, Report, Suffix, TracePlots, UnitText | `make_pretty_table`, `to_native_byteorder` |
| `util/scipy_nquad.py` | 13 % | Versions | `NQuadTransform.__init__`, `NQuadTransform._cfun`, `NQuadTransform._nquad`, `NQuadTransform._nquad._nquad_scipy`, `NQuadTransform._nquad._nquad_scipy._pcb` |
