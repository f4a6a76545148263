{
 "claims": [
  {
   "property": "C01",
   "status": "proved",
   "theorems": [
    "C01_recording_window"
   ],
   "note": ""
  },
  {
   "property": "C02",
   "status": "proved",
   "theorems": [
    "C02_container_round_trip",
    "C02_load_over_existing",
    "C02_reachable_structure",
    "C02_name_restored_iff",
    "C02_round_trip_any_name_refuted"
   ],
   "note": "the proviso on names is necessary: C02_round_trip_any_name_refuted is the finding"
  },
  {
   "property": "C03",
   "status": "partial",
   "theorems": [
    "C03_load_twice_refuted",
    "C03_second_load_is_noop"
   ],
   "note": "REFUTED: loading pops the entries from the caller's dictionary; second_load_is_noop is the exact behaviour"
  },
  {
   "property": "C04",
   "status": "proved",
   "theorems": [
    "C04_container_is_a_map",
    "C04_operations_refused_iff",
    "C04_constructor"
   ],
   "note": ""
  },
  {
   "property": "C05",
   "status": "proved",
   "theorems": [
    "C05_normalised_simplex",
    "C05_shift_invariant",
    "C05_permutation_equivariant"
   ],
   "note": ""
  },
  {
   "property": "C06",
   "status": "partial",
   "theorems": [
    "C06_uniform_fallback_refuted",
    "C06_degenerate_outcome_partial",
    "C06_fallback_unreachable"
   ],
   "note": "REFUTED for NaN/+inf everywhere (result is NaN); true for -inf everywhere; the fallback branch is dead code"
  },
  {
   "property": "C07",
   "status": "proved",
   "theorems": [
    "C07_repeatable",
    "C07_stable_from_second",
    "C07_second_call_bound",
    "C07_all_nan_changes",
    "C07_repeatable_refuted"
   ],
   "note": "the proviso 'no unusable entries' is necessary (C07_repeatable_refuted)"
  },
  {
   "property": "C08",
   "status": "proved",
   "theorems": [
    "C08_ess_bounds",
    "C08_ess_bounds_log"
   ],
   "note": ""
  },
  {
   "property": "C09",
   "status": "proved",
   "theorems": [
    "C09_log_of_weighted_mean",
    "C09_between_min_and_max",
    "C09_shift",
    "C09_with_minus_infinity",
    "C09_all_minus_infinity",
    "C09_nan_propagates"
   ],
   "note": ""
  },
  {
   "property": "C10",
   "status": "proved",
   "theorems": [
    "C10_moments",
    "C10_covariance"
   ],
   "note": ""
  },
  {
   "property": "C100",
   "status": "partial",
   "theorems": [
    "C100_residual_floats_partial",
    "C100_residual_succeeds_floats",
    "C100_residual_floats_refuted"
   ],
   "note": "REFUTED: residual resampling of 41 equally weighted float32 particles raises a RuntimeError (41 times the rounded 1/41 is below 1: no sure copies, the remainders are divided by zero); proved: it returns whenever one particle is heavier than the average by more than the rounding errors, and what it returns is right"
  },
  {
   "property": "C101",
   "status": "proved",
   "theorems": [
    "C101_ffbs_law",
    "C101_ffbs_posterior",
    "C101_systematic_fair",
    "C101_categorical_fair",
    "C101_ffbs_systematic",
    "C101_needs_every_state"
   ],
   "note": "recording every time is a documented requirement that nothing checks: C101_needs_every_state shows that without it (observe_every_step = 2, intermediary states not recorded) the trajectories follow another law"
  },
  {
   "property": "C102",
   "status": "partial",
   "theorems": [
    "C102_factor_partial",
    "C102_guards",
    "C102_missing_refuted",
    "C102_needs_intermediary"
   ],
   "note": "REFUTED: a missing (NaN) observation, which the filters accept, makes the factor NaN; proved: the factor is the mean complete log density if all log densities are numbers and every time is recorded; without intermediary states (documented requirement of smoothing, unchecked) it raises, or weighs all observations against one state"
  },
  {
   "property": "C103",
   "status": "partial",
   "theorems": [
    "C103_target_partial",
    "C103_fisher_partial",
    "C103_every_refuted",
    "C103_space_refuted"
   ],
   "note": "REFUTED: building raises for observe_every_step > 1 with two or more observations; the step adds the gradient with respect to the constrained parameter to the unconstrained one, which is not a gradient step unless the two coincide; proved: for observe_every_step = 1 the location is, on average, u + eps * dS/dtheta for the exact filter of a finite-state process"
  },
  {
   "property": "C104",
   "status": "partial",
   "theorems": [
    "C104_kernel_partial",
    "C104_symmetric_partial",
    "C104_draws",
    "C104_raises_refuted",
    "C104_degenerate_refuted",
    "C104_fallback_refuted",
    "C104_few_refuted"
   ],
   "note": "REFUTED: a ValueError if (and only if) some parameter has one value on all particles with weight, e.g. one particle has all the weight; if the particles with weight lie in a hyperplane (always so if there are no more of them than parameters) the correlations are dropped; proved: the stated mean and covariance in all other cases, in exact arithmetic"
  },
  {
   "property": "C105",
   "status": "partial",
   "theorems": [
    "C105_proper_partial",
    "C105_evidence_partial",
    "C105_increase_weight",
    "C105_increase"
   ],
   "note": "proved between rejuvenations (settings under which none happens) and across an increase of the state particles; missing: rejuvenation itself (that of SMC2 is C108, whole fits with rejuvenation are C112; the kernels of NESS do not leave the posterior in place by design); increments are assumed finite numbers"
  },
  {
   "property": "C106",
   "status": "proved",
   "theorems": [
    "C106_evidence",
    "C106_posterior",
    "C106_probability"
   ],
   "note": "parameters drawn independently (not from a quasi-random context); filters of different parameter particles use independent random numbers; settings under which no rejuvenation happens"
  },
  {
   "property": "C107",
   "status": "partial",
   "theorems": [
    "C107_shows",
    "C107_completes_partial",
    "C107_weights",
    "C107_titles",
    "C107_single_refuted",
    "C107_dictionary_refuted",
    "C107_titles_refuted"
   ],
   "note": "REFUTED: a single component in one column, and a single Axes as the annotation of the argument asks for, always raise AttributeError (no ravel); a dictionary passed as constrained gets the missing names added; a vector a and a scalar a_0 get the same title; proved: what is shown otherwise"
  },
  {
   "property": "C108",
   "status": "partial",
   "theorems": [
    "C108_reset",
    "C108_target_partial",
    "C108_systematic",
    "C62_symmetric_refuted",
    "C62_symmetric_fixed",
    "C62_stale_walk_refuted"
   ],
   "note": "REFUTED for the proposals the library ships: SymmetricMH takes the backward density from a kernel fitted to the candidates (C62_symmetric_refuted), RandomWalk is not centred again after resampling or moves inside SMC2 (C62_stale_walk_refuted), so the acceptance ratio is not the one of Metropolis-Hastings. Proved for proposals with a fixed density, a fixed number of moves (no acceptance threshold, no distance threshold) and exact random draws, with systematic resampling shown to meet the assumption on resampling; missing: early stopping, which depends on the moves"
  },
  {
   "property": "C109",
   "status": "proved",
   "theorems": [
    "C109_likelihood",
    "C109_likelihood_probability",
    "C109_mean",
    "C109_bootstrap",
    "C109_bootstrap_mean"
   ],
   "note": "exact real arithmetic on log weights; resampling with a mean square error of order 1/N assumed in the general theorems and proved for multinomial resampling (C95); APF under a bound on the ratio of importance to look-ahead weights"
  },
  {
   "property": "C11",
   "status": "proved",
   "theorems": [
    "C11_valid_indices",
    "C11_valid_indices_batched",
    "C11_sorted"
   ],
   "note": ""
  },
  {
   "property": "C110",
   "status": "partial",
   "theorems": [
    "C110_log_likelihood_floats",
    "C110_unweighted_floats",
    "C110_weighted_refuted"
   ],
   "note": "REFUTED with weights: the maximum that is subtracted in front of exp is that of all particles, with or without weight; a particle of weight zero that fits the observation 1000 nats better than the 16 others (ESS 16 of 17, no resampling) makes all other exponentials underflow, and the result is -inf in place of -1000. Proved: error bound with weights when the weighted sum relative to the largest importance weight stands out from rounding, and without weights always"
  },
  {
   "property": "C111",
   "status": "partial",
   "theorems": [
    "C111_forecast",
    "C111_bootstrap",
    "C111_plain_mean_refuted"
   ],
   "note": "REFUTED for the plain mean over the returned paths: predict_path neither resamples nor returns the weights, so for a process that is 1 or -1 for ever and is observed once the mean square error of the plain mean is at least 1/16 for every number of particles. Proved: under the weights of the state the forecast converges at rate 1/N, for SISR with any threshold and APF, every horizon"
  },
  {
   "property": "C112",
   "status": "partial",
   "theorems": [
    "C112_exact",
    "C112_posterior",
    "C112_adaptive_refuted"
   ],
   "note": "REFUTED when the effective sample size decides on rejuvenation (thresholds between 0 and 1): whether the particles are moved then depends on the particles themselves; with two parameters, one observation and a threshold of 90% the mean is 25/27 in place of 1, although resampling, acceptance ratio and likelihoods are exact. Proved: rejuvenation at times fixed in advance (threshold above one or at most 1/B at each observation), any number of observations, particles and moves, exact real arithmetic, proposals of fixed density, no acceptance or distance threshold; the adaptive fit still converges (C113)"
  },
  {
   "property": "C113",
   "status": "proved",
   "theorems": [
    "C113_evidence",
    "C113_posterior",
    "C113_probability",
    "C113_multinomial",
    "C113_residual"
   ],
   "note": "exact real arithmetic, proposals of fixed density, no acceptance or distance threshold (c_accept <= 0, c_dist = None), likelihoods of single observations bounded, draws of different slots uncorrelated; resampling needs a mean square error of order 1/B, which C113_multinomial and C113_residual prove for multinomial and residual resampling; the default of kernels, systematic, need not have it (C95_systematic_refuted)"
  },
  {
   "property": "C114",
   "status": "partial",
   "theorems": [
    "C114_moved_partial",
    "C114_cuda_partial",
    "C114_round_trip_partial",
    "C114_validation_refuted",
    "C114_alternatives_refuted",
    "C114_wrappers_refuted"
   ],
   "note": "REFUTED for three kinds of distribution: validate_args=False is not carried over, so arguments outside their constraints raise ValueError; classes with alternative arguments (MultivariateNormal, Bernoulli, Categorical) always raise ValueError because all alternatives are passed to the constructor; Independent and TransformedDistribution always raise TypeError because the base distribution is not passed. Proved for classes whose constructor takes exactly the constrained arguments; tensors are flat, constraints elementwise"
  },
  {
   "property": "C115",
   "status": "partial",
   "theorems": [
    "C115_patched",
    "C115_once",
    "C115_first_wins",
    "C115_second_class_refuted"
   ],
   "note": "REFUTED for several classes: applied_patches records the mixin only, so patching it into a second class silently does nothing. Everything else is proved"
  },
  {
   "property": "C116",
   "status": "partial",
   "theorems": [
    "C116_mean_floats",
    "C116_variance_floats",
    "C116_from_log_weights_floats",
    "C116_identical_particles_floats_refuted"
   ],
   "note": "REFUTED: ten float32 particles of the same weight that all equal 1 have a mean above 1, twelve have one below 1, and their variance is positive. The error bounds are proved for every format, order of summation and exponential function of a given accuracy; one filter, one component of the state (no covariance matrices), particles whose squares times 64 stay below half the largest number, at most 2^18 particles in float32"
  },
  {
   "property": "C117",
   "status": "partial",
   "theorems": [
    "C117_smoothed_mean",
    "C117_bootstrap",
    "C117_last_observation_unused",
    "C117_equal_weights_refuted"
   ],
   "note": "REFUTED for the plain average: the trajectories are returned without resampling by the weights of the last state, so for SISR with the bootstrap proposal they do not depend on the last observation at all (proved for every threshold and model), and in a two-sided example the plain average is off by at least 1/4 for one of two observations whatever the number of particles. With the weights of the last state convergence is proved, for APF and for SISR resampling at every step (with other thresholds the smoother follows wrong ancestors, C23); general statement for columnwise filters, instance bootstrap proposal with multinomial resampling"
  },
  {
   "property": "C118",
   "status": "proved",
   "theorems": [
    "C118_silverman_best",
    "C118_scott",
    "C118_decreasing"
   ],
   "note": "Real numbers, no rounding. The package itself uses neither function; both are importable from kernels/jittering.py"
  },
  {
   "property": "C119",
   "status": "proved",
   "theorems": [
    "C119_inversion",
    "C119_distinct"
   ],
   "note": "Real numbers, no rounding; the engine has the dimension of the distribution and the distribution has no batch shape, as construct_mvn builds it. The Sobol engine and the normal quantile are arbitrary functions with the stated properties"
  },
  {
   "property": "C12",
   "status": "proved",
   "theorems": [
    "C12_proportional_copies"
   ],
   "note": ""
  },
  {
   "property": "C120",
   "status": "partial",
   "theorems": [
    "C120_kernel",
    "C120_affine",
    "C120_variance_refuted",
    "C120_linearized_first_order",
    "C120_linearized_exact"
   ],
   "note": "REFUTED: the variance of the particles is added to the transition variance without passing through the transition, so for x' = c x + d + g noise the variance used exceeds the true one by (1 - c^2) times the variance of the particles (too small for |c| > 1); it is exact for |c| = 1 only. Proved: the kernel is the exact posterior for the variance used, for every model; the mean is exact for affine transitions. One dimension"
  },
  {
   "property": "C121",
   "status": "partial",
   "theorems": [
    "C121_residual_error",
    "C121_residual_better",
    "C121_systematic_refuted",
    "C121_systematic_partial"
   ],
   "note": "REFUTED for systematic resampling (the default): with 2m particles whose weights alternate between 3/(4m) and 1/(4m) and the indicator of the heavy ones its mean squared error is 1/16 for every m, that of multinomial resampling 3/(32 m). Proved: residual resampling is never worse than multinomial, with its exact error; systematic is better, whatever the offset, for functions whose variation along the particles is small. One row of weights, real numbers"
  },
  {
   "property": "C122",
   "status": "partial",
   "theorems": [
    "C122_recorded",
    "C122_stranger_refuted",
    "C122_load_partial",
    "C122_save_refuted"
   ],
   "note": "REFUTED: the dictionary does not contain the chain, results with different chains have the same dictionary, and the object loaded into keeps its own chain; a sample with an unknown name raises KeyError after the parameters in front of it have been recorded. Proved: the chain is complete and in order; the filter result of the last position is restored (as in C35)"
  },
  {
   "property": "C13",
   "status": "partial",
   "theorems": [
    "C13_zero_weight_never_selected_refuted",
    "C13_zero_weight_partial"
   ],
   "note": "REFUTED: a zero-weight first particle is selected when the uniform draw is exactly 0; true for every other particle and for every positive draw"
  },
  {
   "property": "C14",
   "status": "partial",
   "theorems": [
    "C14_offset_ignored_1d",
    "C14_offset_honoured_1d_refuted",
    "C14_offset_honoured_batched_partial"
   ],
   "note": "REFUTED for one-dimensional weights (the decorator passes the keyword names, not the values); true for batched weights and tensor offsets; a float offset is refused"
  },
  {
   "property": "C15",
   "status": "proved",
   "theorems": [
    "C15_residual",
    "C15_residual_batched_refused"
   ],
   "note": "torch.multinomial enters by its contract only (length, positive probability, accepts valid input)"
  },
  {
   "property": "C16",
   "status": "proved",
   "theorems": [
    "C16_two_pointer_reference",
    "C16_ties_differ_refuted"
   ],
   "note": "tie-freeness is part of the statement; C16_ties_differ_refuted shows it is needed"
  },
  {
   "property": "C17",
   "status": "proved",
   "theorems": [
    "C17_batch_is_columnwise"
   ],
   "note": ""
  },
  {
   "property": "C18",
   "status": "proved",
   "theorems": [
    "C18_selective_resampling"
   ],
   "note": ""
  },
  {
   "property": "C19",
   "status": "proved",
   "theorems": [
    "C19_sisr_noninterference",
    "C19_apf_noninterference"
   ],
   "note": "contracts: resampler and proposal treat columns separately (proved for systematic resampling in C17)"
  },
  {
   "property": "C20",
   "status": "proved",
   "theorems": [
    "C20_sisr_importance_sampling"
   ],
   "note": ""
  },
  {
   "property": "C21",
   "status": "proved",
   "theorems": [
    "C21_apf_lookahead_divided_out"
   ],
   "note": ""
  },
  {
   "property": "C22",
   "status": "proved",
   "theorems": [
    "C22_apf_fl_ancestors",
    "C22_apf_fl_ancestors_default"
   ],
   "note": "true pasts = the same run on particles carrying their history"
  },
  {
   "property": "C23",
   "status": "partial",
   "theorems": [
    "C23_sisr_fl_ancestors_refuted",
    "C23_sisr_fl_ancestors_partial",
    "C23_sisr_always_resampling_partial"
   ],
   "note": "REFUTED: after a resampling step followed by a step without resampling the recorded indices are stale and the smoother leaves the ancestral line; true when every step resamples or records identity"
  },
  {
   "property": "C24",
   "status": "proved",
   "theorems": [
    "C24_missing_observation",
    "C24_partially_missing_used",
    "C24_step_succeeds"
   ],
   "note": ""
  },
  {
   "property": "C25",
   "status": "partial",
   "theorems": [
    "C25_impute_honoured_refuted",
    "C25_unknown_strategy_refused"
   ],
   "note": "REFUTED: 'impute' is accepted but every run equals the 'skip' run"
  },
  {
   "property": "C26",
   "status": "proved",
   "theorems": [
    "C26_one_observation",
    "C26_series"
   ],
   "note": ""
  },
  {
   "property": "C27",
   "status": "partial",
   "theorems": [
    "C27_advances_partial",
    "C27_gaussian_stays_refuted"
   ],
   "note": "REFUTED for GaussianProposal and GaussianLinearized, which never advance the time index; proved for all other proposals with every filter"
  },
  {
   "property": "C28",
   "status": "partial",
   "theorems": [
    "C28_configurations_are_legal",
    "C28_copy_partial",
    "C28_threshold_iff",
    "C28_copy_refuted",
    "C28_copy_needs_model",
    "C28_proposal_copy"
   ],
   "note": "REFUTED: copy does not keep the resampling threshold of a SISR filter; everything else is kept when the model is set"
  },
  {
   "property": "C29",
   "status": "proved",
   "theorems": [
    "C29_increase_keeps_fraction",
    "C29_from_constructor"
   ],
   "note": ""
  },
  {
   "property": "C30",
   "status": "proved",
   "theorems": [
    "C30_ffbs_trajectories",
    "C30_ffbs_values_are_particles",
    "C30_method_names"
   ],
   "note": ""
  },
  {
   "property": "C31",
   "status": "proved",
   "theorems": [
    "C31_total_is_sum",
    "C31_real_sum",
    "C31_latest_state"
   ],
   "note": ""
  },
  {
   "property": "C32",
   "status": "partial",
   "theorems": [
    "C32_continue_partial",
    "C32_continue_refuted"
   ],
   "note": "REFUTED: the initial state's log-likelihood is counted twice and its tensor becomes the running total"
  },
  {
   "property": "C33",
   "status": "partial",
   "theorems": [
    "C33_resample_partial",
    "C33_resample_refuted"
   ],
   "note": "REFUTED: a state's own log-likelihood is not selected and recorded moments shared with a kept state are selected twice"
  },
  {
   "property": "C34",
   "status": "partial",
   "theorems": [
    "C34_exchange_partial",
    "C34_latest_state_only",
    "C34_new_run_separate",
    "C34_started",
    "C34_exchange_refuted"
   ],
   "note": "REFUTED with two or more recorded states sharing an ancestor tensor; exact when only the latest state is recorded (the default)"
  },
  {
   "property": "C35",
   "status": "proved",
   "theorems": [
    "C35_round_trip",
    "C35_needs_one_state"
   ],
   "note": "target must hold exactly one state (the default, record_states=False)"
  },
  {
   "property": "C36",
   "status": "partial",
   "theorems": [
    "C36_independent_partial",
    "C36_only_total_shared_partial",
    "C36_independent_refuted"
   ],
   "note": "REFUTED without a trip to disk: the running log-likelihood tensor is shared by the run, the dictionary and the loaded result"
  },
  {
   "property": "C37",
   "status": "proved",
   "theorems": [
    "C37_batch_shape"
   ],
   "note": ""
  },
  {
   "property": "C38",
   "status": "proved",
   "theorems": [
    "C38_bound",
    "C38_names"
   ],
   "note": ""
  },
  {
   "property": "C39",
   "status": "partial",
   "theorems": [
    "C39_refused_partial",
    "C39_refused_refuted"
   ],
   "note": "REFUTED for batched priors: the prior is entered before the check, the name is then known without a parameter and the context can be neither completed nor copied; all other refusals leave everything as it was"
  },
  {
   "property": "C40",
   "status": "proved",
   "theorems": [
    "C40_stack",
    "C40_unstack",
    "C40_unstack_stack",
    "C40_stack_unstack"
   ],
   "note": "a context with at least one parameter (torch.cat of nothing raises); values in the supports, and for the unconstrained form bijections that are inverse to each other on the supports"
  },
  {
   "property": "C41",
   "status": "partial",
   "theorems": [
    "C41_partial",
    "C41_unconstrained_accepted",
    "C41_refuted"
   ],
   "note": "REFUTED: parameters are updated one after the other, so those registered before the one refused have already been overwritten; a wrong number of columns changes nothing and well-shaped finite unconstrained values are never refused"
  },
  {
   "property": "C42",
   "status": "proved",
   "theorems": [
    "C42_resample",
    "C42_twice"
   ],
   "note": "one batch dimension"
  },
  {
   "property": "C43",
   "status": "partial",
   "theorems": [
    "C43_exchange_partial",
    "C43_other_sizes_refuted"
   ],
   "note": "REFUTED for parameters of the same name with samples of other sizes: accepted, and elements are dealt out one after the other; true for samples of equal sizes; a missing parameter is reported with the parameters before it already exchanged"
  },
  {
   "property": "C44",
   "status": "partial",
   "theorems": [
    "C44_innermost_partial",
    "C44_other_thread_refuted"
   ],
   "note": "REFUTED: a thread that has not constructed a context itself gets AttributeError on entering one or asking for it; true within the threads that have"
  },
  {
   "property": "C45",
   "status": "partial",
   "theorems": [
    "C45_reenter_top_partial",
    "C45_reenter_refuted"
   ],
   "note": "REFUTED: re-entering an outer context and leaving removes its first occurrence and leaves it on top; true when the re-entered context is the innermost"
  },
  {
   "property": "C46",
   "status": "partial",
   "theorems": [
    "C46_scoped_partial",
    "C46_on_afterwards",
    "C46_meaning",
    "C46_nested_refuted"
   ],
   "note": "REFUTED for a block nested in a block of the same context: verification is on again in the rest of the outer block; true without such nesting, for every exception point, and always on after the outermost block"
  },
  {
   "property": "C47",
   "status": "partial",
   "theorems": [
    "C47_load",
    "C47_save_load",
    "C47_other_names",
    "C47_other_arguments_partial",
    "C47_hidden_arguments_refuted",
    "C47_hidden_witness_refuted"
   ],
   "note": "REFUTED: for priors of classes without arg_constraints (Independent, TransformedDistribution) nothing is compared, any saved prior is accepted; for the others a value of the same shape that differs is refused"
  },
  {
   "property": "C48",
   "status": "proved",
   "theorems": [
    "C48_equal",
    "C48_independent",
    "C48_copy_then",
    "C48_empty"
   ],
   "note": "non-empty contexts with unbatched priors, before any load (a loaded context shares storages, C74); an empty one raises IndexError"
  },
  {
   "property": "C49",
   "status": "proved",
   "theorems": [
    "C49_inside",
    "C49_count",
    "C49_points"
   ],
   "note": "over the reals: float rounding is not modelled"
  },
  {
   "property": "C50",
   "status": "proved",
   "theorems": [
    "C50_bookkeeping"
   ],
   "note": "all compositions of NESS, FixedWidthNESS, SMC2 and combined algorithms with compatible parts"
  },
  {
   "property": "C51",
   "status": "partial",
   "theorems": [
    "C51_accumulates",
    "C51_ness",
    "C51_smc2_partial",
    "C51_increase_refuted",
    "C51_impossible_refuted"
   ],
   "note": "REFUTED: after an increase of the state particles SMC2's weights are the difference of the new and old likelihoods, and an observation that is impossible under a particle changes its weight to the lowest finite number, not to minus infinity; holds in all other cases"
  },
  {
   "property": "C52",
   "status": "partial",
   "theorems": [
    "C52_ness",
    "C52_smc2",
    "C52_ess_initial",
    "C52_ess_step",
    "C52_impossible_refuted",
    "C52_reading_refuted"
   ],
   "note": "REFUTED: likelihoods of zero never make the weights unusable, and a callback that reads the normalised weights repairs unusable weights so that NESS does not rejuvenate; the decision rule on the stored ESS and weights is proved"
  },
  {
   "property": "C53",
   "status": "partial",
   "theorems": [
    "C53_partial",
    "C53_refuted",
    "C53_second_fit_refuted"
   ],
   "note": "REFUTED: the first algorithm gets switch+1 observations, and a second fit with the same object starts with the second algorithm"
  },
  {
   "property": "C54",
   "status": "proved",
   "theorems": [
    "C54_doubling",
    "C54_refused"
   ],
   "note": ""
  },
  {
   "property": "C55",
   "status": "proved",
   "theorems": [
    "C55_rate"
   ],
   "note": ""
  },
  {
   "property": "C56",
   "status": "proved",
   "theorems": [
    "C56_smc2",
    "C56_ness"
   ],
   "note": ""
  },
  {
   "property": "C57",
   "status": "partial",
   "theorems": [
    "C57_register",
    "C57_calls",
    "C57_state_partial",
    "C57_refuted"
   ],
   "note": "REFUTED: callbacks get the state object passed to step, which after an increase of the state particles is not the new state, and whose iteration number is that before the observation"
  },
  {
   "property": "C58",
   "status": "partial",
   "theorems": [
    "C58_continue",
    "C58_partial",
    "C58_blocks_refuted",
    "C58_increase_refuted",
    "C58_model_refuted"
   ],
   "note": "REFUTED: the place within a FixedWidthNESS block, the number of state particles and increases of SMC2, and models that compute with their parameters are not restored; proved for every algorithm and split point without these"
  },
  {
   "property": "C59",
   "status": "proved",
   "theorems": [
    "C59_floor",
    "C59_constant",
    "C59_decaying",
    "C59_interval",
    "C59_interval_order"
   ],
   "note": "over the reals; an interval's threshold is used only down to the ending threshold, see C77"
  },
  {
   "property": "C60",
   "status": "proved",
   "theorems": [
    "C60_output",
    "C60_mean",
    "C60_variance",
    "C60_unshrunk",
    "C60_robust",
    "C60_shrinkage"
   ],
   "note": "over the reals; the kernels use the robust variance, which is at most the variance, so the variance is preserved when both agree and shrinks otherwise; the quantile characterisation is for samples without ties"
  },
  {
   "property": "C61",
   "status": "proved",
   "theorems": [
    "C61_step",
    "C61_fit",
    "C61_other_initializers"
   ],
   "note": "contexts and filter results as lists of rows, justified by C40-C43 and the result theorems; the initial result: see C79"
  },
  {
   "property": "C62",
   "status": "partial",
   "theorems": [
    "C62_rule",
    "C62_degenerate",
    "C62_balance",
    "C62_walk_centred",
    "C62_walk_starts",
    "C62_walk_rule",
    "C62_symmetric_refuted",
    "C62_symmetric_fixed",
    "C62_stale_walk_refuted"
   ],
   "note": "REFUTED for SymmetricMH (backward density from a kernel fitted to the candidates) and for the random walk inside sequential kernels (kernel not re-centred); proved for PMMH with the random walk and for every proposal whose reported densities are the true ones"
  },
  {
   "property": "C63",
   "status": "proved",
   "theorems": [
    "C63_linear_weight",
    "C63_independent_of_draw",
    "C63_linear_weight_multivariate"
   ],
   "note": "scalar case inside the particle model; vector case for one particle, real arithmetic, unbatched parameters"
  },
  {
   "property": "C64",
   "status": "partial",
   "theorems": [
    "C64_pre_weight_partial",
    "C64_pre_weight_multivariate_partial",
    "C64_pre_weight_refuted"
   ],
   "note": "REFUTED: the previous value is used in place of the mean of the hidden process, right only for random walks"
  },
  {
   "property": "C65",
   "status": "partial",
   "theorems": [
    "C65_quadratic_mode",
    "C65_second_order_step_partial",
    "C65_legacy_gradient_partial",
    "C65_legacy_variance_positive",
    "C65_legacy_variance_positive_vector",
    "C65_gradient_refuted",
    "C65_wrong_way_refuted",
    "C65_variance_refuted"
   ],
   "note": "REFUTED for the default settings: without second order information the step size itself is added, whatever the density; with it the default finder can give NaN or negative variances"
  },
  {
   "property": "C66",
   "status": "proved",
   "theorems": [
    "C66_nested"
   ],
   "note": ""
  },
  {
   "property": "C67",
   "status": "partial",
   "theorems": [
    "C67_sound_partial",
    "C67_reflexive",
    "C67_symmetric",
    "C67_refuted",
    "C67_broadcast_refuted",
    "C67_raises_refuted",
    "C67_nan_refuted"
   ],
   "note": "REFUTED: classes without arg_constraints are always equivalent, arguments are broadcast (Dirichlet of three and of one component), incompatible shapes raise, a prior with NaN is not equivalent to itself; symmetric, reflexive without NaN, sound for arguments of the same shapes"
  },
  {
   "property": "C68",
   "status": "proved",
   "theorems": [
    "C68_gpf_weights"
   ],
   "note": ""
  },
  {
   "property": "C69",
   "status": "proved",
   "theorems": [
    "C69_supported_models"
   ],
   "note": ""
  },
  {
   "property": "C70",
   "status": "partial",
   "theorems": [
    "C70_first_model_partial",
    "C70_second_model_refuted"
   ],
   "note": "REFUTED from the second binding on: the function chosen for the first model is kept"
  },
  {
   "property": "C71",
   "status": "proved",
   "theorems": [
    "C71_bootstrap",
    "C71_kernels",
    "C71_gaussian",
    "C71_gaussian_linear",
    "C71_gaussian_linearized"
   ],
   "note": ""
  },
  {
   "property": "C72",
   "status": "proved",
   "theorems": [
    "C72_default_look_ahead"
   ],
   "note": ""
  },
  {
   "property": "C73",
   "status": "proved",
   "theorems": [
    "C73_eval_priors",
    "C73_empty"
   ],
   "note": ""
  },
  {
   "property": "C74",
   "status": "partial",
   "theorems": [
    "C74_refuted",
    "C48_independent"
   ],
   "note": "REFUTED: the loaded parameters use the storages of the saved context, an in-place update of one changes the other; contexts that were copied instead are independent"
  },
  {
   "property": "C75",
   "status": "partial",
   "theorems": [
    "C75_refuted",
    "C47_other_names"
   ],
   "note": "REFUTED: parameters are loaded one after the other, those before the refused one are already replaced; refusal because of other names changes nothing"
  },
  {
   "property": "C76",
   "status": "partial",
   "theorems": [
    "C76_initialize_partial",
    "C76_simplex_refuted"
   ],
   "note": "REFUTED: a prior with fewer unconstrained than constrained components (Dirichlet) raises RuntimeError; holds for contexts without such priors"
  },
  {
   "property": "C77",
   "status": "partial",
   "theorems": [
    "C77_refuted",
    "C77_partial"
   ],
   "note": "REFUTED: thresholds below the ending threshold are never used; holds when the ending threshold is the smallest"
  },
  {
   "property": "C78",
   "status": "partial",
   "theorems": [
    "C78_refuted",
    "C78_partial"
   ],
   "note": "REFUTED: a float scale raises AttributeError (float has no clamp); holds for tensors"
  },
  {
   "property": "C79",
   "status": "partial",
   "theorems": [
    "C79_partial",
    "C79_refuted"
   ],
   "note": "REFUTED for model builders that compute with the parameters: the model is built before the means are copied in and not rebuilt; holds for models holding the parameter objects"
  },
  {
   "property": "C80",
   "status": "partial",
   "theorems": [
    "C80_first_partial",
    "C80_accumulates_refuted",
    "C80_witness_refuted"
   ],
   "note": "REFUTED: parameter.grad is never reset, so gradients accumulate over the kernels built from a context"
  },
  {
   "property": "C81",
   "status": "partial",
   "theorems": [
    "C81_smc2_partial",
    "C81_refuted"
   ],
   "note": "REFUTED for quasi contexts with builders that compute with the parameters: the model is built before the parameters are initialised"
  },
  {
   "property": "C82",
   "status": "proved",
   "theorems": [
    "C82_alone"
   ],
   "note": ""
  },
  {
   "property": "C83",
   "status": "partial",
   "theorems": [
    "C83_partial",
    "C83_refuted"
   ],
   "note": "REFUTED: the counter is raised before it is tested and the test comes before the observation, so the first block has one observation less"
  },
  {
   "property": "C84",
   "status": "proved",
   "theorems": [
    "C84_scale",
    "C84_monotone",
    "C84_equal"
   ],
   "note": "bandwidth and robust standard deviation characterised without the code's formulas"
  },
  {
   "property": "C85",
   "status": "proved",
   "theorems": [
    "C85_systematic",
    "C85_systematic_log",
    "C85_systematic_batch",
    "C85_residual",
    "C85_multinomial"
   ],
   "note": "torch.multinomial enters by the contract that entry i is drawn in proportion to its probability; Riemann integral over the offset"
  },
  {
   "property": "C86",
   "status": "proved",
   "theorems": [
    "C86_unbiased",
    "C86_bootstrap"
   ],
   "note": "draws at different positions of the random stream are independent by the definition of the average; exact arithmetic; GPF is not covered"
  },
  {
   "property": "C87",
   "status": "proved",
   "theorems": [
    "C87_invariant",
    "C87_posterior",
    "C87_bootstrap",
    "C87_draws"
   ],
   "note": "for reference measures under which point and candidate can be exchanged (visible hypothesis; the instance shown is a finite one)"
  },
  {
   "property": "C88",
   "status": "partial",
   "theorems": [
    "C88_mean_partial",
    "C88_parameters_partial",
    "C88_standardized_partial",
    "C88_undisturbed",
    "C88_safe",
    "C88_standardizer_refuted",
    "C88_standardizer_value_refuted",
    "C88_increase_refuted"
   ],
   "note": "REFUTED: Standardizer with a particle filter sums over the parameter particles instead of the state particles (every fit fails, or records a wrong number if there are as many of both); at an observation at which SMC2 adds state particles the old weights are used; proved otherwise"
  },
  {
   "property": "C89",
   "status": "partial",
   "theorems": [
    "C89_helper_partial",
    "C89_variance_partial",
    "C89_scalar_partial",
    "C89_vectors_raise",
    "C89_covariance_refuted",
    "C89_one_component_refuted",
    "C89_value_refuted"
   ],
   "note": "REFUTED: get_covariance multiplies the weights into the last dimension of the values instead of the first: for vectors it raises, or (as many particles as components) weighs components instead of particles, or (one component) returns a row and column for every particle; right for scalars, and get_filter_mean_and_variance is right for all shapes"
  },
  {
   "property": "C90",
   "status": "partial",
   "theorems": [
    "C90_vectors_partial",
    "C90_scalars_partial",
    "C90_scalar_observation_refuted",
    "C90_scalar_observation_raises",
    "C90_scalar_state_refuted"
   ],
   "note": "REFUTED: pre_weight fails when exactly one of state and observation is scalar (line 80 multiplies entrywise instead of taking the inner product, line 83 takes the particles for a matrix); proved for scalar with scalar and vector with vector"
  },
  {
   "property": "C91",
   "status": "partial",
   "theorems": [
    "C91_vectors_partial",
    "C91_scalar_observation_partial",
    "C91_scalars_partial",
    "C91_scalar_state_partial",
    "C91_batched_offset_refuted",
    "C91_batched_value_refuted"
   ],
   "note": "REFUTED: with vector observations and an offset that has a batch dimension (one of the inferred parameters) find_optimal_density multiplies a matrix by the batch of observations: it raises, or is wrong if there are as many filters as components; proved for all combinations of dimensions otherwise"
  },
  {
   "property": "C92",
   "status": "partial",
   "theorems": [
    "C92_nessmc2_partial",
    "C92_unknown_refused",
    "C92_fixed_width",
    "C92_positional",
    "C92_context_required",
    "C92_smc2fw_refuted",
    "C92_smc2fw_error_refuted"
   ],
   "note": "REFUTED for SMC2FW: its make_second takes two positional arguments but is called with three, so that constructing an SMC2FW always raises (TypeError for allowed keywords); proved in full for NESSMC2"
  },
  {
   "property": "C93",
   "status": "proved",
   "theorems": [
    "C93_closed",
    "C93_closed_pmmh",
    "C93_sequential",
    "C93_pmmh",
    "C93_counts",
    "C93_bar",
    "C93_bar_pmmh",
    "C93_raising"
   ],
   "note": "a PMMH whose initialisation fails leaves the logger untouched (it is started afterwards)"
  },
  {
   "property": "C94",
   "status": "proved",
   "theorems": [
    "C94_likelihood",
    "C94_likelihood_probability",
    "C94_mean",
    "C94_bootstrap",
    "C94_bootstrap_mean"
   ],
   "note": "at_most is an upper bound on the average (dominated by a quantity whose average exists); multinomial resampling by inversion of independent uniform numbers; systematic resampling (the default) does not meet the hypothesis on resampling, see C95; APF is not covered; exact arithmetic"
  },
  {
   "property": "C95",
   "status": "partial",
   "theorems": [
    "C95_multinomial",
    "C95_residual",
    "C95_systematic_partial",
    "C95_systematic_refuted",
    "C95_multinomial_columnwise"
   ],
   "note": "REFUTED for systematic resampling (the default): with weights alternating 3/(2N), 1/(2N) and F the indicator of the heavy particles the error is 1/4 for every draw and every even N; its error is at most the variation of F from particle to particle over N; proved for multinomial (exact variance) and residual"
  },
  {
   "property": "C96",
   "status": "proved",
   "theorems": [
    "C96_valid_indices_floats"
   ],
   "note": "IEEE-754 arithmetic (Flocq); the running sums are any list of the right length, the exponential function and the order of summation are arbitrary; up to 2^prec particles; one row of weights"
  },
  {
   "property": "C97",
   "status": "partial",
   "theorems": [
    "C97_copies_floats",
    "C97_copies_of_log_weights_floats",
    "C97_zero_weight_floats_partial",
    "C97_zero_weight_floats_refuted"
   ],
   "note": "REFUTED for zero weights: of 41 equally weighted float32 particles and one with log weight -inf at the end, the last is selected for offsets near one, because the running sum before it is below 1 and the last entry is set to 1 (and the first one, if of weight zero, for offset zero, see C13); proved for all others; the number of copies is proved with an explicit error bound"
  },
  {
   "property": "C98",
   "status": "proved",
   "theorems": [
    "C98_normalize_floats"
   ],
   "note": "IEEE-754 arithmetic (Flocq); the exponential function has an absolute error of at most alpha on numbers up to zero and is exact at 0 and -inf; any order of summation"
  },
  {
   "property": "C99",
   "status": "partial",
   "theorems": [
    "C99_ess_floats_partial",
    "C99_ess_range_floats_refuted"
   ],
   "note": "REFUTED for the exact range: 17 equally weighted float32 particles have an effective sample size above 17, 3 have one below 3; proved up to explicit rounding errors"
  }
 ]
}