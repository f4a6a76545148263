{"id": "C01", "title": "Recording window keeps exactly the newest entries", "statement": "A recording created with setting s (False: capacity 1; True or None: unbounded; non-negative integer k: capacity k; negative integers are rejected) holds, after any sequence of appends, exactly the newest min(number of appends, capacity) entries, oldest first. For a filter result this means filter_means / filter_variance / states are exactly the newest entries of the run, in time order.", "quantifier": "every recording setting and every finite sequence of appended entries", "why_tests_cant": "A test fixes one capacity and one length; the claim is an invariant of every append history, including capacity 0, 1 and unbounded.", "anchors": ["pyfilter/container.py: make_dequeue, TensorContainer.make_deque", "pyfilter/filters/result.py: FilterResult.append, states, filter_means"]}
{"id": "C02", "title": "Named recordings survive save and load", "statement": "Saving a container of named tuples and bounded recordings and loading the saved dictionary into a new container gives back the same names, kinds, capacities, order and contents, provided no name is used for both kinds and no name contains the text 'tensor_'; without the last proviso it is false, and the exact corrupted name is known.", "quantifier": "every container content, every legal name string, every capacity", "why_tests_cant": "Names are arbitrary strings pushed through a textual key encoding (format, replace, split, int); tests only ever save a couple of fixed names.", "anchors": ["pyfilter/container.py: TensorContainer.state_dict, load_state_dict", "pyfilter/state.py: BaseResult.state_dict, load_state_dict"]}
{"id": "C03", "title": "A saved state can be loaded more than once", "statement": "Loading a saved dictionary twice (for example into two algorithms) restores the same recordings both times.", "quantifier": "every saved dictionary with at least one recording, every pair of targets", "why_tests_cant": "Needs a statement about the caller's dictionary after the call, for all contents.", "anchors": ["pyfilter/container.py: TensorContainer.load_state_dict"]}
{"id": "C04", "title": "A container behaves as a map from names to recordings", "statement": "After any history of create/delete operations, looking a name up yields the most recent recording created under it and not deleted since; a name that was never created (or has been deleted) is reported as missing; membership, iteration, length and lookup agree; direct assignment is always refused. Names used for both kinds resolve to the tuple.", "quantifier": "every finite history of operations and every name", "why_tests_cant": "It is a refinement between an operation history and an abstract map; tests sample single histories.", "anchors": ["pyfilter/container.py: TensorContainer.__getitem__, __setitem__, __delitem__, __len__, __iter__, __contains__, keys, values"]}
{"id": "C05", "title": "Normalised weights form a probability vector proportional to exp(log-weight)", "statement": "For every vector of log weights (each may be finite, NaN, +inf or -inf) with at least one entry that is finite or -inf, normalising returns non-negative numbers summing to one, in which NaN and +inf entries get exactly 0 and the others are proportional to the exponential of the log weight (-inf counts as the most negative finite number, which is what the code substitutes); the result does not change when a constant is added to all finite log weights, and permuting the input permutes the output.", "quantifier": "every vector length >= 1 and every mixture of finite and non-finite entries", "why_tests_cant": "Infinitely many inputs, including every mixture of non-finite values.", "anchors": ["pyfilter/utils.py: normalize"]}
{"id": "C06", "title": "Fully degenerate weights fall back to uniform", "statement": "If every log weight is unusable, normalising yields the uniform distribution (the purpose of the masked fill at the end of normalize).", "quantifier": "every vector in which all entries are NaN, +inf or -inf", "why_tests_cant": "The fallback branch looks covered, but no input reaches it; only a universal statement can show that.", "anchors": ["pyfilter/utils.py: normalize"]}
{"id": "C07", "title": "Normalising is repeatable", "statement": "Calling normalise a second time on the same tensor (it sanitises its argument in place) gives the same answer as the first call, whenever the tensor contains at least one finite entry and no unusable ones; with unusable entries present the second answer differs by at most the weight of the most negative finite number, and for a fully NaN vector it changes from NaN to uniform.", "quantifier": "every log-weight vector, every number of repeated calls", "why_tests_cant": "A statement about in-place mutation across call histories for all inputs.", "anchors": ["pyfilter/utils.py: normalize", "pyfilter/filters/particle/state.py: normalized_weights"]}
{"id": "C08", "title": "Effective sample size lies between 1 and N", "statement": "For every vector of N normalised weights ESS lies in [1, N]; it is N exactly for uniform weights and 1 exactly when a single particle carries all the mass.", "quantifier": "every N >= 1 and every probability vector of length N", "why_tests_cant": "A real-valued inequality with equality cases over a continuum of weights.", "anchors": ["pyfilter/utils.py: get_ess"]}
{"id": "C09", "title": "The log-likelihood estimate is the log of the weighted mean of the importance weights", "statement": "For every vector of finite importance log-weights and every probability vector W (uniform if omitted), the returned value equals log(sum_i W_i exp(w_i)) despite being computed with a max shift; it lies between the smallest and the largest log-weight, moves by c if all log-weights move by c, and is NaN if all log-weights are -inf.", "quantifier": "every N >= 1, every finite log-weight vector, every probability vector", "why_tests_cant": "The numerical-stability rewriting must be correct for all reals.", "anchors": ["pyfilter/filters/particle/utils.py: log_likelihood"]}
{"id": "C10", "title": "Filter moments are the weighted mean and variance", "statement": "The filter mean is the weighted average of the particles and always lies within their range; the variance is the weighted average squared deviation, is non-negative, equals E[x^2]-E[x]^2, and is zero exactly when all particles with positive weight coincide.", "quantifier": "every N, every particle vector, every probability vector", "why_tests_cant": "Universal real arithmetic.", "anchors": ["pyfilter/filters/particle/utils.py: get_filter_mean_and_variance", "pyfilter/filters/particle/state.py: get_mean, get_variance"]}
{"id": "C11", "title": "Systematic resampling returns sorted, valid indices whatever the weights are", "statement": "For every N >= 1, every weight vector (including NaN, infinite or unnormalised entries) and every offset u in [0,1], systematic resampling returns N indices, all below N; if the weights are non-negative numbers summing to one the indices are non-decreasing.", "quantifier": "every N, every weight vector, every u", "why_tests_cant": "Index validity must hold under rounding and NaN, so for every input at all.", "anchors": ["pyfilter/resampling.py: systematic, _wrapper"]}
{"id": "C12", "title": "Systematic resampling copies each particle N*w times, up to one", "statement": "For every normalised weight vector and every u in [0,1), particle i is selected a number of times that differs from N*w_i by at most one (by strictly less than one if u > 0).", "quantifier": "every N, every probability vector, every u in [0,1), every particle", "why_tests_cant": "The defining low-variance property of systematic resampling quantifies over a continuum.", "anchors": ["pyfilter/resampling.py: systematic"]}
{"id": "C13", "title": "A zero-weight particle is never resampled", "statement": "A particle whose normalised weight is zero is never selected by systematic resampling.", "quantifier": "every probability vector, every u in [0,1), every particle with zero weight", "why_tests_cant": "Fails only at u = 0 exactly, a measure-zero event no random test hits.", "anchors": ["pyfilter/resampling.py: systematic"]}
{"id": "C14", "title": "The test offset u is honoured", "statement": "Passing u to systematic resampling determines the offset used, for one-dimensional and for batched weights.", "quantifier": "every weight array and every u", "why_tests_cant": "The one-dimensional path silently drops the argument; a result check for a single random case passes by chance.", "anchors": ["pyfilter/resampling.py: _wrapper, systematic"]}
{"id": "C15", "title": "Residual resampling keeps at least floor(N*w) copies", "statement": "For every probability vector residual resampling returns exactly N valid indices in which particle i appears at least floor(N*w_i) times, and the remaining draws are made only among particles with positive fractional part; batched weights are rejected.", "quantifier": "every N >= 1, every probability vector, every outcome of the multinomial draw", "why_tests_cant": "Quantifies over all weights and all random draws.", "anchors": ["pyfilter/resampling.py: residual"]}
{"id": "C16", "title": "Systematic resampling agrees with the textbook two-pointer algorithm", "statement": "On every probability vector and every u for which no grid point coincides with a partial sum, systematic resampling returns the same indices as the reference two-pointer implementation used in the project's own tests.", "quantifier": "every probability vector and every tie-free u", "why_tests_cant": "The tests compare on random draws only.", "anchors": ["pyfilter/resampling.py: systematic", "tests/test_resampling.py"]}
{"id": "C17", "title": "Resampling a batch equals resampling each column", "statement": "Resampling an (N x B) array of weights gives in column b the indices obtained by resampling column b alone with that column's offset.", "quantifier": "every N, B, every weight matrix, every vector of offsets", "why_tests_cant": "Axis handling must be right for all shapes.", "anchors": ["pyfilter/resampling.py: _wrapper"]}
{"id": "C18", "title": "SISR resamples exactly the filters whose ESS is below the threshold", "statement": "In the predict step of SISR every parallel filter whose ESS is below the threshold gets its particles replaced by the selected ancestors, its log weights reset to 0 and its normalised weights to 1/N, and records the selected ancestors; every other parallel filter keeps particles and weights untouched.", "quantifier": "every number of particles, every number of parallel filters, every weight matrix, every resampler", "why_tests_cant": "The code compresses the masked columns, resamples and scatters back; correctness is about every mask pattern.", "anchors": ["pyfilter/filters/particle/sisr.py: SISR.predict"]}
{"id": "C19", "title": "Parallel filters do not influence one another", "statement": "Column b of the result of a predict/correct step of SISR or APF depends only on column b of the incoming state and on the random numbers of column b.", "quantifier": "every pair of states that agree on a column, every batch size", "why_tests_cant": "Non-interference is a two-run property over all states.", "anchors": ["pyfilter/filters/particle/sisr.py", "pyfilter/filters/particle/apf.py", "pyfilter/utils.py: normalize"]}
{"id": "C20", "title": "SISR's correction is importance sampling", "statement": "The correct step of SISR adds the proposal's incremental log weights to the log weights, reports log sum_i W_i exp(v_i) as the log-likelihood increment, and the new normalised weights are proportional to W_i exp(v_i), where W are the normalised weights before the step and v the incremental log weights.", "quantifier": "every state, every proposal outcome with finite weights", "why_tests_cant": "An identity between two stable re-formulations for all reals.", "anchors": ["pyfilter/filters/particle/sisr.py: SISR.correct"]}
{"id": "C21", "title": "APF's correction divides out the look-ahead weights", "statement": "The correct step of APF selects ancestors with probabilities proportional to W_i exp(g_i), gives child j of ancestor a_j the log weight v_j - g_{a_j}, and reports log((1/N) sum_j exp(v_j - g_{a_j})) + log(sum_i W_i exp(g_i)).", "quantifier": "every state, every look-ahead weights g, every resampling outcome, every proposal outcome", "why_tests_cant": "Universal identity over reals and over random outcomes.", "anchors": ["pyfilter/filters/particle/apf.py: APF.correct"]}
{"id": "C22", "title": "Fixed-lag smoothing follows true ancestors (APF)", "statement": "For every history produced by the auxiliary particle filter, the 'fl' smoother returns for every final particle the values of its actual chain of ancestors.", "quantifier": "every history length, every particle count, every resampling outcome", "why_tests_cant": "An inductive statement over histories.", "anchors": ["pyfilter/filters/particle/base.py: _do_sample_fl", "pyfilter/filters/particle/apf.py"]}
{"id": "C23", "title": "Fixed-lag smoothing follows true ancestors (SISR)", "statement": "For every history produced by SISR, the 'fl' smoother returns for every final particle the values of its actual chain of ancestors.", "quantifier": "every history length, every pattern of resampled and non-resampled steps", "why_tests_cant": "Fails only on histories with a non-resampled step following a resampled one; a test checks shapes only.", "anchors": ["pyfilter/filters/particle/base.py: _do_sample_fl", "pyfilter/filters/particle/sisr.py: SISR.predict"]}
{"id": "C24", "title": "A missing observation does not change the likelihood", "statement": "Filtering a fully missing (all-NaN) observation moves the particles with the model, adds exactly zero to the log-likelihood and leaves the predicted weights unchanged, for every filter type; a partially missing observation is treated as an ordinary one.", "quantifier": "every filter state, every observation, every filter type, every position in the series", "why_tests_cant": "Must hold at every point of every series.", "anchors": ["pyfilter/filters/base.py: BaseFilter.filter", "pyfilter/filters/particle/state.py: create_state_from_prediction"]}
{"id": "C25", "title": "The imputation strategy is honoured", "statement": "Constructing a filter with nan_strategy='impute' makes missing observations be imputed, i.e. treated differently from 'skip'.", "quantifier": "every filter, every series with missing data", "why_tests_cant": "Needs: for all inputs both strategies give identical results.", "anchors": ["pyfilter/filters/base.py: BaseFilter.__init__, filter"]}
{"id": "C26", "title": "Time advances by the observation interval", "statement": "With observe_every_step = k >= 1, filtering the n-th observation terminates and leaves the state at time (n-1)*k+1; exactly the last of these steps uses the observation; with intermediary recording on, the result holds (n-1)*k+2 entries after n observations, otherwise n+1.", "quantifier": "every k >= 1, every number of observations, every missing-data pattern, every proposal that advances time by one", "why_tests_cant": "Termination and counting over unbounded histories.", "anchors": ["pyfilter/filters/base.py: BaseFilter.filter, batch_filter"]}
{"id": "C27", "title": "Every proposal advances time by one", "statement": "After filtering an observation the state's time index is one larger than before the correction, whichever proposal is used.", "quantifier": "every proposal shipped with the library, every state", "why_tests_cant": "The Gaussian proposals silently keep the old index; only time-inhomogeneous models notice.", "anchors": ["pyfilter/filters/particle/proposals/approximate.py", "pyfilter/filters/particle/proposals/bootstrap.py", "pyfilter/filters/particle/proposals/linear.py", "pyfilter/filters/particle/proposals/linearized.py", "pyfilter/filters/particle/proposals/nested.py"]}
{"id": "C28", "title": "A copied filter behaves like the original", "statement": "Copying a particle filter preserves number of particles, batch shape, resampling method, recording settings and the ESS threshold at which it resamples.", "quantifier": "every filter configuration and every number of successive copies", "why_tests_cant": "The threshold is wrong by a factor N that depends on the configuration.", "anchors": ["pyfilter/filters/particle/base.py: ParticleFilter.copy, __init__"]}
{"id": "C29", "title": "Increasing particles keeps the relative threshold", "statement": "After any sequence of particle increases by integer factors, the number of particles is the original times the product of the factors and the resampling threshold is the same fraction of the number of particles as originally.", "quantifier": "every start configuration and every finite sequence of factors", "why_tests_cant": "Unbounded histories.", "anchors": ["pyfilter/filters/particle/base.py: increase_particles"]}
{"id": "C30", "title": "Backward-sampled trajectories consist of particles", "statement": "The 'ffbs' smoother returns one value per time and trajectory, and each value at time t is one of the particles of the filter state at time t; the method name is accepted in any letter case.", "quantifier": "every history, every random outcome, every spelling", "why_tests_cant": "All histories and all random outcomes.", "anchors": ["pyfilter/filters/particle/base.py: _do_sample_ffbs, smooth"]}
{"id": "C31", "title": "The result's log-likelihood is the sum of the increments", "statement": "For a run started from a fresh initial state, the total log-likelihood of a result equals the sum of the increments of all appended states, after any number of steps and for any recording setting.", "quantifier": "every run length, every recording setting, every sequence of increments", "why_tests_cant": "The total is updated in place in a tensor shared with the first state; only a heap-level invariant settles it.", "anchors": ["pyfilter/filters/result.py: FilterResult.__init__, append"]}
{"id": "C32", "title": "A run can be continued from a saved state", "statement": "Running a filter from a given initial state counts that state's log-likelihood once and does not modify the state.", "quantifier": "every initial state with any log-likelihood, every continuation", "why_tests_cant": "Aliasing effect visible only for non-zero initial likelihoods.", "anchors": ["pyfilter/filters/result.py: FilterResult.__init__, append", "pyfilter/filters/base.py: batch_filter"]}
{"id": "C33", "title": "Resampling a result selects whole parallel filters", "statement": "After resampling a result with indices, entry b of everything it reports (log-likelihood, recorded means and variances, and each retained state's particles, weights, ancestors, moments and log-likelihood) is what entry indices[b] was before.", "quantifier": "every result reachable by filtering, every index vector, with or without history", "why_tests_cant": "The in-place update and the re-indexing hit the same tensor; needs a heap model and all index vectors.", "anchors": ["pyfilter/filters/result.py: FilterResult.resample", "pyfilter/filters/particle/state.py: ParticleFilterCorrection.resample"]}
{"id": "C34", "title": "Exchanging results swaps in exactly the masked filters", "statement": "After exchanging a result with another at a mask, everything the result reports for a masked filter is the other's and for an unmasked filter is unchanged, and the other result is not modified.", "quantifier": "every pair of results of equal length, every mask", "why_tests_cant": "Correctness depends on which tensors are shared between recorded states, a property of whole histories.", "anchors": ["pyfilter/filters/result.py: FilterResult.exchange", "pyfilter/filters/particle/state.py: ParticleFilterCorrection.exchange"]}
{"id": "C35", "title": "A result survives save and load", "statement": "Loading the saved dictionary of a result into a freshly initialised result of the same configuration reproduces log-likelihood, recorded moments and the latest state (particles, weights, ancestors, moments, time index), and continuing from it gives the same reports as continuing the original.", "quantifier": "every result, every continuation", "why_tests_cant": "All results, all crash points, all continuations.", "anchors": ["pyfilter/filters/result.py: state_dict, load_state_dict", "pyfilter/filters/particle/state.py: state_dict, load_state_dict"]}
{"id": "C36", "title": "A loaded result is independent of the original", "statement": "After loading a result's saved dictionary, continuing either of the two does not change what the other reports, and a saved dictionary does not change while the run it was taken from continues.", "quantifier": "every result, every continuation of either copy", "why_tests_cant": "Aliasing: visible only when both are continued in the same process.", "anchors": ["pyfilter/filters/result.py: state_dict, load_state_dict, append"]}
{"id": "C37", "title": "Batch shape is write-once", "statement": "In every history of operations on a context the first batch shape set successfully is the one reported ever after; setting it to another shape is refused with BatchShapeAlreadySet, setting the same again is accepted, neither changes anything; registering a parameter before it is set is refused with BatchShapeNotSet.", "quantifier": "every history of context operations", "why_tests_cant": "Invariant over histories.", "anchors": ["pyfilter/inference/context.py: set_batch_shape, batch_shape"]}
{"id": "C38", "title": "A parameter name is bound to one prior", "statement": "In every history of registrations on a context, requesting a name again with an equivalent prior returns the very same parameter with its current values, requesting it with a non-equivalent prior is refused, and parameters and priors are listed under the same names in order of first successful registration.", "quantifier": "every history of registrations with unbatched priors", "why_tests_cant": "Invariant over histories.", "anchors": ["pyfilter/inference/context.py: named_parameter, get_parameters", "pyfilter/inference/prior.py: equivalent_to"]}
{"id": "C39", "title": "A refused registration leaves the context usable", "statement": "If registering a parameter is refused, the context is as it was before.", "quantifier": "every context state and every refused registration", "why_tests_cant": "Exception safety at every point of every history.", "anchors": ["pyfilter/inference/context.py: named_parameter"]}
{"id": "C40", "title": "Stacking and unstacking parameters are inverse", "statement": "Stacking all parameters of a context into one matrix and unstacking it again leaves every parameter unchanged; unstacking a matrix and stacking again returns the matrix; each column belongs to exactly one component of one parameter, in registration order.", "quantifier": "every set of parameters with any event shapes, any batch size, constrained or unconstrained", "why_tests_cant": "Offset arithmetic over all shapes.", "anchors": ["pyfilter/inference/context.py: stack_parameters, unstack_parameters", "pyfilter/inference/prior.py: get_slice_for_parameter, get_numel"]}
{"id": "C41", "title": "A refused parameter update changes nothing", "statement": "If unstacking values into a context is refused (wrong number of columns or a value outside a parameter's support), no parameter has changed.", "quantifier": "every context, every matrix of values", "why_tests_cant": "Atomicity over all failure points.", "anchors": ["pyfilter/inference/context.py: unstack_parameters", "pyfilter/inference/parameter.py: update_values_"]}
{"id": "C42", "title": "Resampling a context selects whole parameter particles", "statement": "After resampling a context with indices every parameter's entry b is what its entry indices[b] was, so rows of different parameters stay together; resampling twice composes.", "quantifier": "every context, every index vector", "why_tests_cant": "All index vectors.", "anchors": ["pyfilter/inference/context.py: resample"]}
{"id": "C43", "title": "Exchanging contexts swaps in exactly the masked entries", "statement": "After exchanging a context with another at a mask, every parameter's masked entries are the other's and unmasked entries are unchanged; the other context is unchanged; a missing parameter is reported.", "quantifier": "every pair of contexts, every mask, every event shape", "why_tests_cant": "masked scatter of compressed rows must be right for all masks.", "anchors": ["pyfilter/inference/context.py: exchange"]}
{"id": "C44", "title": "The active context is the innermost one of the current thread", "statement": "In every interleaving of threads entering and leaving (also through exceptions) distinct contexts in a properly nested way, the active context of a thread is the innermost one that thread has entered and not left, irrespective of what other threads do, and leaving restores the previous one.", "quantifier": "every interleaving, every nesting depth, every exception point", "why_tests_cant": "Schedules and nesting depth are unbounded.", "anchors": ["pyfilter/inference/context.py: ParameterContext.__new__, __enter__, __exit__, get_context"]}
{"id": "C45", "title": "Re-entering a context is harmless", "statement": "Entering a context that is already active and leaving it again restores the context that was active in between.", "quantifier": "every nesting of (not necessarily distinct) contexts", "why_tests_cant": "Only nestings of the form a, b, a expose it.", "anchors": ["pyfilter/inference/context.py: __enter__, __exit__"]}
{"id": "C46", "title": "Suspending prior verification is scoped", "statement": "Verification of priors is off exactly within the dynamic extent of a no_prior_verification block and on afterwards, also when the block raises, and for nested blocks.", "quantifier": "every nesting of blocks, every exception point", "why_tests_cant": "Nesting and exception points.", "anchors": ["pyfilter/inference/context.py: no_prior_verification"]}
{"id": "C47", "title": "A context survives save and load", "statement": "Loading a context's saved dictionary into a context with the same registered parameters and priors reproduces all parameter values; a dictionary with other names or other prior parameters is refused.", "quantifier": "every context and every saved dictionary", "why_tests_cant": "All contexts and dictionaries.", "anchors": ["pyfilter/inference/context.py: state_dict, load_state_dict"]}
{"id": "C48", "title": "A copied context is equal and independent", "statement": "Copying a non-empty context gives one with the same names, priors and values whose later updates do not affect the original.", "quantifier": "every context, every later update", "why_tests_cant": "Aliasing and all shapes.", "anchors": ["pyfilter/inference/context.py: copy, apply_fun"]}
{"id": "C49", "title": "Quasi-random probabilities stay strictly inside (0,1)", "statement": "Every probability handed to the inverse transform by the quasi-random engine lies strictly between 0 and 1, with and without randomisation, for every draw of the engine and every rotation, and without randomisation the shift is the identity.", "quantifier": "every engine draw in [0,1], every rotation in [0,1], every eps in (0,1)", "why_tests_cant": "Boundary values 0 and 1 practically never occur in a test.", "anchors": ["pyfilter/inference/qmc.py: EngineContainer.sample"]}
{"id": "C50", "title": "Sequential bookkeeping matches the data", "statement": "After processing n observations a sequential algorithm reports iteration n, n+1 effective-sample-size entries, and (SMC2) the n observations in order, whatever rejuvenations, particle increases and switches happened.", "quantifier": "every data sequence and every pattern of rejuvenation outcomes", "why_tests_cant": "Invariant over unbounded runs.", "anchors": ["pyfilter/inference/sequential/base.py: step, fit", "pyfilter/inference/sequential/state.py", "pyfilter/inference/sequential/smc2.py", "pyfilter/inference/sequential/kernels/mh.py"]}
{"id": "C51", "title": "Parameter weights accumulate likelihood since the last rejuvenation", "statement": "At any time the log weight of a parameter particle is the sum of the log-likelihood increments of its filter since the last rejuvenation (0 right after it).", "quantifier": "every data sequence, every rejuvenation pattern", "why_tests_cant": "Invariant over unbounded runs.", "anchors": ["pyfilter/inference/sequential/state.py: append", "pyfilter/inference/sequential/kernels/mh.py", "pyfilter/inference/sequential/kernels/online.py"]}
{"id": "C52", "title": "Rejuvenation happens exactly when the ESS is low or weights are unusable", "statement": "SMC2 and NESS rejuvenate after an observation exactly when the newest ESS is below threshold times the number of parameter particles, or some parameter weight is not finite.", "quantifier": "every weight vector, every threshold policy, every iteration", "why_tests_cant": "The weights are sanitised in place before the test, so non-finite weights must be followed through the mutation.", "anchors": ["pyfilter/inference/sequential/smc2.py: _step", "pyfilter/inference/sequential/ness.py: _step"]}
{"id": "C53", "title": "Combined algorithms switch after the configured number of observations", "statement": "A combined algorithm processes exactly the first `switch` observations with its first algorithm and all later ones with the second.", "quantifier": "every switch value, every data length", "why_tests_cant": "Off-by-one visible only in the dispatch sequence.", "anchors": ["pyfilter/inference/sequential/base.py: CombinedSequentialParticleAlgorithm._step", "pyfilter/inference/sequential/nessmc2.py"]}
{"id": "C54", "title": "The number of state particles doubles and is capped", "statement": "After k accepted increases the filter has 2^k times the original number of particles; at most the configured number of increases ever happens and the next request fails.", "quantifier": "every initial size, every history of rejuvenations, every cap", "why_tests_cant": "Unbounded histories.", "anchors": ["pyfilter/inference/sequential/kernels/mh.py: _increase_states, update", "pyfilter/filters/particle/base.py: increase_particles"]}
{"id": "C55", "title": "The rejuvenation acceptance rate is the average", "statement": "The acceptance rate used to decide whether to add particles is the exact average of the per-step acceptance fractions of the steps performed, and at most the configured number of steps is performed.", "quantifier": "every number of steps, every acceptance outcome", "why_tests_cant": "Running-mean recursion for all lengths.", "anchors": ["pyfilter/inference/sequential/kernels/mh.py: update"]}
{"id": "C56", "title": "Rejuvenation keeps parameters and filter states together", "statement": "After a rejuvenation, the parameter particle in slot b and the filter state in slot b stem from the same former slot, or both from the same accepted proposal.", "quantifier": "every index vector, every acceptance mask, every number of moves", "why_tests_cant": "Pairing must hold for all random outcomes.", "anchors": ["pyfilter/inference/sequential/kernels/mh.py", "pyfilter/inference/sequential/kernels/online.py", "pyfilter/inference/batch/mcmc/utils.py: run_pmmh"]}
{"id": "C57", "title": "Callbacks see the current state", "statement": "A callback registered on a sequential algorithm is called exactly once per observation, in registration order and without duplicates, with the state after processing that observation.", "quantifier": "every set of registrations, every run", "why_tests_cant": "The stale object appears only in steps where SMC2 adds particles.", "anchors": ["pyfilter/inference/sequential/base.py: register_callback, step"]}
{"id": "C58", "title": "A run can be interrupted and resumed at any point", "statement": "For every data sequence and every split point, running to the split point, saving, loading into a freshly constructed algorithm and running on gives the same state as the uninterrupted run (same random numbers).", "quantifier": "every data sequence, every crash point, every algorithm (NESS, FixedWidthNESS, SMC2, combined)", "why_tests_cant": "Quantifies over all crash points and histories.", "anchors": ["pyfilter/inference/sequential/base.py", "pyfilter/inference/sequential/ness.py: FixedWidthNESS", "pyfilter/inference/sequential/state.py: state_dict, load_state_dict"]}
{"id": "C59", "title": "Threshold policies respect their floor and shape", "statement": "Every threshold policy returns at least its minimum; the decaying policy is non-increasing, starts at the start value and halves every half-life until the floor; the interval policy uses the first interval containing the iteration irrespective of the order in which intervals are given.", "quantifier": "every policy configuration and every iteration", "why_tests_cant": "All parameters and iterations.", "anchors": ["pyfilter/inference/sequential/threshold.py"]}
{"id": "C60", "title": "Jittering kernels preserve the first two moments", "statement": "The shrinkage kernels leave the weighted mean of the parameter particles unchanged in expectation of the noise, and with the plain variance the total variance is preserved; noise scale is never below the configured minimum.", "quantifier": "every weighted sample, every bandwidth, every minimum", "why_tests_cant": "Real identities over a continuum.", "anchors": ["pyfilter/inference/sequential/kernels/jittering.py"]}
{"id": "C61", "title": "A Metropolis chain only moves on acceptance and keeps likelihood and parameter together", "statement": "After every PMMH step, each chain's parameters, filter result and log-likelihood are all the proposed ones if accepted and all the previous ones otherwise; the recorded chain has one entry per iteration plus the initial one and each entry is the chain's position at that time.", "quantifier": "every number of chains and iterations, every acceptance outcome", "why_tests_cant": "All random outcomes, unbounded iterations.", "anchors": ["pyfilter/inference/batch/mcmc/utils.py: run_pmmh", "pyfilter/inference/batch/mcmc/pmmh.py", "pyfilter/inference/batch/mcmc/state.py"]}
{"id": "C62", "title": "Acceptance satisfies detailed balance", "statement": "The acceptance rule makes the Metropolis-Hastings kernel reversible with respect to prior times likelihood for every proposal kernel whose reported density is used; for the random walk it reduces to the posterior ratio, and the walk is always centred at the current position.", "quantifier": "every pair of positions, every proposal density, every history", "why_tests_cant": "Identity over a continuum, and an invariant over histories.", "anchors": ["pyfilter/inference/batch/mcmc/utils.py: run_pmmh", "pyfilter/inference/batch/mcmc/proposals/random_walk.py", "pyfilter/inference/batch/mcmc/proposals/symmetric_mh.py"]}
{"id": "C63", "title": "The linear-Gaussian proposal is optimal", "statement": "For a linear observation y = a x + b + noise with Gaussian transition, the importance weight produced by the linear proposal does not depend on the sampled particle and equals the predictive density of y given the previous particle; in any dimension the quadratic forms cancel up to a constant.", "quantifier": "every dimension, every model coefficients, every observation, every sampled particle", "why_tests_cant": "Real and matrix identities for all values.", "anchors": ["pyfilter/filters/particle/proposals/linear.py", "pyfilter/filters/particle/proposals/utils.py: find_optimal_density"]}
{"id": "C64", "title": "The look-ahead weight of the linear proposal is the predictive density", "statement": "The pre-weight of the linear-Gaussian proposal equals the log predictive density of the observation given the previous particle.", "quantifier": "every model coefficients, every previous particle", "why_tests_cant": "True for random walks, false for mean-reverting models; tests use one model.", "anchors": ["pyfilter/filters/particle/proposals/linear.py: pre_weight"]}
{"id": "C65", "title": "Mode finding follows the gradient", "statement": "With default settings the linearised proposal moves its location along the gradient of the log density; with second-order information one step on a concave quadratic reaches the mode, and the resulting variance is always positive.", "quantifier": "every log density, every number of steps, every step size", "why_tests_cant": "The first-order branch drops the gradient for every input; needs a universal statement.", "anchors": ["pyfilter/filters/particle/proposals/linearized.py: ModeFinder"]}
{"id": "C66", "title": "Nested proposals select among their samples", "statement": "The nested proposal returns for every particle one of its own inner samples, with incremental weight log of the mean likelihood of the inner samples, also when some likelihoods are not finite.", "quantifier": "every number of inner samples, every likelihood values, every random outcome", "why_tests_cant": "All non-finite mixtures and random outcomes.", "anchors": ["pyfilter/filters/particle/proposals/nested.py"]}
{"id": "C67", "title": "Equivalence of priors is sound", "statement": "Two priors reported equivalent describe the same distribution; equivalence is symmetric and reflexive.", "quantifier": "every pair of distributions", "why_tests_cant": "Quantifies over all distributions, including wrapped ones.", "anchors": ["pyfilter/inference/prior.py: equivalent_to, _verify_same_prior"]}
{"id": "C68", "title": "The Gaussian particle filter replaces its weights", "statement": "The correct step of GPF stores the proposal's incremental log weights v as the new log weights (nothing is accumulated), reports log((1/N) sum_i exp(v_i)) as the increment, and the new normalised weights are proportional to exp(v_i), whatever the previous weights were.", "quantifier": "every state, every proposal outcome with finite weights", "why_tests_cant": "An identity for all reals and all states.", "anchors": ["pyfilter/filters/particle/gpf.py: GPF.correct"]}
{"id": "C69", "title": "A filter refuses the models its proposal cannot handle", "statement": "initialize_model succeeds exactly when the model has what the configured proposal requires (affine hidden process for the linearised proposals, in addition linear observations for the linear Gaussian ones, nothing for the others); then filter and proposal are bound to the same model and no other setting changes. Otherwise ValueError is raised.", "quantifier": "every filter configuration, every context and model", "why_tests_cant": "Quantifies over all configurations and model classes.", "anchors": ["pyfilter/filters/base.py: initialize_model", "pyfilter/filters/particle/proposals/linear.py: set_model", "pyfilter/filters/particle/proposals/linearized.py: set_model"]}
{"id": "C70", "title": "The default look-ahead function fits the bound model", "statement": "A proposal constructed without a look-ahead function uses, whenever it is bound to a model, the default function for that model's hidden process (the affine mean if it is affine, an error otherwise); one constructed with a user's function always uses that function.", "quantifier": "every proposal class with a look-ahead function, every sequence of models it is bound to", "why_tests_cant": "Concerns sequences of bindings, while tests bind a proposal once.", "anchors": ["pyfilter/filters/particle/proposals/base.py: set_model", "pyfilter/filters/particle/proposals/pre_weight_funcs.py: get_pre_weight_func"]}
{"id": "C71", "title": "Proposals weigh their draws by the importance ratio", "statement": "The incremental log weight a proposal attaches to a drawn particle is log p(y | x) + log p(x | x_prev) - log q(x), where q is the density the particle was drawn from: for the bootstrap proposal the observation density alone (it draws from the transition), for the linearised and Gaussian proposals the ratio with the density of the fitted kernel, whatever kernel was fitted.", "quantifier": "every bootstrap, linearised, Gaussian proposal, every model, state, observation, every random stream", "why_tests_cant": "An identity over all densities and draws; tests look at filter output on a few models.", "anchors": ["pyfilter/filters/particle/proposals/bootstrap.py: Bootstrap", "pyfilter/filters/particle/proposals/base.py: _weight_with_kernel", "pyfilter/filters/particle/proposals/linearized.py: Linearized", "pyfilter/filters/particle/proposals/approximate.py: GaussianProposal"]}
{"id": "C72", "title": "The default look-ahead weight is the likelihood at the predicted mean", "statement": "The default pre_weight of a proposal with an affine hidden process is the log density of the observation evaluated one time step after the given state, at the conditional mean of the hidden process.", "quantifier": "every model with an affine hidden process, every state and observation", "why_tests_cant": "Quantifies over models and states.", "anchors": ["pyfilter/filters/particle/proposals/base.py: pre_weight", "pyfilter/filters/particle/proposals/pre_weight_funcs.py: get_pre_weight_func"]}
{"id": "C73", "title": "The evaluated prior is the sum of the log densities", "statement": "eval_priors returns, for each entry of the batch, the sum over all registered parameters of the log density of that entry's sample under its own prior (of the unconstrained sample under the unconstrained prior if asked for); for a context without parameters it returns 0.", "quantifier": "every context reachable by API calls, both parameterisations", "why_tests_cant": "Quantifies over all histories and all priors.", "anchors": ["pyfilter/inference/context.py: eval_priors", "pyfilter/inference/parameter.py: eval_prior"]}
{"id": "C74", "title": "A loaded context is independent of the one saved", "statement": "After loading the saved dictionary of one context into another, later updates of either context leave the other unchanged.", "quantifier": "every pair of contexts, every later update", "why_tests_cant": "Concerns aliasing of storages, seen only by later in-place updates.", "anchors": ["pyfilter/inference/context.py: state_dict, load_state_dict"]}
{"id": "C75", "title": "A refused dictionary changes nothing", "statement": "When load_state_dict of a context refuses a dictionary, all parameters keep their values.", "quantifier": "every context, every dictionary", "why_tests_cant": "Quantifies over all dictionaries; tests check the exception only.", "anchors": ["pyfilter/inference/context.py: load_state_dict"]}
{"id": "C76", "title": "Quasi-random initialisation inverse-transforms each parameter's slice", "statement": "make_context with quasi randomness: initialize_parameters sets every parameter, in every batch entry, to the image of that parameter's slice of the entry's quasi-random point under the inverse distribution function of its unconstrained prior and the bijection; it works for every prior and touches no other context.", "quantifier": "every context and prior, every engine, with and without randomisation", "why_tests_cant": "Depends on the layout of all registered parameters together and on priors with differing constrained and unconstrained sizes.", "anchors": ["pyfilter/inference/context.py: QuasiInferenceContext.initialize_parameters", "pyfilter/inference/parameter.py: inverse_sample_", "pyfilter/inference/qmc.py"]}
{"id": "C77", "title": "Interval thresholds are the configured ones", "statement": "IntervalThreshold(thresholds, ending).get_threshold(i) returns the threshold configured for the interval containing i, and the ending threshold after the last interval.", "quantifier": "every dictionary of intervals, every ending threshold, every iteration", "why_tests_cant": "The interplay of the floor with the intervals shows only for particular orders of magnitude.", "anchors": ["pyfilter/inference/sequential/threshold.py: IntervalThreshold, Thresholder.get_threshold"]}
{"id": "C78", "title": "ConstantKernel accepts a float or tensor scale", "statement": "Jittering with ConstantKernel(scale) adds noise with standard deviation max(scale, minimum) to the chosen particles, for a float scale as documented and for a tensor.", "quantifier": "every scale, every weighted sample, every index vector", "why_tests_cant": "The kernel has no test; the claim ranges over all scales and samples.", "anchors": ["pyfilter/inference/sequential/kernels/jittering.py: ConstantKernel, JitterKernel.jitter"]}
{"id": "C79", "title": "The first likelihood of a PMMH chain belongs to its first parameters", "statement": "After PMMH.initialize the recorded filter result is the one obtained with the initial parameter values, for every model builder.", "quantifier": "every model builder, every prior draw, every initial mean", "why_tests_cant": "The difference shows only for builders that compute with the parameters and is invisible in shapes.", "anchors": ["pyfilter/inference/batch/mcmc/pmmh.py: PMMH.initialize", "pyfilter/filters/base.py: initialize_model"]}
{"id": "C80", "title": "The gradient proposal is centred at one gradient step", "statement": "Every kernel built by GradientBasedProposal is centred at theta + eps * gradient of the log density at theta, no matter how many kernels were built before.", "quantifier": "every sequence of positions and gradients", "why_tests_cant": "Depends on the whole history of kernels built from the same context.", "anchors": ["pyfilter/inference/batch/mcmc/proposals/gradient.py: GradientBasedProposal.build"]}
{"id": "C81", "title": "Every SMC2 parameter particle has a genuine filter run behind it", "statement": "After fit on data y_1..y_n, the filter state in slot b of SMC2 is the outcome of an actual run of the filter with exactly the parameters in slot b on exactly y_1..y_n, whatever was resampled, proposed, accepted or rerun with more state particles in between.", "quantifier": "every data sequence, every rejuvenation, acceptance and increase pattern, every context", "why_tests_cant": "needs reasoning over all interleavings of resampling, moves and increases; the outcome of a wrong pairing is a plausible number", "anchors": ["pyfilter/inference/sequential/smc2.py: SMC2._step, SMC2.rejuvenate", "pyfilter/inference/sequential/kernels/mh.py", "pyfilter/inference/sequential/base.py: SequentialParticleAlgorithm.initialize"]}
{"id": "C82", "title": "Between rejuvenations every slot is filtered by itself", "statement": "As long as a sequential algorithm does not rejuvenate, the filter state of slot b after more observations depends only on the former filter state of slot b, the parameters of slot b and the observations (and the random numbers of slot b), and the parameters do not change.", "quantifier": "every algorithm, every data sequence without rejuvenation, every slot", "why_tests_cant": "leakage between slots of a batch is invisible in the aggregated estimates checked by tests", "anchors": ["pyfilter/inference/sequential/ness.py: BaseOnlineAlgorithm._step", "pyfilter/inference/sequential/smc2.py: SMC2._step", "pyfilter/inference/sequential/base.py"]}
{"id": "C83", "title": "FixedWidthNESS rejuvenates once per block", "statement": "FixedWidthNESS with block_len k rejuvenates after every k-th observation (and whenever a weight is not finite), and at no other time.", "quantifier": "every block length, every data sequence", "why_tests_cant": "an off-by-one in the schedule changes no test outcome", "anchors": ["pyfilter/inference/sequential/ness.py: FixedWidthNESS.do_update_particles, BaseOnlineAlgorithm._step"]}
{"id": "C84", "title": "The jittering bandwidth follows the effective sample size", "statement": "The shrinking and non-shrinking jittering kernels scale their noise by max(b*r, min_std), where r is the robust standard deviation of the parameter and b = 1.59*ESS^(-1/3), restricted to [eps, 1-eps]; so b never decreases when the effective sample size falls and is smallest for equally weighted particles.", "quantifier": "every weighted sample, every component without ties, both kernels, every noise matrix", "why_tests_cant": "a wrong exponent or effective sample size still gives plausible jittered samples", "anchors": ["pyfilter/inference/sequential/kernels/jittering.py: _BaseShrinkage, ShrinkingKernel, NonShrinkingKernel, robust_var"]}
{"id": "C85", "title": "Resampling is unbiased", "statement": "Averaged over the random numbers it draws, each resampling function returns particle i exactly N*w_i times, where w is the vector of normalised weights: systematic for a uniform offset, multinomial and residual for a torch.multinomial that draws in proportion to its arguments; systematic for normalised and for log weights, alone and for every filter of a batch.", "quantifier": "every number of particles, every weight vector, every particle, every batch", "why_tests_cant": "an average over a continuum of random numbers; a small bias disappears in the noise of a Monte Carlo test", "anchors": ["pyfilter/resampling.py: systematic, multinomial, residual"]}
{"id": "C86", "title": "The likelihood estimate is unbiased", "statement": "For SISR with any resampling threshold and for APF, exp of the summed log-likelihood increments of a run is, on average over all random numbers (initial sample, resampling, propagation, proposal), the likelihood of the observations under the state space model; also with missing observations, with observe_every_step > 1, for every filter of a batch and for any number of particles, whenever resampling selects in proportion to the weights and proposing and weighing is an importance sample of moving and observing. In particular for the bootstrap proposal with systematic resampling and independent uniform offsets.", "quantifier": "every series of observations, every number of particles and filters, every threshold, every model with finite log densities", "why_tests_cant": "an average over all random numbers of a whole run; a bias is invisible in any single run", "anchors": ["pyfilter/filters/particle/sisr.py", "pyfilter/filters/particle/apf.py", "pyfilter/filters/particle/base.py", "pyfilter/filters/base.py: BaseFilter.batch_filter, BaseFilter.filter", "pyfilter/filters/particle/proposals/bootstrap.py", "pyfilter/resampling.py: systematic"]}
{"id": "C87", "title": "PMMH samples from the posterior, however few particles it has", "statement": "With the random walk proposal, the distribution of parameters and filter results whose density is prior times estimated likelihood is stationary under the iterations of PMMH: if a chain starts from it, the average of every function of the chain is the same after any number of iterations. If the filters' estimates are unbiased, its parameters follow the exact posterior (prior times likelihood), also with few particles; in particular with bootstrap SISR or APF filters and systematic resampling.", "quantifier": "every number of chains, iterations and particles, every prior and model with log densities below infinity (zero densities included), every reference measure for which the walk is symmetric", "why_tests_cant": "a statement about the long-run distribution of a random chain; errors in the acceptance rule, in keeping estimate and parameter together, or in the re-centring of the walk only shift the posterior", "anchors": ["pyfilter/inference/batch/mcmc/pmmh.py: PMMH.fit", "pyfilter/inference/batch/mcmc/utils.py: run_pmmh", "pyfilter/inference/batch/mcmc/proposals/random_walk.py: RandomWalk", "pyfilter/filters/particle/sisr.py", "pyfilter/filters/particle/apf.py"]}
{"id": "C88", "title": "Collectors record posterior averages after every observation", "statement": "With MeanCollector, ParameterPosterior or Standardizer registered, a fit appends exactly one entry per observation to filter_means, parameter_means or standardized in the state's tensor_tuples; entry i is, component by component, the average over the parameter particles, with the weights of the state after observation i, of the filter means, of the parameters, and of the filters' average residuals; and the collectors change nothing else about the run.", "quantifier": "every algorithm (NESS, FixedWidthNESS, SMC2, combinations), every data sequence, every set of collectors with different names, every number of parameter and state particles", "why_tests_cant": "whether the entry belongs to the state after or before the observation, and averages over the wrong dimension, do not show in the shape or finiteness of the recording", "anchors": ["pyfilter/inference/sequential/collectors.py", "pyfilter/inference/sequential/base.py: SequentialParticleAlgorithm.step, fit", "pyfilter/inference/sequential/kernels/mh.py: ParticleMetropolisHastings._increase_states"]}
{"id": "C89", "title": "get_covariance is the covariance of the particles", "statement": "ParticleFilterCorrection.get_covariance() returns, for every filter of the batch, the d by d covariance matrix of the particles under the normalised weights (for scalar states, the variance); the mean, variance and covariance of get_filter_mean_and_variance are the weighted ones for vectors, too, and for every batch shape.", "quantifier": "every number of particles, every dimension of the state, every batch shape, all weights and values", "why_tests_cant": "the outcome depends on how shapes combine, so it differs between sizes, and a wrong broadcast may still return a tensor of the right shape", "anchors": ["pyfilter/filters/particle/state.py: ParticleFilterCorrection.get_covariance", "pyfilter/filters/particle/utils.py: get_filter_mean_and_variance"]}
{"id": "C90", "title": "The look-ahead weight of the linear proposal works for every combination of dimensions", "statement": "LinearGaussianObservations.pre_weight evaluates, for every particle of every filter, the Gaussian with mean b + A x and covariance S + A H A', for scalar and vector states combined with scalar and vector observations, whichever parameters have batch dimensions.", "quantifier": "every dimension of state and observation, every batch shape, every mix of parameters with and without batch dimensions", "why_tests_cant": "four combinations of dimensions times any batch shape; in the wrong combination broadcasting can succeed for special sizes", "anchors": ["pyfilter/filters/particle/proposals/linear.py: LinearGaussianObservations.pre_weight", "pyfilter/utils.py: construct_diag_from_flat"]}
{"id": "C91", "title": "The kernel of the linear proposal works for every combination of dimensions", "statement": "LinearGaussianObservations draws every particle of every filter from the Gaussian with precision H^-1 + A' S^-1 A and the matching mean, for scalar and vector states combined with scalar and vector observations, whichever of the parameters (A, b, S) and of mean and scale of the hidden process have batch dimensions.", "quantifier": "every dimension of state and observation, every batch shape, every mix of parameters with and without batch dimensions", "why_tests_cant": "four combinations of dimensions times any batch shape; with a batched offset the product with the observation succeeds for special sizes and is then wrong", "anchors": ["pyfilter/filters/particle/proposals/linear.py: LinearGaussianObservations.sample_and_weight", "pyfilter/filters/particle/proposals/utils.py: find_optimal_density", "pyfilter/utils.py: construct_diag_from_flat"]}
{"id": "C92", "title": "The combined algorithms can be built with every option of their parts", "statement": "Within an inference context, `NESSMC2(filter_, particles, switch, smc2_kw, ness_kw)` builds an SMC2 and a NESS around the same filter, context and number of particles, in which every keyword given in `smc2_kw`/`ness_kw` has the given value and every other one the documented default; a keyword that the parts do not know is refused with an error. `SMC2FW` does the same with a FixedWidthNESS as second part.", "quantifier": "for all filters, particle counts, switch times, all keyword dictionaries with distinct keys, with or without an active context", "why_tests_cant": "Keyword arguments travel through four constructors that each take some, rename some and pass on the rest; tests build one or two particular combinations.", "anchors": ["pyfilter/inference/sequential/nessmc2.py: NESSMC2", "pyfilter/inference/sequential/smc2fw.py: SMC2FW.make_second", "pyfilter/inference/sequential/base.py: CombinedSequentialParticleAlgorithm.__init__", "pyfilter/inference/sequential/smc2.py: SMC2.__init__", "pyfilter/inference/sequential/kernels/mh.py: ParticleMetropolisHastings.__init__"]}
{"id": "C93", "title": "Logging observes a fit and does not influence it", "statement": "With a logger `DefaultLogger(func, k)` passed to `fit`, `func` is called with the state after every iteration whose number is a multiple of k (sequential algorithms count observations from one, PMMH counts samples from zero), in order and exactly once each; the returned state, or the exception, is that of the fit without a logger, if `func` only looks; the logger is initialised once with the number of iterations and torn down once at the end, whatever the algorithm or `func` raise; the progress bar ends at its total if the fit succeeds.", "quantifier": "for all algorithms, data, loggers, frequencies, including raising functions and failing algorithms", "why_tests_cant": "Iterations come from a counter in the state that other components advance; tests use the default progress bar and look at nothing of it.", "anchors": ["pyfilter/inference/logging.py: DefaultLogger, TQDMWrapper", "pyfilter/inference/sequential/base.py: SequentialParticleAlgorithm.fit", "pyfilter/inference/batch/mcmc/pmmh.py: PMMH.fit"]}
{"id": "C94", "title": "SISR estimates converge to the exact filter as the number of particles grows", "statement": "For `SISR` with multinomial resampling (or any resampling function whose mean square error vanishes like 1/N, see C95), an ESS threshold that is a fixed share of the particles, and an observation density bounded by a constant G: the mean square error of the likelihood estimate `exp(result.loglikelihood)` is at most c/N with c depending only on G, the threshold and the number of time steps, so the probability of any given error tends to zero; likewise the weighted mean of a bounded quantity over the particles of the last state converges to its mean given the observations at rate 1/N; in every filter of a batch, with missing observations and any observe_every_step.", "quantifier": "for all N, batch sizes, data with missing values, models with bounded density, thresholds, bounded quantities", "why_tests_cant": "The statement is about the distribution of a random result in the limit of many particles; a test runs finitely many seeds with a tolerance.", "anchors": ["pyfilter/filters/particle/sisr.py: SISR", "pyfilter/filters/base.py: BaseFilter.batch_filter, filter", "pyfilter/filters/particle/proposals/bootstrap.py: Bootstrap.sample_and_weight", "pyfilter/resampling.py: multinomial"]}
{"id": "C95", "title": "Resampling keeps weighted means up to an error that vanishes with the number of particles", "statement": "For `multinomial`, `residual` and `systematic`: replacing the weighted particles by the equally weighted selected ones changes the mean of a bounded quantity F by an error whose mean square is at most sup|F|^2/N; for `multinomial` it is exactly the weighted variance of F over N; for a batch the filters are resampled separately.", "quantifier": "for all N, weights, quantities, draws", "why_tests_cant": "The error is a random variable whose size must be judged against N for all weights; the tests compare selected indices for one weight vector.", "anchors": ["pyfilter/resampling.py: multinomial, residual, systematic"]}
{"id": "C96", "title": "Systematic resampling returns valid indices in floating point arithmetic", "statement": "In float32, float64 (or any other binary floating point format) `systematic` returns N sorted indices below N, for every list of log weights or weights (NaN, infinities, zeros, unnormalised ones included), every offset in [0, 1] of the dtype, however the device accumulates, exponentiates and divides.", "quantifier": "every format with a sensible exponent range, every N up to 2^precision, every weight list, every offset, every accumulation", "why_tests_cant": "An index N (out of range) would come from one rounding error in one of N positions for particular N and u; a test sees a handful of them.", "anchors": ["pyfilter/resampling.py: systematic, _wrapper", "pyfilter/utils.py: normalize"]}
{"id": "C97", "title": "Systematic resampling copies each particle N*w times up to one, in floating point arithmetic", "statement": "In floating point arithmetic particle i is selected N*w_i times up to one plus a bound on the rounding errors (w_i the exact normalised weight); a particle of weight zero is never selected.", "quantifier": "every format, every N, every usable list of log weights, every offset, division or multiplication by the reciprocal", "why_tests_cant": "The rounding errors accumulate over N running sums; an excess shows for particular weights and offsets only.", "anchors": ["pyfilter/resampling.py: systematic", "pyfilter/utils.py: normalize"]}
{"id": "C98", "title": "Normalising is accurate in floating point arithmetic", "statement": "In floating point arithmetic normalised weights are finite, between 0 and 1, add up to one up to 4N units of rounding and agree with exp(log weight)/sum up to an error of order N times that of the exponential function and the rounding; whatever the range of the log weights (no overflow, no division by zero), in whichever order the device adds up.", "quantifier": "every format, every N with N units of rounding below 1/8, every list of log weights with one usable entry, every order of summation", "why_tests_cant": "Overflow and cancellation occur for extreme log weights only, the error depends on all of them.", "anchors": ["pyfilter/utils.py: normalize"]}
{"id": "C99", "title": "The effective sample size is accurate in floating point arithmetic", "statement": "In floating point arithmetic get_ess of log weights with a usable entry is a finite number, between 1 and N, and its reciprocal is the sum of the squares of the exact normalised weights up to rounding errors.", "quantifier": "every format, every N with N units of rounding below 1/64, every list of log weights with one usable entry, every order of summation", "why_tests_cant": "The squares may underflow, the sum is rounded N times; the bound has to hold for all weights.", "anchors": ["pyfilter/utils.py: get_ess, normalize"]}
{"id": "C100", "title": "Residual resampling works in floating point arithmetic", "statement": "In floating point arithmetic `residual` returns N valid indices with at least floor(N*w_i) copies of particle i up to rounding, for every list of log weights with a usable entry.", "quantifier": "every format, every N, every list of log weights with one usable entry, every draw", "why_tests_cant": "Whether N times the rounded 1/N is below one depends on N; the test uses random weights.", "anchors": ["pyfilter/resampling.py: residual, _wrapper", "pyfilter/utils.py: normalize"]}
{"id": "C101", "title": "Backward sampling draws trajectories from the smoothing distribution", "statement": "`smooth(states, 'ffbs')`: averaged over the draws, the mean of any function of the returned trajectories is its mean under the chain that starts at the last state with the filter weights and moves back from x at time t+1 to particle k at time t with probability proportional to W_k f(x | x_k); if the recorded states are those of the exact filter of a process with finitely many values, recorded at every time, this is the posterior of the whole path given all observations.", "quantifier": "for all models, recorded states with finite log weights, numbers of particles and parallel filters, functions of the path, fair resampling functions", "why_tests_cant": "It is the joint distribution of a random path of arbitrary length; the tests compare means of smoothed states with a Kalman smoother within a tolerance for one model.", "anchors": ["pyfilter/filters/particle/base.py: _do_sample_ffbs, smooth", "pyfilter/filters/base.py: BaseFilter.__init__ (record_intermediary_states)"]}
{"id": "C102", "title": "The pyro factor is the mean complete log density of smoothed trajectories", "statement": "`do_sample_pyro` registers, as factor, the mean over trajectories drawn by backward sampling of log p(x_0) + sum_t log p(x_t | x_{t-1}) + sum_q log p(y_q | x at the time of y_q), for any observe_every_step and any observations the filters accept; it refuses filters that do not record all states and methods other than `ffbs` (in any letter case).", "quantifier": "for all models, numbers of particles, observations, observe_every_step, draws", "why_tests_cant": "Which state meets which observation depends on strides and broadcasting over all lengths; a wrong pairing gives a plausible number. The tests run one optimisation.", "anchors": ["pyfilter/filters/particle/base.py: _do_pyro_ffbs, do_sample_pyro"]}
{"id": "C103", "title": "The gradient proposal steps along the gradient of the log posterior", "statement": "`GradientBasedProposal.build` returns a kernel on the unconstrained parameters centred, on average over the draws of the smoother, at theta + eps * grad S(theta), S(theta) = log p_theta(y) + log p(theta), if the filter is exact; for any observe_every_step and any constraint on the parameter.", "quantifier": "for all differentiable models with finitely many values of the hidden process, observations, step sizes, draws", "why_tests_cant": "The average over smoothed trajectories of a gradient of another function (the complete log density) has to equal the gradient of the log likelihood (Fisher's identity); a test sees single noisy draws.", "anchors": ["pyfilter/inference/batch/mcmc/proposals/gradient.py: _model_likelihood, GradientBasedProposal.build"]}
{"id": "C104", "title": "The proposal of SMC2 has the mean and covariance of the weighted parameters", "statement": "`construct_mvn(x, w, scale)` returns a normal distribution whose mean is the weighted mean of the rows of x and whose covariance is scale^2 times their weighted covariance, and samples of it have that mean and covariance; `SymmetricMH.build` returns the one with scale 1.1, whatever the weights of the parameter particles.", "quantifier": "for all numbers of particles and of parameters, all particles, all normalised weights, all positive scales", "why_tests_cant": "Whether the covariance has a Cholesky factor depends on the rank of the weighted particles, which degenerates just when weights do; tests use well spread particles.", "anchors": ["pyfilter/inference/utils.py: calc_mean_chol, construct_mvn, QuasiMultivariateNormal.sample", "pyfilter/inference/batch/mcmc/proposals/symmetric_mh.py: SymmetricMH.build"]}
{"id": "C105", "title": "Parameter particles carry the right weights on average", "statement": "Parameters drawn from the prior and weighted by SMC2 or NESS represent prior times likelihood: on average over the prior draws and everything random in the filters, weight times h(theta) is the integral of prior times likelihood times h, and the mean weight is the evidence; doubling the number of state particles keeps this, whatever filters were used before.", "quantifier": "for all models whose filters estimate the likelihood without bias, all numbers of particles, observations, functions h", "why_tests_cant": "Unbiasedness of an importance weight is a statement about an average over the prior and all random numbers of the filters; runs of a test have one.", "anchors": ["pyfilter/inference/sequential/base.py", "pyfilter/inference/sequential/state.py: append", "pyfilter/inference/sequential/ness.py", "pyfilter/inference/sequential/smc2.py", "pyfilter/inference/sequential/kernels/mh.py: _increase_states"]}
{"id": "C106", "title": "Without rejuvenation, posterior means and the evidence converge as the number of parameter particles grows", "statement": "A fit that does not rejuvenate (FixedWidthNESS with a block longer than the data, thresholds below one over the number of particles) of independent parameter particles drawn from the prior is importance sampling: the mean of the weights has mean square error (V - Z^2) / B around the evidence Z, and the mean of a bounded h under the normalised weights has mean square error at most c / B around its posterior mean, with c explicit, however few state particles there are.", "quantifier": "for all numbers B of parameter particles and of state particles, models, observations, bounded h, whenever the filters' estimates are unbiased with finite second moments", "why_tests_cant": "A rate of convergence over all random numbers and all B is not observable in a run.", "anchors": ["pyfilter/inference/sequential/base.py: SequentialParticleAlgorithm.fit", "pyfilter/inference/sequential/state.py: append, normalized_weights", "pyfilter/inference/sequential/ness.py", "pyfilter/inference/sequential/smc2.py"]}
{"id": "C107", "title": "A posterior plot shows every component once, with the weights of the state", "statement": "mimic_arviz_posterior draws each component of each parameter on an axis of its own, in order, on the scale asked for, with the normalised weights and a title that identifies it; what was drawn before stays, unused axes are switched off, and the arguments of the caller are left alone.", "quantifier": "for all contexts, weights, numbers of columns, given axes and choices of scales", "why_tests_cant": "Plots are looked at, not tested; shapes of parameters and choices of axes cannot be enumerated.", "anchors": ["pyfilter/inference/plot.py: mimic_arviz_posterior, _do_plot", "pyfilter/inference/prior.py: get_numel, get_unconstrained"]}
{"id": "C108", "title": "Rejuvenating parameters with SMC2 keeps the target", "statement": "If the weighted parameter particles of SMC2 (with their filters) represent prior times estimated likelihood - weighted sums over them are right on average - then after ParticleMetropolisHastings.update, which resamples the particles and moves them by PMMH steps, the particles with weights set to zero still do: their plain mean of any function, times the mean weight before, is right on average, for any number of moves. This needs a proposal whose kernel does not depend on the particles in a way the acceptance ratio ignores.", "quantifier": "for all models, priors, filters, proposals, populations, numbers of particles and moves, and functions of parameters and filter", "why_tests_cant": "A wrong acceptance ratio or resampling shifts posteriors by an amount that a test on random data cannot tell from Monte Carlo error; the claim is about averages over all draws.", "anchors": ["pyfilter/inference/sequential/kernels/mh.py:50-136", "pyfilter/inference/batch/mcmc/utils.py:run_pmmh", "pyfilter/inference/sequential/kernels/base.py:23"]}
{"id": "C109", "title": "APF converges, and so does SISR whatever its threshold", "statement": "For the auxiliary particle filter `APF` and for `SISR` with any ESS threshold - one that resamples at every step, sometimes, or never - with multinomial resampling (or any whose mean square error vanishes like 1/N): the likelihood estimate `exp(result.loglikelihood)` has mean square error at most c/N around the likelihood, with c depending only on bounds of the weights and the number of time steps, not on N or the threshold; the weighted mean of a bounded quantity in the last state converges to its mean given the observations at rate 1/N. APF needs in addition that the importance weight of a particle is at most a constant times the look-ahead weight it was selected by.", "quantifier": "for all N, batch sizes, data with missing values, thresholds, models with bounded weights, bounded quantities", "why_tests_cant": "A rate over all random numbers and all N is not observable in a run; a filter whose second-stage weights forget to divide by the look-ahead weights also gives plausible results on a short series.", "anchors": ["pyfilter/filters/particle/apf.py: APF.predict, correct", "pyfilter/filters/particle/sisr.py: SISR", "pyfilter/filters/base.py: BaseFilter.batch_filter, filter", "pyfilter/resampling.py: multinomial"]}
{"id": "C110", "title": "The log-likelihood of a step is accurate in floating point arithmetic", "statement": "`log_likelihood(importance_weights, weights)` on float32 or float64 tensors: with log importance weights that are numbers or -inf (at least one number, below a quarter of the largest number of the dtype), it returns a finite number that differs from log(sum_i w_i exp(x_i)) by rounding only - relative to its own size, plus a bound made of the accuracy of exp and log, the number of particles and the unit roundoff - for every order of summation and whatever the spread of the x_i; without weights this needs nothing else, with weights it is expected whenever the particles with weight have finite importance weights.", "quantifier": "for all lists of log weights and weights, all binary formats, all exp, log and sum functions within the stated error", "why_tests_cant": "Underflow, cancellation and order of summation depend on values and device; a test sees a few random inputs of moderate size.", "anchors": ["pyfilter/filters/particle/utils.py:7-22 log_likelihood", "pyfilter/filters/particle/sisr.py: SISR.correct", "pyfilter/filters/particle/apf.py: APF.correct"]}
{"id": "C111", "title": "Forecasts from the latest state converge to the predictive means", "statement": "`result.latest_state.predict_path(model, num_steps)` simulates the hidden process onwards from the particles: the mean of a bounded quantity h steps ahead, taken under the weights of the state, converges to the mean of that quantity given the observations, with a mean square error of order 1/N for SISR with any threshold and for APF; the plain mean over the returned paths is expected to do so as well.", "quantifier": "for all N, batch sizes, data with missing values, horizons, thresholds, models with bounded weights, bounded quantities", "why_tests_cant": "The test of predict_path checks the shape of the paths only; a bias of the mean over the paths and a rate in N are not visible in it.", "anchors": ["pyfilter/filters/particle/state.py:173-174 ParticleFilterCorrection.predict_path", "pyfilter/filters/state.py:87 Correction.predict_path", "tests/filters/test_particle.py:111-135", "pyfilter/filters/base.py: BaseFilter.batch_filter"]}
{"id": "C112", "title": "A whole SMC2 fit is right on average: evidence times weighted means of the final particles equal prior times likelihood", "statement": "Fitting SMC2 on any number of observations, with any number of parameter and state particles: the mean weights at the rejuvenations, multiplied, times the weighted mean of a quantity over the final particles is on average the integral of that quantity against prior times likelihood; in particular the product is an unbiased estimate of the evidence. Expected for rejuvenation at fixed times and when the effective sample size decides.", "quantifier": "for all numbers of particles, of moves and of observations, all data, models with unbiased likelihood estimates, all testable quantities, all draws", "why_tests_cant": "The estimate is random, its mean is over all prior draws, filters, resamplings and moves; a run of the tests looks at one fit with a tolerance.", "anchors": ["pyfilter/inference/sequential/base.py: SequentialParticleAlgorithm.initialize/step", "pyfilter/inference/sequential/smc2.py: SMC2.step/rejuvenate", "pyfilter/inference/sequential/state.py: SequentialAlgorithmState.update", "pyfilter/inference/sequential/kernels/mh.py: ParticleMetropolisHastings.update", "pyfilter/inference/base.py: fit"]}
{"id": "C113", "title": "SMC2 converges as the number of parameter particles grows, with rejuvenation triggered by the effective sample size", "statement": "Fitting SMC2 with B parameter particles on any number of observations, with any thresholds for the effective sample size, any number of PMMH moves per rejuvenation and a resampling function whose mean square error is of order 1/B (multinomial or residual, drawn with independent numbers): although the fit is biased for fixed B (C112), the estimate of the evidence and of posterior means of bounded quantities with the normalised weights have a mean square error of at most K/B, where K depends on the bounds for the likelihoods, the quantity and the resampling and on the numbers of observations and moves, but not on B, the thresholds, the model or the number of state particles; so the probability to be off by eps or more is at most K/(eps^2 B).", "quantifier": "for all B, data, thresholds, numbers of moves, callbacks, models with likelihood estimates that are unbiased and bounded, bounded quantities, all draws", "why_tests_cant": "A rate in the number of particles over all random numbers is not observable in a run; that the decision to rejuvenate depends on the particles makes the standard argument for fixed schedules fail.", "anchors": ["pyfilter/inference/sequential/base.py: SequentialParticleAlgorithm.initialize/step", "pyfilter/inference/sequential/smc2.py: SMC2.step/rejuvenate", "pyfilter/inference/sequential/state.py: normalized_weights, update", "pyfilter/inference/sequential/kernels/mh.py: ParticleMetropolisHastings.update", "pyfilter/resampling.py:55-65 multinomial"]}
{"id": "C114", "title": "A prior moved to another device is the same prior", "statement": "`prior.to(device)` and `prior.cuda()` return a distribution of the same class whose arguments are the same numbers, all on the device, and which treats arguments as before (validated or not); moving it back to the cpu gives the original arguments. Expected for every distribution that can be used as a prior.", "quantifier": "for all distribution classes, arguments and their broadcasting, devices, settings of validation", "why_tests_cant": "The tests run on one device and do not call `to`; whether a class can be moved depends on how its constructor relates to its arg_constraints, class by class.", "anchors": ["pyfilter/inference/prior.py:161-192 PriorMixin.to, cuda"]}
{"id": "C115", "title": "Patching the prior methods into torch's Distribution overrides nothing and happens once", "statement": "`patch(PriorMixin, Distribution)` gives the class every public method that the mixin defines itself and that the class does not have, changes no attribute that the class has or inherits, adds nothing private and nothing else; patching again changes nothing; of two mixins with a method of the same name the one patched first provides it; and a mixin can be patched into several classes.", "quantifier": "for all classes, mixins, inherited attributes and orders of patching", "why_tests_cant": "Importing the package patches once, before any test runs; which names collide depends on the installed version of torch and pyro.", "anchors": ["pyfilter/inference/prior.py:195-225 applied_patches, patch, get_raw_method"]}
{"id": "C116", "title": "Filter means and variances are accurate in floating point arithmetic", "statement": "`filter_means` and `filter_variance` are computed in float32 or float64, with any order of summation: for finite particles and at least one usable log weight they are finite, the variance is not negative, the mean is the weighted average of the particles up to a few units in the last place times their number and average size, and the error of the variance is relative to the variance itself plus the square of the error of the mean, however far from zero the particles are; the mean lies between the smallest and the largest particle and identical particles have variance zero.", "quantifier": "for all binary floating point formats, particles, log weights, exponential functions of a given accuracy, orders of summation", "why_tests_cant": "Tests compare with a tolerance on a few seeds; cancellation and the growth of the error with the number of particles show up only for particular sizes and scales.", "anchors": ["pyfilter/filters/particle/utils.py:26-65 get_filter_mean_and_variance", "pyfilter/filters/particle/state.py:88-96 ParticleFilterCorrection mean and variance", "pyfilter/utils.py normalize"]}
{"id": "C117", "title": "Fixed-lag trajectories converge to the distribution of the path given the observations", "statement": "After filtering with the auxiliary particle filter, or with SISR resampling at every step, with all states recorded, the mean of a bounded function of the whole path over the trajectories `smooth(states, method=\"fl\")` returns, weighted with the weights of the last state, has a mean square error of at most K/n around its mean given all observations, where K does not depend on the number n of particles. Expected for the plain average over the trajectories as well, as for method ffbs and as the tests take it.", "quantifier": "for all n, numbers of parallel filters, data with missing values, observation frequencies, models with bounded densities, bounded functions of the path, all draws", "why_tests_cant": "A rate over all random numbers is not observable in a run; the tests average ten values of a few seeds with a wide tolerance, for observations so precise that the proposal hides the missing weights.", "anchors": ["pyfilter/filters/particle/base.py:130-146 _do_sample_fl", "pyfilter/filters/particle/base.py:149-157 smooth", "pyfilter/filters/particle/apf.py", "pyfilter/filters/particle/sisr.py", "tests/filters/test_particle.py:176-209"]}
{"id": "C118", "title": "Silverman's factor is the best bandwidth; Scott's is 1.059 times a power of the sample size", "statement": "silverman(n, ess) is the one bandwidth with the least asymptotic mean integrated squared error of a Gaussian kernel density estimate from ess samples of an n-dimensional normal with unit covariance. scott(n, ess) to the power n+4, divided by 1.059^(n+4), is 1/ess: within a tenth of a percent below the best bandwidth for n = 1, 5.9 percent above it for n = 2, more than 5.9 percent above it for n > 2. Both decrease as ess grows.", "quantifier": "every dimension and every positive effective sample size", "why_tests_cant": "a wrong exponent gives plausible bandwidths; being the best among all bandwidths is not a finite check", "anchors": ["pyfilter/inference/sequential/kernels/jittering.py: silverman, scott"]}
{"id": "C119", "title": "Quasi-random normal samples are the inverse images of successive points of the engine", "statement": "QuasiMultivariateNormal.sample: over any sequence of calls with any sample shapes, the k-th sample is loc + scale_tril z, where the normal distribution function of z is the k-th point of the engine (shifted by one rotation vector modulo one if randomised, moved towards one half). No two samples coincide unless the engine repeats a point.", "quantifier": "every engine, location, invertible lower triangular factor and sequence of sample shapes, with and without randomisation", "why_tests_cant": "a sampler that reuses points, drops the quantile or transposes the factor still returns finite samples of the right shape", "anchors": ["pyfilter/inference/utils.py: QuasiMultivariateNormal.sample", "pyfilter/inference/qmc.py: EngineContainer.sample"]}
{"id": "C120", "title": "GaussianLinear samples from the posterior of its moment approximation", "statement": "For a normal transition and linear normal observations, GaussianLinear draws every particle from the posterior of a normal state given the observation, where the mean and variance of that state are those of the next state under the weighted particles: the transition applied to the particles, plus the transition variance. GaussianLinearized moves from the transition mean up the gradient of the log likelihood plus the log density of the normal with the moments of the propagated particles, and with second order information and linear observations draws from the exact posterior for those moments.", "quantifier": "every weighted particle cloud, model with normal transition and linear normal observations, every observation and noise", "why_tests_cant": "An identity of densities over all values; a wrong variance only makes the filter less efficient, because the importance weights correct for it.", "anchors": ["pyfilter/filters/particle/proposals/approximate.py: GaussianLinear.sample_and_weight", "pyfilter/filters/particle/proposals/utils.py: find_optimal_density"]}
{"id": "C121", "title": "Residual and systematic resampling are at least as accurate as multinomial resampling", "statement": "For given normalised weights, the mean of a function over the particles selected by `residual` or by `systematic` (the default of the filters) has a mean squared error around the weighted mean that is at most that of `multinomial`; for `residual` the error is that of drawing what the whole copies leave over, in proportion to the fractional parts of N times the weights.", "quantifier": "every number of particles, every weight vector, every function of the particles, independent draws of torch.multinomial", "why_tests_cant": "A comparison of expectations over all random numbers, for all weights; each single run can go either way, and the orders of particles for which systematic resampling is worse do not occur in simulated test data.", "anchors": ["pyfilter/resampling.py:24-52 systematic", "pyfilter/resampling.py:55-65 multinomial", "pyfilter/resampling.py:68-105 residual"]}
{"id": "C122", "title": "The recorded chain of PMMH is complete and survives save and load", "statement": "`PMMHResult.samples` holds, for every parameter, the initial value and the value after every iteration, in order, as it was when recorded. A sample that is refused leaves the chain as it was. After `state_dict`, optionally writing to disk, and `load_state_dict` into another result the chain, the filter result and its moments are those of the result saved.", "quantifier": "any number of parameters, chains and iterations, any order of the names in a sample, any result saved and any result loaded into", "why_tests_cant": "No test saves a PMMH result; a chain that is lost on loading shows up only when a long run is resumed or analysed later.", "anchors": ["pyfilter/inference/batch/mcmc/state.py:14-38 PMMHResult", "pyfilter/inference/state.py:39-47 state_dict, load_state_dict", "pyfilter/state.py:32-47", "pyfilter/inference/batch/mcmc/pmmh.py:74,101"]}
