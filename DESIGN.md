# Formal model of pyfilter: design

The code in `/repo` (python, torch) is read as text and modelled by hand in Rocq (Coq 8.16.1).
Nothing of `/repo` is executed. All theorems are about the model.

## Layout

* `rocq/theories/Model/*.v`  - the model: one Gallina definition per python function or method,
  each with a comment citing file and lines; simplifications are named in that comment.
* `rocq/theories/Spec/*.v`   - small independent specifications (no helper of the model is used, except the
  types of its data).
* `rocq/theories/Proofs/*.v` - lemmas, and concrete environments for examples.
* `rocq/theories/Props/*.v`  - the property theorems `Cnn_...`, for each property a concrete non-trivial
  case meeting the hypotheses (`Example Cnn_nonvacuous` and others), and `Print Assumptions`.
* `seeded/LOG.jsonl` - the record of wrong programs: edits of the model that break a property, and the theorems
  that stopped proving; where a theorem survived, what was tightened.

## Modelling choices

* **Exceptions are values**: `res A := Ok a | Raise e`. In-place mutation is modelled by returning the
  new contents, also when an exception is raised on the way; where *sharing* of tensors matters (filter results,
  saved dictionaries, contexts) by an explicit heap of tensor objects.
* **Numbers**: `xf := Fin r | PInf | NInf | NaN`, `r` an exact real; IEEE rules for the non-finite values.
  Rounding, overflow and underflow are *not* modelled in these files (trusted simplification); index validity of
  systematic resampling is therefore proved for arbitrary cumulative sums, whatever rounding did. A second model of
  normalize, get_ess and the resampling functions has IEEE-754 numbers with rounding (Flocq), see C96-C100. Quasi-random
  numbers, thresholds and jittering kernels are over the reals without NaN.
* **Randomness and the external libraries** (torch samplers, stochproc models, pyro distributions) are
  explicit function arguments, quantified universally; a contract of a library function that a theorem
  needs is a visible hypothesis of that theorem.
* **Tensors**: vectors are lists (dimension 0 = particles, or = batch, as stated); (N x B) arrays are an index
  function with explicit sizes; event dimensions are an abstract cell type unless they matter.
* **Contexts** have their batch dimensions flattened (a parameter is a list of rows); `copy_` does not broadcast.
  In PMMH and the sequential algorithms a context is the list of its rows and a filter result the list of the
  results of its parallel filters; C33-C36 and C40-C43 are what justifies this.
* **Threads** are identifiers; a thread-local variable is a map from identifiers.

## Statuses

`proved`: the property as stated in properties.jsonl is proved of the model.
`partial`: either only a part is proved (theorem names end in `_partial`), or the property as a user would
expect it is **false of the code**; then there is a theorem `..._refuted` with a concrete witness,
next to the strongest true version that was found. The note in MANIFEST.json says which.

## The properties one by one

For each: model files, what is modelled and how it is proved. Theorem names are in MANIFEST.json and in the
table of assumptions below.

**C01 Recording window keeps exactly the newest entries** (proved; Container). The bounded deque as a list with a capacity; induction on the history of appends: the contents are the last min(n, capacity) values.

**C02 Named recordings survive save and load** (proved; Container). String-level model of the key codec (format, replace, split, int). Round trip by lemmas about these string functions, under the exact condition on names; a name containing `tensor_` or `__` breaks it.

**C03 A saved state can be loaded more than once** (partial; Container). load_state_dict works on the caller's dictionary and pops; the second load is characterised exactly (a no-op).

**C04 A container behaves as a map from names to recordings** (proved; Container). Histories of operations (add, append, pop, ...) are refined to an abstract map from names to lists.

**C05 Normalised weights form a probability vector proportional to exp(log-weight)** (proved; Weights). normalize on lists of `xf` including the change of its argument; probabilities are the exponentials divided by their sum.

**C06 Fully degenerate weights fall back to uniform** (partial; Weights). Case analysis of normalize on weights without a usable entry.

**C07 Normalising is repeatable** (proved; Weights). Two and three calls of normalize in a row on the (changed) argument.

**C08 Effective sample size lies between 1 and N** (proved; Weights). Cauchy-Schwarz with both equality cases, for normalised and for log weights.

**C09 The log-likelihood estimate is the log of the weighted mean of the importance weights** (proved; Weights). log_likelihood equals the log of the weighted mean of exponentials, for finite and infinite arguments; bounds and shifts follow.

**C10 Filter moments are the weighted mean and variance** (proved; Weights). Weighted sums over the reals; variances and covariance matrix.

**C11 Systematic resampling returns sorted, valid indices whatever the weights are** (proved; Resampling). Binary search model of torch.searchsorted on arbitrary (not even sorted) cumulative sums whose last entry is one.

**C12 Systematic resampling copies each particle N*w times, up to one** (proved; Resampling). Counting integers in an interval.

**C13 A zero-weight particle is never resampled** (partial; Resampling). Exact condition under which a particle of weight zero is selected.

**C14 The test offset u is honoured** (partial; Resampling). Model of the decorator that passes on arguments.

**C15 Residual resampling keeps at least floor(N*w) copies** (proved; Resampling). Floor counts plus an arbitrary outcome of the multinomial part (by its contract).

**C16 Systematic resampling agrees with the textbook two-pointer algorithm** (proved; Resampling). A textbook two-pointer algorithm (Spec/ResamplingSpec.v) gives the same indices if there are no ties.

**C17 Resampling a batch equals resampling each column** (proved; Resampling). Column-wise reading of the batched function.

**C18 SISR resamples exactly the filters whose ESS is below the threshold** (proved; Particle). Mask, masked selection and masked scatter as row-major consumption, on (N x B) matrices.

**C19 Parallel filters do not influence one another** (proved; Particle). Runs from two initial states that agree in one column agree in it ever after; contracts of resampler, proposal and model as column-wise functions.

**C20 SISR's correction is importance sampling** (proved; Particle). Weights after a step of SISR against an independent statement of importance sampling, resampled or not.

**C21 APF's correction divides out the look-ahead weights** (proved; Particle). The same for the auxiliary particle filter: previous weight times likelihood ratio over look-ahead weight.

**C22 Fixed-lag smoothing follows true ancestors (APF)** (proved; Smoothing, Particle). The run is repeated on particles carrying their whole past; the fixed-lag smoother returns these pasts.

**C23 Fixed-lag smoothing follows true ancestors (SISR)** (partial; Smoothing, Particle). As C22 for SISR: a three-step counterexample, and the theorem for runs in which every step resamples or records the identity.

**C24 A missing observation does not change the likelihood** (proved; FilterLoop). NaN observations in the loop of filters/base.py for every filter of the model.

**C25 The imputation strategy is honoured** (partial; FilterLoop). The configured strategy is stored but not looked at: every run with `impute` equals the one with `skip`.

**C26 Time advances by the observation interval** (proved; FilterLoop). Well-founded recursion on the time index; one step of the process for each unit of observe_every_step.

**C27 Every proposal advances time by one** (partial; Proposal, FilterLoop). Every proposal's sample_and_weight on the time index.

**C28 A copied filter behaves like the original** (partial; FilterConfig). Configurations reachable by constructor and methods; field by field comparison of the copy.

**C29 Increasing particles keeps the relative threshold** (proved; FilterConfig). The relative threshold is kept while the number of particles changes.

**C30 Backward-sampled trajectories consist of particles** (proved; Smoothing). Forward filtering backward smoothing with arbitrary sampled indices.

**C31 The result's log-likelihood is the sum of the increments** (proved; Result). Heap of tensors and state objects; invariant over all operation histories.

**C32 A run can be continued from a saved state** (partial; Result). Continuing a run from its latest state, with the aliasing of the initial log likelihood.

**C33 Resampling a result selects whole parallel filters** (partial; Result). Resampling a result entry by entry in the heap.

**C34 Exchanging results swaps in exactly the masked filters** (partial; Result). Exchange of results in the heap; precise conditions on sharing.

**C35 A result survives save and load** (proved; Result). state_dict and load_state_dict.

**C36 A loaded result is independent of the original** (partial; Result). Which addresses a loaded result shares with the saved one.

**C37 Batch shape is write-once** (proved; Context). The batch shape over all histories of calls.

**C38 A parameter name is bound to one prior** (proved; Context). Registration histories: the first prior is the one kept.

**C39 A refused registration leaves the context usable** (partial; Context). World left behind by a refused registration.

**C40 Stacking and unstacking parameters are inverse** (proved; Context). Slice arithmetic of stacking, constrained and unconstrained.

**C41 A refused parameter update changes nothing** (partial; Context). World left behind by a refused update.

**C42 Resampling a context selects whole parameter particles** (proved; Context). Resampling row by row through the heap; two resamplings compose.

**C43 Exchanging contexts swaps in exactly the masked entries** (partial; Context). Masked exchange through the heap.

**C44 The active context is the innermost one of the current thread** (partial; ContextStack). Thread -> stack map; traces of enter and exit.

**C45 Re-entering a context is harmless** (partial; ContextStack). The same with re-entering.

**C46 Suspending prior verification is scoped** (partial; Context). Blocks as brackets of operation histories, left normally or by an exception at any point.

**C47 A context survives save and load** (partial; Context, Prior). Dictionary of a context, comparison of priors, loading.

**C48 A copied context is equal and independent** (proved; Context). Copy into fresh heap addresses; later changes of either are invisible in the other.

**C49 Quasi-random probabilities stay strictly inside (0,1)** (proved; Qmc). Clamping over the reals.

**C50 Sequential bookkeeping matches the data** (proved; Sequential). State machines of all algorithms with oracles for filter, kernels and proposals; invariant over runs.

**C51 Parameter weights accumulate likelihood since the last rejuvenation** (partial; Sequential). Change of weights along runs without rejuvenation; weights after rejuvenations of both kinds.

**C52 Rejuvenation happens exactly when the ESS is low or weights are unusable** (partial; Sequential). Decision of one step in terms of the recorded ESS and the stored weights, and what is recorded.

**C53 Combined algorithms switch after the configured number of observations** (partial; Sequential). Which of the two algorithms handles which observation, by induction over the run.

**C54 The number of state particles doubles and is capped** (proved; Sequential). Number of particles as initial number times a power of two, along every run.

**C55 The rejuvenation acceptance rate is the average** (proved; Sequential). The running average of the loop in mh.py against the mean of the performed steps.

**C56 Rejuvenation keeps parameters and filter states together** (proved; Sequential). For each slot after a rejuvenation: same former slot, or same accepted proposal (Spec/SequentialSpec.v).

**C57 Callbacks see the current state** (partial; Sequential). List of calls of callbacks along a run; state passed to them.

**C58 A run can be interrupted and resumed at any point** (partial; Sequential). Simulation between the uninterrupted run and the resumed one; the relation says what the saved dictionary and the new object must have in common. Three counterexamples for what is not saved.

**C59 Threshold policies respect their floor and shape** (proved; Threshold). Floor, bounds and monotonicity over the reals.

**C60 Jittering kernels preserve the first two moments** (proved; Jitter). Mean and variance of the jittered particles over an abstract independent standard normal (as linear functionals of first and second moments).

**C61 A Metropolis chain only moves on acceptance and keeps likelihood and parameter together** (proved; Pmmh). Chains, masks, exchange; invariant over fit.

**C62 Acceptance satisfies detailed balance** (partial; Pmmh). Acceptance rule with infinite log densities; detailed balance over the reals; counterexamples with concrete normal densities.

**C63 The linear-Gaussian proposal is optimal** (proved; Proposal, ProposalMx). Product of normal densities completed to a square, in one dimension in the particle model and with mathcomp matrices for vectors.

**C64 The look-ahead weight of the linear proposal is the predictive density** (partial; Proposal, ProposalMx). The look-ahead weight against the predictive density.

**C65 Mode finding follows the gradient** (partial; Mode). Newton steps of the mode finder on quadratics, and step sizes without second order information.

**C66 Nested proposals select among their samples** (proved; Proposal). The selected draw is one of the draws, with weights summed as stated.

**C67 Equivalence of priors is sound** (partial; Prior). The comparison function as a relation.

**C68 The Gaussian particle filter replaces its weights** (proved; Particle). Weights of the Gaussian particle filter.

**C69 A filter refuses the models its proposal cannot handle** (proved; FilterConfig). Acceptance conditions of the proposals' set_model.

**C70 The default look-ahead function fits the bound model** (partial; FilterConfig). The default look-ahead function over several bindings.

**C71 Proposals weigh their draws by the importance ratio** (proved; Proposal). Importance ratio of each proposal.

**C72 The default look-ahead weight is the likelihood at the predicted mean** (proved; Proposal). Default look-ahead functions.

**C73 The evaluated prior is the sum of the log densities** (proved; Context). Sum over the parameters.

**C74 A loaded context is independent of the one saved** (partial; Context). Addresses shared after a load.

**C75 A refused dictionary changes nothing** (partial; Context). World left behind by a refused load.

**C76 Quasi-random initialisation inverse-transforms each parameter's slice** (partial; Qmc). Slices of the quasi-random vector and inverse transforms.

**C77 Interval thresholds are the configured ones** (partial; Threshold). Lookup of intervals together with the floor.

**C78 ConstantKernel accepts a float or tensor scale** (partial; Jitter). The branch on the type of the scale.

**C79 The first likelihood of a PMMH chain belongs to its first parameters** (partial; Pmmh). What the model is built from against what the context then holds.

**C80 The gradient proposal is centred at one gradient step** (partial; Pmmh). Accumulation of gradients over calls of build.

**C81 Every SMC2 parameter particle has a genuine filter run behind it** (partial; Sequential). Inductive specification of "a run of the filter with these parameters on these data"; invariant of SMC2 through resampling, moves and increases.

**C82 Between rejuvenations every slot is filtered by itself** (proved; Sequential). Each slot of a run without rejuvenation against the run of that slot alone.

**C83 FixedWidthNESS rejuvenates once per block** (partial; Sequential). Counter of FixedWidthNESS along the run.

**C84 The jittering bandwidth follows the effective sample size** (proved; Jitter). Bandwidth as the cube root of the sum of squared weights (cubes compared, no Rpower in the statement); monotone in that sum; minimal for equal weights by the variance inequality.

**C85 Resampling is unbiased** (proved; Resampling). Expected number of copies: Riemann integral (Coquelicot) of the step function in the offset; averages with respect to an abstract law for torch.multinomial.

**C86 The likelihood estimate is unbiased** (proved; FilterLoop). Average over the random stream defined by iterated averages with respect to laws of single draws; likelihood defined by backward recursion over the transition kernel. Invariant: exp of the increments so far times the weighted particle average of the remaining likelihood; one step of predict, create_state and correct (SISR, APF) preserves its mean; induction over skipped steps and observations. Bootstrap proposal and systematic resampling discharge the contract (C85, C17).

**C87 PMMH samples from the posterior, however few particles it has** (proved; Pmmh, FilterLoop). Chain b of the modelled loop, on average over proposal noise, filter noise and uniform numbers; acceptance turned into the Metropolis probability (Riemann integral over the uniform number), whose flow min(density here, density there) is symmetric; induction over iterations. The reference measure is abstract (an integral with the contract that point and candidate can be exchanged); Lebesgue measure with a normal walk is such a measure by Fubini, which is not proved here. C86 gives the marginal.

**C88 Collectors record posterior averages after every observation** (partial; Collectors, Sequential, Container). run_collecting threads the container of recordings through the run; every entry is tied to the states of fit_alg on the prefixes of the data. The entry equals the average under exp of the log weights because readings of the weights only sanitise them and the weights a step leaves are already sanitised (tidy). Findings: collectors.py:79 sums over dim=-1 (the parameter particles) where the state particles are dim 0, so the product at line 81 has unequal sizes (C88_standardizer_refuted: every fit with a particle filter fails; C88_standardizer_value_refuted: wrong value if the sizes happen to agree); base.py:76 gives the callbacks the state from before an increase (C88_increase_refuted).

**C89 get_covariance is the covariance of the particles** (partial; Shaped, ShapedCode). Shaped.v models tensors of any number of dimensions with torch's broadcasting, matmul, unsqueeze, squeeze and sum over the first dimension; the functions are transcribed on top of it. The specification says what entries a tensor has after stretching (reads), and lemmas for each operation compose (ShapedProofs). The mean and covariance are sums over the particles in the specification.

**C90 The look-ahead weight of the linear proposal works for every combination of dimensions** (partial; Shaped, ShapedCode). linear_pre_kernel is pre_weight up to the distribution it evaluates (MultivariateNormal before its Cholesky factor is taken). The hypotheses only ask that every parameter stretches to the batch shape. Failures are proved for whole families of sizes: with scalar observations of a vector the result never has the batch shape of the particles.

**C91 The kernel of the linear proposal works for every combination of dimensions** (partial; Shaped, ShapedCode). linear_kernel is sample_and_weight up to the distribution it draws from; the inverse is a function of the matrix entries. One core lemma on the vector form of the arguments serves the four combinations of dimensions. C63 (one particle) says that this kernel is the conditional density.

**C92 The combined algorithms can be built with every option of their parts** (partial; Construct). Construct.v models Python's binding of positional and keyword arguments to a signature (too many positional arguments, a name given twice, an unknown name and a missing one are TypeErrors) and transcribes the constructors with it. The theorem follows each keyword by its lookup in the dictionaries of the objects built; the specification only knows the list of keywords and the defaults.

**C93 Logging observes a fit and does not influence it** (proved; Logging). Logging.v adds the logger to the fits of Sequential.v and Pmmh.v: a run yields the events a logger sees (start, calls with the state at the time of the call, close) next to its result. The states in the calls are identified by independent fits of prefixes of the data (or with fewer samples), without a logger. The function of a logger may change the state or raise; only the theorems that say so assume that it looks. Simplification: states are values, so a function that keeps the states it is given is not represented (the algorithms go on to change those objects).

**C94 SISR estimates converge to the exact filter as the number of particles grows** (proved; FilterLoop, Particle, Resampling). On top of C86: a backward invariant for the mean square error of (likelihood so far) times (weighted mean of the remaining expectation). Each resampling adds at most kappa B^2/N, each move of particles with effective sample size at least tau N adds at most B^2/(tau N), each factor is at most G; the recursion is solved explicitly (sc_rate). The filter mean is the ratio of two such estimates. Specification: iterated upper bounds of averages over single draws, expectations by backward recursion over the transition kernel. The instance has independent uniform numbers for torch.multinomial and independent noise per particle, any ordinary law; the example is the model of C86 for every number of particles.

**C95 Resampling keeps weighted means up to an error that vanishes with the number of particles** (partial; Resampling). Variance of a sum of independent draws (independent_variance); residual through its explicit selection (floors of N w plus multinomial draws of the rest); systematic by Abel summation of the difference between the number of selected particles below i and N times the cumulative weight, which is at most one. The refutation computes the selection for the alternating weights for every offset in (0, 1).

**C96 Systematic resampling returns valid indices in floating point arithmetic** (proved; FloatResampling). FloatResampling.v transcribes normalize, get_ess, systematic and residual with Flocq's binary_float (rounding to nearest even, overflow, underflow, signed zeros, infinities, NaN). FloatProofs bounds each rounded operation and shows that the grid (k+u)/n, divided or multiplied by the rounded reciprocal, is increasing and at most one; the binary search of searchsorted then stops before the end because the last running sum is exactly one. Nothing is assumed of the running sums.

**C97 Systematic resampling copies each particle N*w times up to one, in floating point arithmetic** (partial; FloatResampling). The running sums of the CPU kernel (accumulated in a format at least as good, each converted back) are within explicit errors of the exact ones; counting grid points below them gives the bound. The refutation evaluates the model on 42 particles (vm_compute) for every exponential function that is 1 at 0 and 0 at the lowest number. FINDING: a particle with weight zero survives if it is the last one and the offset is near one; with 42 float32 particles this happens with a probability of at least 2^-19 per resampling.

**C98 Normalising is accurate in floating point arithmetic** (proved; FloatResampling). The shift by the maximum is rounded once (or overflows to -inf, where the exact weight is below the rounding unit); the second shift by softmax is exact; the largest entry is exactly one, so the sum is between 1 and N whatever the order of summation (inductive specification added_up of all orders and bracketings); the quotients are rounded once. The fallback to uniform weights is never taken. A correctly rounded exponential function is constructed to show that the hypotheses can be met.

**C99 The effective sample size is accurate in floating point arithmetic** (partial; FloatResampling). Squares with underflow, their sum, the reciprocal: relative errors composed. The two ends of the range are refuted by evaluation of the model on 17 and 3 equal particles. Consequence: with a threshold of 1 equally weighted particles may be resampled, depending on N.

**C100 Residual resampling works in floating point arithmetic** (partial; FloatResampling). Whole numbers add up exactly up to 2^prec; the sum of the floors is at most N because the rounding errors are below one half; a remainder of at least 1/(2N) exists unless the floors make up N, and does not underflow. FINDING: for N = 41, 47, 55, 61, 82, 83, 94, 97, 107, ... equally weighted float32 particles residual raises.

**C101 Backward sampling draws trajectories from the smoothing distribution** (proved; Smoothing). Draws are integrated out one after the other, newest state first: one step replaces the tail of a trajectory by an average over its ancestors (step_average), induction over the states gives the backward chain (ffbs_law). For the exact filter of a finite-state process the filter weights are normalised forward probabilities alpha_t; bk_paths telescopes alpha_t(x) times the backward chances into the sum over paths. Systematic resampling (C85) and Categorical by inversion are shown to meet the conditions on the draws. FINDING: with observe_every_step > 1 and the default record_intermediary_states=False the smoother moves back with the one-step density across several steps; filters/base.py:41-42 documents the requirement, no code checks it (C101_needs_every_state: 1/10 where the posterior says 82/100).

**C102 The pyro factor is the mean complete log density of smoothed trajectories** (partial; Complete). Slices, strides and broadcasting along time are written as functions on lists; stride_spec turns [1::k] into the indices 1 + k q; rows and trajectories are exchanged in the sums. FINDINGS: (1) a NaN observation makes the factor NaN (C102_missing_refuted), whereas filtering skips missing observations; (2) with observe_every_step = k > 1 and intermediary states not recorded, T > k observations raise a RuntimeError and 2 <= T <= k observations are all weighed against the single state of time 1 (C102_needs_intermediary). The densities are arguments; shapes inside the model functions are not modelled.

**C103 The gradient proposal steps along the gradient of the log posterior** (partial; Complete). As C102 for the target; then the identity of Fisher: the sum over paths is a sum of exp(complete log density) over an index set that does not depend on the parameter (paths_joint), so it may be differentiated term by term (derive_paths); C101_ffbs_posterior averages the slope over the draws. Autograd is represented by the derivative (Coquelicot). FINDINGS: (1) gradient.py:23-31 pairs all recorded states with the observations, a RuntimeError for observe_every_step > 1 (C103_every_refuted); (2) gradient.py:92 adds parameter.grad (with respect to the constrained parameter) to the unconstrained value (C103_space_refuted). That gradients accumulate over iterations is in C80.

**C104 The proposal of SMC2 has the mean and covariance of the weighted parameters** (partial; Mvn). The Cholesky recursion by Schur complements: completing the square (form_split) shows that it succeeds iff the form is positive definite, and then gives the lower factor (cholesky_product). The form of the weighted covariance is the weighted sum of squares of v . (x_k - mean), zero iff v is flat on the particles with weight. No more heavy particles than components: an underdetermined linear system has a nonzero solution (kernel), which is a flat direction. Noise is any law with mean zero and unit covariance, so nothing is said about the shape of the distribution. FINDINGS: (1) the fallback utils.py:53-54 divides the kernel into independent components; (2) with one constant parameter, or all the weight on one particle (ESS = 1, when SMC2 rejuvenates), the fallback has a zero on its diagonal and torch rejects it with a ValueError (validation is on by default). Rounding is not modelled: in floating point a nearly singular covariance may go either way.

**C105 Parameter particles carry the right weights on average** (partial; Sequential). The estimate of a filter run by itself (alone, Spec/SequentialSpec.v) is assumed unbiased, which C86 proves for SISR and APF. A run without rejuvenation: by induction over the observations the weights are numbers and the recorded effective sample sizes at least one, so that no condition of C52 holds (run_still); then C82_alone and C51_accumulates say that a weight is the log likelihood of the filter alone, and averages are taken first over the filters, then over the parameters (and_then). Increase: increase_ok gives the new weights as differences of log likelihoods; the old estimate cancels the one in the density of the extended target of C87.

**C106 Without rejuvenation, posterior means and the evidence converge as the number of parameter particles grows** (proved; Sequential). fit_weights (C105) identifies the weight of particle b with the likelihood its filter estimates alone, a function of its own draws; the particles are a law of independent pairs (parameters, random numbers), so independent_variance (C94) gives the mean square error of means exactly; normalize gives weights over their sum (normalised_entries, from C05); the ratio is handled as in C94: a - m/Z = ((e a - m) - a (e - Z)) / Z with a bounded.

**C107 A posterior plot shows every component once, with the weights of the state** (partial; Plot). The two nested loops with their running index are related to the list of components of the specification (drawn, drawn_app); view(-1, numel) is cutting the concatenated rows, which gives the rows back (cut_concat); decimal indices are read back with the standard library. The kernel density estimate is a function argument that may raise. FINDINGS: (1) with one component and num_cols = 1, or with an Axes for ax (its annotated type), ax.ravel raises AttributeError; (2) plot.py:56-58 writes into the dictionary of the caller; (3) titles can coincide (vector a, scalar a_0). Spines and ticks are not modelled.

**C108 Rejuvenating parameters with SMC2 keeps the target** (partial; Sequential). Spec/RejuvenateSpec.v says which draws the update makes and where (uses_draws), that resampling is fair (C85; C108_systematic for the default) and that all slots draw candidates and filters of the same law. A move of a slot is run_pmmh with densities taken out of the prior (ratio_honest), so that the acceptance chance of C87 applies; by induction over the moves (moves_onwards) the average of a function after n moves is the n-fold Metropolis average of C87, which keeps the integral against the target (onwards_integral). Slots are exchangeable, resampling replaces a sum over slots by copies, whose averages are the weights (value_mean), and the mean weight turns the shares back into weights. The number of moves is fixed because no acceptance rate is below a threshold of zero (moves_fixed). Finding: neither built-in proposal meets the assumption of a fixed density (C62).

**C109 APF converges, and so does SISR whatever its threshold** (proved; Particle, FilterLoop). The error bound of C94 is carried by the sum of squared normalised weights, one over the effective sample size, in place of the threshold: from a corrected state with K moves to go the mean square error is at most ac K times that sum, because the squared likelihood factor times the sum of squared weights after a correction is at most G squared times the sum before (corrected_bulk). Resampling brings the sum to 1/N at the cost of kappa/N, not resampling costs nothing, so SISR needs no condition on the threshold. For APF the selection weights exp(l_i) are given to the resampling function unnormalised (steady_choice, shares) and the second-stage weights are the quotient of the importance weights and the look-ahead weights, bounded by H; steady_ahead asks this of the proposal. C109_bootstrap shows the assumptions for the bootstrap proposal and multinomial resampling, the example a process of which only the sign is observed, with APF and SISR with any threshold.

**C110 The log-likelihood of a step is accurate in floating point arithmetic** (partial; FloatLikelihood). The exponentials err by alpha plus one rounding (shift_ok and exp_perturb of C96-C99), the products by a relative rounding and an underflow term, the sum in any order by 2 n u relatively (added_up_error of C98); ln_gap turns the error of the sum, delta, into one of the logarithm as long as 2 delta is at most the sum; the final addition rounds once. Without weights the python number 1/n is rounded twice (float64, then the dtype) and the sum is at least 1/n of the largest exponential, which makes the condition hold. C110_nonvacuous instantiates both with correctly rounded exp and log (rounded_log_ok). FINDING (C110_weighted_refuted): max_w does not look at the weights, so SISR returns -inf for a step with likelihood exp(-1000) when a particle without weight fits the observation much better than those with weight; the running log-likelihood stays -inf from there on.

**C111 Forecasts from the latest state converge to the predictive means** (partial; Forecast). run_fact gives the run of batch_filter its existence, its position in the random stream and the bound (G^2)^K/N on the squared likelihood estimate times the sum of squared weights; after_error bounds the mean square distance between the weighted mean over the particles h steps later and the weighted mean of hops h phi over the particles now by h^2 B^2 times that sum (independent noise per particle, one step at a time), and over_most_app puts the two stretches of random numbers together. The distance of the weighted mean of hops h phi from its target is C109_mean. Dividing by the likelihood estimate is done as in C94 (quotient of two converging sums). FINDING (C111_plain_mean_refuted): predict_path starts from timeseries_state as it is and returns no weights; without resampling in front the paths are a sample from the wrong law. Witness: a process that is 1 or -1 for ever, seen once, right three times out of four; the predictive probability of 1 is 3/4, the plain mean averages 1/2. C111_nonvacuous shows that the weighted forecast converges on the same model.

**C112 A whole SMC2 fit is right on average: evidence times weighted means of the final particles equal prior times likelihood** (partial; Sequential). Spec/ExactSpec.v: whole_fit runs initialize and then step per observation on the model of C25/C61/C108 and multiplies by the mean weight whenever an observation led to an update of the kernel (g_updates went up). after (Proofs/ExactProofs.v) is the population after j observations as a function of the draws; whole_is shows that the code computes it, for every callback list and whatever the model returns. next_mean: one observation and the following resampling and moves give V (onto_next h) on average (C108 for the rejuvenation, fair_pick for the resampling); after_mean puts the observations together backwards with independent; back_integral shows that the function one arrives at has the right integral against the prior (tg_step: filter on one more observation; onwards_integral: the moves keep the target). C112_posterior replaces the target by prior times likelihood if the filters are unbiased. C112_nonvacuous: two observations, rejuvenation with k moves after the first one, all k; the value is 1/2 + exp 2. FINDING (C112_adaptive_refuted): the moves keep the target only on average over it, and a population is moved or not depending on its weights; the witness does the sum over the four populations of two particles.

**C113 SMC2 converges as the number of parameter particles grows, with rejuvenation triggered by the effective sample size** (proved; Sequential). Spec/FitConvergeSpec.v: rejuvenates reads off the fit itself (the number of kernel updates on prefixes of the data) after which observations it rejuvenated; separate_draws: draws of different slots are uncorrelated, likelihoods bounded, resampling error of order 1/B; at_most_fit: averages over prior draws, filters, resamplings and moves, observation by observation. Proofs/FitConvergeProofs.v: path_matches shows by induction that the code computes aafter, the population as a function of the draws in which decide compares the effective sample size with the threshold; no schedule is assumed. step_off: on either branch one observation moves the estimate of f to that of the function one observation earlier with error of order 1/B, on the branch without moves f itself, on the other f after the moves; since the branch depends on the particles, the errors of both are carried along: family is the 2^n functions that all possible schedules lead to, each with the right integral (fut_member), and run_error sums their errors backwards. mean_ratio: the posterior mean reported is the ratio of two such estimates. C113_residual: residual resampling satisfies the same conditions (C85_residual, C95_residual, residual_shape). C113_nonvacuous: all B, multinomial resampling, threshold of 90 percent

**C114 A prior moved to another device is the same prior** (partial; Mixin). The model has tensors with a device, classes described by the names their constructor takes (required, optional, alternatives) and their constraints, the constructor (unexpected or missing names, number of alternatives, broadcasting, validation) and getattr with lazy alternatives. Spec/MixinSpec.v says when a class is plain, when an object has the same arguments on a device, when arguments are admissible. Broadcasting is idempotent (broadcast_same after broadcast_lengths), the collected names are exactly those the constructor takes (moved_keys), so it cannot fail but for validation (to_plain, checks_iff). FINDINGS: C114_validation_refuted, C114_alternatives_refuted, C114_wrappers_refuted hold for all objects of the classes concerned; C114_nonvacuous shows Normal, MultivariateNormal and Independent.

**C115 Patching the prior methods into torch's Distribution overrides nothing and happens once** (partial; Mixin). patch_lookup gives the attribute found in the patched class for every name: that of the class, or else that of the mixin if the name is public and in the own dict of the mixin. FINDING (C115_second_class_refuted): the list of applied patches holds the mixin and not the pair, so a second class is not patched and nothing is said.

**C116 Filter means and variances are accurate in floating point arithmetic** (partial; FloatMoments). Spec/FloatMomentsSpec.v: averages of real numbers with weights that need not add up to one. Proofs/FloatMomentsProofs.v: added_up_signed bounds a rounded sum of numbers of either sign, in any order and bracketing, by (1+eps)^n - 1 times the sum of the absolute values; mean_core adds the rounded products (rnd_product: relative error and underflow); square_core and variance_core follow the rounded differences, squares and products, all nonnegative, so the error is relative to the sum of squares around the computed mean, which sum_quadratic splits into the variance and the squared error of the mean. C116_from_log_weights_floats puts C98 in front. FINDING (C116_identical_particles_floats_refuted): the normalised weights do not add up to one exactly, so the mean can leave the range of the particles. C116_nonvacuous: four particles, a NaN and a -inf among the log weights.

**C117 Fixed-lag trajectories converge to the distribution of the path given the observations** (partial; Smoothing). Spec/PathSpec.v: the process that lists its own path (along), moves of the particles with independent errors for quantities that differ between particles (steady_each, ahead_each), the mean over returned trajectories. Proofs/PathProofs.v: a filter on particles that carry their pasts meets the conditions of C109 when the filter itself does (past_separate, past_fair, past_steady, past_looks); Props/PathProps.v: by C22 and C23 the weighted mean over the trajectories is the filter mean of the filter on paths (smoothed_paths), so C109_mean applies; the denominators agree (expected_now). C117_bootstrap discharges all conditions for the bootstrap proposal with multinomial resampling. FINDING (_refuted): smooth(method="fl") returns the trajectories without resampling them by the last weights, unlike method="ffbs" (base.py:107); C117_last_observation_unused: with the bootstrap proposal the result of SISR is the same whatever the last observation was. The repository test (tests/filters/test_particle.py:199) takes the plain average.

**C118 Silverman's factor is the best bandwidth; Scott's is 1.059 times a power of the sample size** (proved; Jitter). Spec/BandwidthSpec.v: the asymptotic integrated squared error as a function of the bandwidth. Both functions are characterised by an equation for their (n+4)-th power; with h0 the solution, the error relative to h0 is (h0/h)^d + d/4 (h/h0)^4, and exp x > 1 + x for both terms gives the strict minimum. scott is compared with the minimum through fifth, sixth and (n+4)-th powers. Finding: the factor 1.059 belongs to one dimension (it is (4/3)^(1/5)); for two and more dimensions scott oversmooths by at least 5.9 percent compared with both the optimum and the usual definition of the Scott factor, ess^(-1/(n+4)).

**C119 Quasi-random normal samples are the inverse images of successive points of the engine** (proved; Qmc). Spec/QuasiNormalSpec.v: successive calls of sample, the inverse of a distribution function, triangular matrices. Built on C49_points; distinctness by forward substitution in the triangular factor.

**C120 GaussianLinear samples from the posterior of its moment approximation** (partial; Proposal). Spec/GaussianLinearSpec.v: moments of the next state of a weighted particle cloud, Bayes rule for normal densities as an identity of densities. Props/GaussianLinearProps.v: conjugate_posterior turns the identity behind C63 into that form; posterior_precision recovers the variance from the densities, which refutes the expected kernel for x/2 + noise with particles at -1 and 1. Finding: approximate.py:88 adds the variance of the particles to the transition variance; for x = c x + d + g noise the variance of the next state is g^2 + c^2 V, the code uses g^2 + V. The importance weights (C71_gaussian_linear) stay correct, so only efficiency is lost. The same sum starts the mode search of GaussianLinearized (approximate.py:55), see C120_linearized_first_order; automatic differentiation is a function argument that is assumed exact (true_autodiff, met by the derivative).

**C121 Residual and systematic resampling are at least as accurate as multinomial resampling** (partial; Resampling). Spec/ResampleCompareSpec.v: the mean squared error of residual resampling, from the fractional parts of N w. Props/ResampleCompareProps.v: the sure copies cancel against the whole parts of N w, what remains is the variance of the draws; it is below that of multinomial resampling because the second moment of the sure copies about the weighted mean is not negative and the left over part has its least second moment about its own mean. The weights alternating around 1/N of C95 refute the claim for systematic resampling: every offset selects all particles or every second one twice.

**C122 The recorded chain of PMMH is complete and survives save and load** (partial; PmmhState). Spec/PmmhStateSpec.v: a table with one list per name. Props/PmmhStateProps.v: induction over the calls; saving and loading are those of the filter result (C35) next to an empty container. Finding: PMMHResult inherits state_dict from FilterAlgorithmState and does not add its samples; a saved and loaded PMMH run has lost its chain without any error.

## Findings

Properties a user would expect that are false of the code (each with a `_refuted` theorem):

* C02 (`C02_round_trip_any_name_refuted`): the proviso on names is necessary: C02_round_trip_any_name_refuted is the finding
* C03 (`C03_load_twice_refuted`): loading pops the entries from the caller's dictionary; second_load_is_noop is the exact behaviour
* C06 (`C06_uniform_fallback_refuted`): false for NaN/+inf everywhere (result is NaN); true for -inf everywhere; the fallback branch is dead code
* C07 (`C07_repeatable_refuted`): the proviso 'no unusable entries' is necessary (C07_repeatable_refuted)
* C13 (`C13_zero_weight_never_selected_refuted`): a zero-weight first particle is selected when the uniform draw is exactly 0; true for every other particle and for every positive draw
* C14 (`C14_offset_honoured_1d_refuted`): false for one-dimensional weights (the decorator passes the keyword names, not the values); true for batched weights and tensor offsets; a float offset is refused
* C16 (`C16_ties_differ_refuted`): tie-freeness is part of the statement; C16_ties_differ_refuted shows it is needed
* C23 (`C23_sisr_fl_ancestors_refuted`): after a resampling step followed by a step without resampling the recorded indices are stale and the smoother leaves the ancestral line; true when every step resamples or records identity
* C25 (`C25_impute_honoured_refuted`): 'impute' is accepted but every run equals the 'skip' run
* C27 (`C27_gaussian_stays_refuted`): false for GaussianProposal and GaussianLinearized, which never advance the time index; proved for all other proposals with every filter
* C28 (`C28_copy_refuted`): copy does not keep the resampling threshold of a SISR filter; everything else is kept when the model is set
* C32 (`C32_continue_refuted`): the initial state's log-likelihood is counted twice and its tensor becomes the running total
* C33 (`C33_resample_refuted`): a state's own log-likelihood is not selected and recorded moments shared with a kept state are selected twice
* C34 (`C34_exchange_refuted`): false with two or more recorded states sharing an ancestor tensor; exact when only the latest state is recorded (the default)
* C36 (`C36_independent_refuted`): false without a trip to disk: the running log-likelihood tensor is shared by the run, the dictionary and the loaded result
* C39 (`C39_refused_refuted`): false for batched priors: the prior is entered before the check, the name is then known without a parameter and the context can be neither completed nor copied; all other refusals leave everything as it was
* C41 (`C41_refuted`): parameters are updated one after the other, so those registered before the one refused have already been overwritten; a wrong number of columns changes nothing and well-shaped finite unconstrained values are never refused
* C43 (`C43_other_sizes_refuted`): false for parameters of the same name with samples of other sizes: accepted, and elements are dealt out one after the other; true for samples of equal sizes; a missing parameter is reported with the parameters before it already exchanged
* C44 (`C44_other_thread_refuted`): a thread that has not constructed a context itself gets AttributeError on entering one or asking for it; true within the threads that have
* C45 (`C45_reenter_refuted`): re-entering an outer context and leaving removes its first occurrence and leaves it on top; true when the re-entered context is the innermost
* C46 (`C46_nested_refuted`): false for a block nested in a block of the same context: verification is on again in the rest of the outer block; true without such nesting, for every exception point, and always on after the outermost block
* C47 (`C47_hidden_arguments_refuted`, `C47_hidden_witness_refuted`): for priors of classes without arg_constraints (Independent, TransformedDistribution) nothing is compared, any saved prior is accepted; for the others a value of the same shape that differs is refused
* C51 (`C51_increase_refuted`, `C51_impossible_refuted`): after an increase of the state particles SMC2's weights are the difference of the new and old likelihoods, and an observation that is impossible under a particle changes its weight to the lowest finite number, not to minus infinity; holds in all other cases
* C52 (`C52_impossible_refuted`, `C52_reading_refuted`): likelihoods of zero never make the weights unusable, and a callback that reads the normalised weights repairs unusable weights so that NESS does not rejuvenate; the decision rule on the stored ESS and weights is proved
* C53 (`C53_refuted`, `C53_second_fit_refuted`): the first algorithm gets switch+1 observations, and a second fit with the same object starts with the second algorithm
* C57 (`C57_refuted`): callbacks get the state object passed to step, which after an increase of the state particles is not the new state, and whose iteration number is that before the observation
* C58 (`C58_blocks_refuted`, `C58_increase_refuted`, `C58_model_refuted`): the place within a FixedWidthNESS block, the number of state particles and increases of SMC2, and models that compute with their parameters are not restored; proved for every algorithm and split point without these
* C62 (`C62_symmetric_refuted`, `C62_stale_walk_refuted`): false for SymmetricMH (backward density from a kernel fitted to the candidates) and for the random walk inside sequential kernels (kernel not re-centred); proved for PMMH with the random walk and for every proposal whose reported densities are the true ones
* C64 (`C64_pre_weight_refuted`): the previous value is used in place of the mean of the hidden process, right only for random walks
* C65 (`C65_gradient_refuted`, `C65_wrong_way_refuted`, `C65_variance_refuted`): false for the default settings: without second order information the step size itself is added, whatever the density; with it the default finder can give NaN or negative variances
* C67 (`C67_refuted`, `C67_broadcast_refuted`, `C67_raises_refuted`, `C67_nan_refuted`): classes without arg_constraints are always equivalent, arguments are broadcast (Dirichlet of three and of one component), incompatible shapes raise, a prior with NaN is not equivalent to itself; symmetric, reflexive without NaN, sound for arguments of the same shapes
* C70 (`C70_second_model_refuted`): false from the second binding on: the function chosen for the first model is kept
* C74 (`C74_refuted`): the loaded parameters use the storages of the saved context, an in-place update of one changes the other; contexts that were copied instead are independent
* C75 (`C75_refuted`): parameters are loaded one after the other, those before the refused one are already replaced; refusal because of other names changes nothing
* C76 (`C76_simplex_refuted`): a prior with fewer unconstrained than constrained components (Dirichlet) raises RuntimeError; holds for contexts without such priors
* C77 (`C77_refuted`): thresholds below the ending threshold are never used; holds when the ending threshold is the smallest
* C78 (`C78_refuted`): a float scale raises AttributeError (float has no clamp); holds for tensors
* C79 (`C79_refuted`): false for model builders that compute with the parameters: the model is built before the means are copied in and not rebuilt; holds for models holding the parameter objects
* C80 (`C80_accumulates_refuted`, `C80_witness_refuted`): parameter.grad is never reset, so gradients accumulate over the kernels built from a context
* C81 (`C81_refuted`): false for quasi contexts with builders that compute with the parameters: the model is built before the parameters are initialised
* C83 (`C83_refuted`): the counter is raised before it is tested and the test comes before the observation, so the first block has one observation less
* C88 (`C88_standardizer_refuted`, `C88_standardizer_value_refuted`, `C88_increase_refuted`): Standardizer with a particle filter sums over the parameter particles instead of the state particles (every fit fails, or records a wrong number if there are as many of both); at an observation at which SMC2 adds state particles the old weights are used; proved otherwise
* C89 (`C89_covariance_refuted`, `C89_one_component_refuted`, `C89_value_refuted`): get_covariance multiplies the weights into the last dimension of the values instead of the first: for vectors it raises, or (as many particles as components) weighs components instead of particles, or (one component) returns a row and column for every particle; right for scalars, and get_filter_mean_and_variance is right for all shapes
* C90 (`C90_scalar_observation_refuted`, `C90_scalar_state_refuted`): pre_weight fails when exactly one of state and observation is scalar (line 80 multiplies entrywise instead of taking the inner product, line 83 takes the particles for a matrix); proved for scalar with scalar and vector with vector
* C91 (`C91_batched_offset_refuted`, `C91_batched_value_refuted`): with vector observations and an offset that has a batch dimension (one of the inferred parameters) find_optimal_density multiplies a matrix by the batch of observations: it raises, or is wrong if there are as many filters as components; proved for all combinations of dimensions otherwise
* C92 (`C92_smc2fw_refuted`, `C92_smc2fw_error_refuted`): false for SMC2FW: its make_second takes two positional arguments but is called with three, so that constructing an SMC2FW always raises (TypeError for allowed keywords); proved in full for NESSMC2
* C95 (`C95_systematic_refuted`): false for systematic resampling (the default): with weights alternating 3/(2N), 1/(2N) and F the indicator of the heavy particles the error is 1/4 for every draw and every even N; its error is at most the variation of F from particle to particle over N; proved for multinomial (exact variance) and residual
* C97 (`C97_zero_weight_floats_refuted`): false for zero weights: of 41 equally weighted float32 particles and one with log weight -inf at the end, the last is selected for offsets near one, because the running sum before it is below 1 and the last entry is set to 1 (and the first one, if of weight zero, for offset zero, see C13); proved for all others; the number of copies is proved with an explicit error bound
* C99 (`C99_ess_range_floats_refuted`): false for the exact range: 17 equally weighted float32 particles have an effective sample size above 17, 3 have one below 3; proved up to explicit rounding errors
* C100 (`C100_residual_floats_refuted`): residual resampling of 41 equally weighted float32 particles raises a RuntimeError (41 times the rounded 1/41 is below 1: no sure copies, the remainders are divided by zero); proved: it returns whenever one particle is heavier than the average by more than the rounding errors, and what it returns is right
* C102 (`C102_missing_refuted`): a missing (NaN) observation, which the filters accept, makes the factor NaN; proved: the factor is the mean complete log density if all log densities are numbers and every time is recorded; without intermediary states (documented requirement of smoothing, unchecked) it raises, or weighs all observations against one state
* C103 (`C103_every_refuted`, `C103_space_refuted`): building raises for observe_every_step > 1 with two or more observations; the step adds the gradient with respect to the constrained parameter to the unconstrained one, which is not a gradient step unless the two coincide; proved: for observe_every_step = 1 the location is, on average, u + eps * dS/dtheta for the exact filter of a finite-state process
* C104 (`C104_raises_refuted`, `C104_degenerate_refuted`, `C104_fallback_refuted`, `C104_few_refuted`): a ValueError if (and only if) some parameter has one value on all particles with weight, e.g. one particle has all the weight; if the particles with weight lie in a hyperplane (always so if there are no more of them than parameters) the correlations are dropped; proved: the stated mean and covariance in all other cases, in exact arithmetic
* C107 (`C107_single_refuted`, `C107_dictionary_refuted`, `C107_titles_refuted`): a single component in one column, and a single Axes as the annotation of the argument asks for, always raise AttributeError (no ravel); a dictionary passed as constrained gets the missing names added; a vector a and a scalar a_0 get the same title; proved: what is shown otherwise
* C108 (`C62_symmetric_refuted`, `C62_stale_walk_refuted`): false for the proposals the library ships: SymmetricMH takes the backward density from a kernel fitted to the candidates (C62_symmetric_refuted), RandomWalk is not centred again after resampling or moves inside SMC2 (C62_stale_walk_refuted), so the acceptance ratio is not the one of Metropolis-Hastings. Proved for proposals with a fixed density, a fixed number of moves (no acceptance threshold, no distance threshold) and exact random draws, with systematic resampling shown to meet the assumption on resampling; missing: early stopping, which depends on the moves
* C110 (`C110_weighted_refuted`): false with weights: the maximum that is subtracted in front of exp is that of all particles, with or without weight; a particle of weight zero that fits the observation 1000 nats better than the 16 others (ESS 16 of 17, no resampling) makes all other exponentials underflow, and the result is -inf in place of -1000. Proved: error bound with weights when the weighted sum relative to the largest importance weight stands out from rounding, and without weights always
* C111 (`C111_plain_mean_refuted`): false for the plain mean over the returned paths: predict_path neither resamples nor returns the weights, so for a process that is 1 or -1 for ever and is observed once the mean square error of the plain mean is at least 1/16 for every number of particles. Proved: under the weights of the state the forecast converges at rate 1/N, for SISR with any threshold and APF, every horizon
* C112 (`C112_adaptive_refuted`): false when the effective sample size decides on rejuvenation (thresholds between 0 and 1): whether the particles are moved then depends on the particles themselves; with two parameters, one observation and a threshold of 90% the mean is 25/27 in place of 1, although resampling, acceptance ratio and likelihoods are exact. Proved: rejuvenation at times fixed in advance (threshold above one or at most 1/B at each observation), any number of observations, particles and moves, exact real arithmetic, proposals of fixed density, no acceptance or distance threshold; the adaptive fit still converges (C113)
* C114 (`C114_validation_refuted`, `C114_alternatives_refuted`, `C114_wrappers_refuted`): false for three kinds of distribution: validate_args=False is not carried over, so arguments outside their constraints raise ValueError; classes with alternative arguments (MultivariateNormal, Bernoulli, Categorical) always raise ValueError because all alternatives are passed to the constructor; Independent and TransformedDistribution always raise TypeError because the base distribution is not passed. Proved for classes whose constructor takes exactly the constrained arguments; tensors are flat, constraints elementwise
* C115 (`C115_second_class_refuted`): false for several classes: applied_patches records the mixin only, so patching it into a second class silently does nothing. Everything else is proved
* C116 (`C116_identical_particles_floats_refuted`): ten float32 particles of the same weight that all equal 1 have a mean above 1, twelve have one below 1, and their variance is positive. The error bounds are proved for every format, order of summation and exponential function of a given accuracy; one filter, one component of the state (no covariance matrices), particles whose squares times 64 stay below half the largest number, at most 2^18 particles in float32
* C117 (`C117_equal_weights_refuted`): false for the plain average: the trajectories are returned without resampling by the weights of the last state, so for SISR with the bootstrap proposal they do not depend on the last observation at all (proved for every threshold and model), and in a two-sided example the plain average is off by at least 1/4 for one of two observations whatever the number of particles. With the weights of the last state convergence is proved, for APF and for SISR resampling at every step (with other thresholds the smoother follows wrong ancestors, C23); general statement for columnwise filters, instance bootstrap proposal with multinomial resampling
* C120 (`C120_variance_refuted`): the variance of the particles is added to the transition variance without passing through the transition, so for x' = c x + d + g noise the variance used exceeds the true one by (1 - c^2) times the variance of the particles (too small for |c| > 1); it is exact for |c| = 1 only. Proved: the kernel is the exact posterior for the variance used, for every model; the mean is exact for affine transitions. One dimension
* C121 (`C121_systematic_refuted`): false for systematic resampling (the default): with 2m particles whose weights alternate between 3/(4m) and 1/(4m) and the indicator of the heavy ones its mean squared error is 1/16 for every m, that of multinomial resampling 3/(32 m). Proved: residual resampling is never worse than multinomial, with its exact error; systematic is better, whatever the offset, for functions whose variation along the particles is small. One row of weights, real numbers
* C122 (`C122_stranger_refuted`, `C122_save_refuted`): the dictionary does not contain the chain, results with different chains have the same dictionary, and the object loaded into keeps its own chain; a sample with an unknown name raises KeyError after the parameters in front of it have been recorded. Proved: the chain is complete and in order; the filter result of the last position is restored (as in C35)

## What is modelled of the code, and what is not

Modelled (function by function): `container.py`, `state.py`, `utils.py`, `resampling.py`, `filters/base.py` (loop, imputation,
batch shape, model building), `filters/result.py`, `filters/utils.py`, `filters/particle/{base,state,sisr,apf,gpf,utils}.py`,
`filters/particle/proposals/*` (one dimension in the particle model; linear Gaussian proposals also for vectors and, up to the kernel they build, for tensors of any shape),
`inference/logging.py`, `inference/plot.py`, `inference/context.py`, `inference/parameter.py` (updates), `inference/prior.py`, `inference/qmc.py`, `inference/utils.py`,
`inference/batch/mcmc/*`, `inference/state.py` (except `replicate` and `copy`), `inference/sequential/*` (states, NESS, FixedWidthNESS, SMC2, combined algorithms, kernels,
thresholds, collectors, construction).

Not modelled: `LocalLinearization` (its constructor raises NotImplementedError), `BaseResult.exchange_tensor_tuples` (never called, and TensorContainer has no `items`), the density estimate and the decoration of plots, drawing of progress bars, console text, `__repr__`, device placement (other than `to` of a prior, C114), dtypes, float rounding
(except in C96-C100, C110 and C116: normalize, get_ess, systematic, residual, log_likelihood and get_filter_mean_and_variance for one row of weights, see Model/FloatResampling.v, Model/FloatLikelihood.v and Model/FloatMoments.v),
autograd internals (a gradient is a function argument), the registration of the pyro factor (its value is C102), variational Bayes, documentation
notebooks. Kalman filters are not part of this version of the package. Further restrictions: supports and bijections of
priors with event shapes of at most one dimension; results and contexts of one batch dimension; a block length of zero in
FixedWidthNESS (a ZeroDivisionError) is not represented; a collector named "ess" or "parsed_data" is not represented.

## Trusted base

* Coq 8.16.1 kernel (and `coqc`'s elaboration of the statements).
* For each theorem the output of `Print Assumptions`, recorded in the build output and listed below: only axioms of
  Coq's standard library, which come with its real numbers (`ClassicalDedekindReals.sig_forall_dec`, `sig_not_dec`),
  functional extensionality, excluded middle (`Classical_Prop.classic`) and, in the matrix theorems
  C63_linear_weight_multivariate and C64_pre_weight_multivariate_partial, `constructive_indefinite_description` (used to make the reals a
  mathcomp field). No axiom of our own.
* The correspondence between the python text and the model definitions (by inspection, cited line by line).

### Assumptions of each theorem (`Print Assumptions`)

F = `ClassicalDedekindReals.sig_forall_dec`, N = `ClassicalDedekindReals.sig_not_dec`,
E = `FunctionalExtensionality.functional_extensionality_dep`, C = `Classical_Prop.classic`,
D = `ClassicalEpsilon.constructive_indefinite_description`; "-" = closed under the global context.

* C01: C01_recording_window [-]
* C02: C02_container_round_trip [-], C02_load_over_existing [-], C02_reachable_structure [-], C02_name_restored_iff [-], C02_round_trip_any_name_refuted [-]
* C03: C03_load_twice_refuted [-], C03_second_load_is_noop [-]
* C04: C04_container_is_a_map [-], C04_operations_refused_iff [-], C04_constructor [-]
* C05: C05_normalised_simplex [FNE], C05_shift_invariant [FNE], C05_permutation_equivariant [FNE]
* C06: C06_uniform_fallback_refuted [FNE], C06_degenerate_outcome_partial [FNE], C06_fallback_unreachable [FNE]
* C07: C07_repeatable [FNE], C07_stable_from_second [FNE], C07_second_call_bound [FNE], C07_all_nan_changes [FNE], C07_repeatable_refuted [FNE]
* C08: C08_ess_bounds [FNE], C08_ess_bounds_log [FNE]
* C09: C09_log_of_weighted_mean [FNCE], C09_between_min_and_max [FNCE], C09_shift [FNCE], C09_with_minus_infinity [FNCE], C09_all_minus_infinity [FNCE], C09_nan_propagates [FNCE]
* C10: C10_moments [FE], C10_covariance [FE]
* C11: C11_valid_indices [FNE], C11_valid_indices_batched [FNE], C11_sorted [FNE]
* C12: C12_proportional_copies [FNE]
* C13: C13_zero_weight_never_selected_refuted [FNE], C13_zero_weight_partial [FNE]
* C14: C14_offset_ignored_1d [FNE], C14_offset_honoured_1d_refuted [FNE], C14_offset_honoured_batched_partial [FNE]
* C15: C15_residual [FNE], C15_residual_batched_refused [FNE]
* C16: C16_two_pointer_reference [FE], C16_ties_differ_refuted [FE]
* C17: C17_batch_is_columnwise [FNE]
* C18: C18_selective_resampling [FNE]
* C19: C19_sisr_noninterference [FNCE], C19_apf_noninterference [FNCE]
* C20: C20_sisr_importance_sampling [FNCE]
* C21: C21_apf_lookahead_divided_out [FNCE]
* C22: C22_apf_fl_ancestors [FNCE], C22_apf_fl_ancestors_default [FNCE]
* C23: C23_sisr_fl_ancestors_refuted [FNCE], C23_sisr_fl_ancestors_partial [FNCE], C23_sisr_always_resampling_partial [FNCE]
* C24: C24_missing_observation [FNCE], C24_partially_missing_used [FNCE], C24_step_succeeds [FNCE]
* C25: C25_impute_honoured_refuted [FNCE], C25_unknown_strategy_refused [-]
* C26: C26_one_observation [FNCE], C26_series [FNCE]
* C27: C27_advances_partial [FNCE], C27_gaussian_stays_refuted [FNCE]
* C28: C28_configurations_are_legal [F], C28_copy_partial [FE], C28_threshold_iff [FE], C28_copy_refuted [FNE], C28_copy_needs_model [F], C28_proposal_copy [-]
* C29: C29_increase_keeps_fraction [FE], C29_from_constructor [FE]
* C30: C30_ffbs_trajectories [F], C30_ffbs_values_are_particles [F], C30_method_names [F]
* C31: C31_total_is_sum [FE], C31_real_sum [FE], C31_latest_state [F]
* C32: C32_continue_partial [F], C32_continue_refuted [FE]
* C33: C33_resample_partial [F], C33_resample_refuted [FE]
* C34: C34_exchange_partial [F], C34_latest_state_only [F], C34_new_run_separate [F], C34_started [F], C34_exchange_refuted [F]
* C35: C35_round_trip [F], C35_needs_one_state [-]
* C36: C36_independent_partial [F], C36_only_total_shared_partial [F], C36_independent_refuted [FE]
* C37: C37_batch_shape [FE]
* C38: C38_bound [FE], C38_names [FE]
* C39: C39_refused_partial [FE], C39_refused_refuted [FE]
* C40: C40_stack [FE], C40_unstack [FE], C40_unstack_stack [FE], C40_stack_unstack [FE]
* C41: C41_partial [FE], C41_unconstrained_accepted [FE], C41_refuted [FE]
* C42: C42_resample [FE], C42_twice [FE]
* C43: C43_exchange_partial [FE], C43_other_sizes_refuted [FE]
* C44: C44_innermost_partial [-], C44_other_thread_refuted [-]
* C45: C45_reenter_top_partial [-], C45_reenter_refuted [-]
* C46: C46_scoped_partial [FE], C46_on_afterwards [FE], C46_meaning [FE], C46_nested_refuted [FE]
* C47: C47_load [FE], C47_save_load [FE], C47_other_names [FE], C47_other_arguments_partial [FE], C47_hidden_arguments_refuted [FE], C47_hidden_witness_refuted [FE]
* C48: C48_equal [FE], C48_independent [FE], C48_copy_then [FE], C48_empty [FE]
* C49: C49_inside [FE], C49_count [FE], C49_points [FE]
* C50: C50_bookkeeping [FNCE]
* C51: C51_accumulates [FNCE], C51_ness [FNCE], C51_smc2_partial [FNCE], C51_increase_refuted [FNCE], C51_impossible_refuted [FNCE]
* C52: C52_ness [FNCE], C52_smc2 [FNCE], C52_ess_initial [FNE], C52_ess_step [FNCE], C52_impossible_refuted [FNCE], C52_reading_refuted [FNCE]
* C53: C53_partial [FNCE], C53_refuted [FNCE], C53_second_fit_refuted [FNCE]
* C54: C54_doubling [FNCE], C54_refused [FNCE]
* C55: C55_rate [FNCE]
* C56: C56_smc2 [FNCE], C56_ness [FNE]
* C57: C57_register [-], C57_calls [FNCE], C57_state_partial [FNCE], C57_refuted [FNCE]
* C58: C58_continue [FNCE], C58_partial [FNCE], C58_blocks_refuted [FNCE], C58_increase_refuted [FNCE], C58_model_refuted [FNCE]
* C59: C59_floor [FNE], C59_constant [FNE], C59_decaying [FNCE], C59_interval [FNE], C59_interval_order [FNE]
* C60: C60_output [FNCE], C60_mean [FNCE], C60_variance [FNCE], C60_unshrunk [FNCE], C60_robust [FE], C60_shrinkage [FNCE]
* C61: C61_step [FNCE], C61_fit [FNCE], C61_other_initializers [FNCE]
* C62: C62_rule [FNCE], C62_degenerate [FNCE], C62_balance [FNCE], C62_walk_centred [FNCE], C62_walk_starts [-], C62_walk_rule [FNCE], C62_symmetric_refuted [FNCE], C62_symmetric_fixed [FNCE], C62_stale_walk_refuted [FNCE]
* C63: C63_linear_weight [FNCE], C63_independent_of_draw [FNCE], C63_linear_weight_multivariate [FNDCE]
* C64: C64_pre_weight_partial [FNCE], C64_pre_weight_multivariate_partial [FNDCE], C64_pre_weight_refuted [FNCE]
* C65: C65_quadratic_mode [FNE], C65_second_order_step_partial [FNE], C65_legacy_gradient_partial [FNE], C65_legacy_variance_positive [FNE], C65_legacy_variance_positive_vector [FNE], C65_gradient_refuted [FNCE], C65_wrong_way_refuted [FNE], C65_variance_refuted [FNE]
* C66: C66_nested [FNCE]
* C67: C67_sound_partial [FE], C67_reflexive [FE], C67_symmetric [FE], C67_refuted [FE], C67_broadcast_refuted [FE], C67_raises_refuted [-], C67_nan_refuted [FE]
* C68: C68_gpf_weights [FNCE]
* C69: C69_supported_models [-]
* C70: C70_first_model_partial [-], C70_second_model_refuted [-]
* C71: C71_bootstrap [FNCE], C71_kernels [FNCE], C71_gaussian [FNCE], C71_gaussian_linear [FNCE], C71_gaussian_linearized [FNCE]
* C72: C72_default_look_ahead [FNCE]
* C73: C73_eval_priors [FE], C73_empty [F]
* C74: C74_refuted [FE], C48_independent [FE]
* C75: C75_refuted [FE], C47_other_names [FE]
* C76: C76_initialize_partial [FE], C76_simplex_refuted [FE]
* C77: C77_refuted [FNE], C77_partial [FNE]
* C78: C78_refuted [FNCE], C78_partial [FNCE]
* C79: C79_partial [FNCE], C79_refuted [FNCE]
* C80: C80_first_partial [FE], C80_accumulates_refuted [FE], C80_witness_refuted [FE]
* C81: C81_smc2_partial [FNCE], C81_refuted [FNCE]
* C82: C82_alone [FNCE]
* C83: C83_partial [FNCE], C83_refuted [FNCE]
* C84: C84_scale [FNCE], C84_monotone [FE], C84_equal [FE]
* C85: C85_systematic [FNE], C85_systematic_log [FNE], C85_systematic_batch [FNE], C85_residual [FNE], C85_multinomial [FNE]
* C86: C86_unbiased [FNCE], C86_bootstrap [FNCE]
* C87: C87_invariant [FNCE], C87_posterior [FNCE], C87_bootstrap [FNCE], C87_draws [F]
* C88: C88_mean_partial [FNCE], C88_parameters_partial [FNCE], C88_standardized_partial [FNCE], C88_undisturbed [FNCE], C88_safe [FNCE], C88_standardizer_refuted [FNCE], C88_standardizer_value_refuted [FNCE], C88_increase_refuted [FNCE]
* C89: C89_helper_partial [FE], C89_variance_partial [FE], C89_scalar_partial [FE], C89_vectors_raise [F], C89_covariance_refuted [FE], C89_one_component_refuted [F], C89_value_refuted [FE]
* C90: C90_vectors_partial [FNE], C90_scalars_partial [FNE], C90_scalar_observation_refuted [FNE], C90_scalar_observation_raises [FNE], C90_scalar_state_refuted [FNE]
* C91: C91_vectors_partial [FNE], C91_scalar_observation_partial [FNE], C91_scalars_partial [FNE], C91_scalar_state_partial [FNE], C91_batched_offset_refuted [FNE], C91_batched_value_refuted [FNE]
* C92: C92_nessmc2_partial [FE], C92_unknown_refused [FE], C92_fixed_width [F], C92_positional [FE], C92_context_required [FE], C92_smc2fw_refuted [FE], C92_smc2fw_error_refuted [FE]
* C93: C93_closed [FNCE], C93_closed_pmmh [FNCE], C93_sequential [FNCE], C93_pmmh [FNCE], C93_counts [-], C93_bar [FNCE], C93_bar_pmmh [FNCE], C93_raising [FNCE]
* C94: C94_likelihood [FNCE], C94_likelihood_probability [FNCE], C94_mean [FNCE], C94_bootstrap [FNCE], C94_bootstrap_mean [FNCE]
* C95: C95_multinomial [FNE], C95_residual [FNE], C95_systematic_partial [FNE], C95_systematic_refuted [FNE], C95_multinomial_columnwise [FNE]
* C96: C96_valid_indices_floats [FNCE]
* C97: C97_copies_floats [FNCE], C97_copies_of_log_weights_floats [FNCE], C97_zero_weight_floats_partial [FNCE], C97_zero_weight_floats_refuted [FNCE]
* C98: C98_normalize_floats [FNCE]
* C99: C99_ess_floats_partial [FNCE], C99_ess_range_floats_refuted [FNCE]
* C100: C100_residual_floats_partial [FNCE], C100_residual_succeeds_floats [FNCE], C100_residual_floats_refuted [FNCE]
* C101: C101_ffbs_law [FNCE], C101_ffbs_posterior [FNCE], C101_systematic_fair [FNE], C101_categorical_fair [FNE], C101_ffbs_systematic [FNCE], C101_needs_every_state [FNCE]
* C102: C102_factor_partial [FE], C102_guards [FE], C102_missing_refuted [FE], C102_needs_intermediary [FE]
* C103: C103_target_partial [FE], C103_fisher_partial [FNCE], C103_every_refuted [FE], C103_space_refuted [FNCE]
* C104: C104_kernel_partial [FNE], C104_symmetric_partial [FNE], C104_draws [FNE], C104_raises_refuted [FNE], C104_degenerate_refuted [FNE], C104_fallback_refuted [FNE], C104_few_refuted [FNE]
* C105: C105_proper_partial [FNCE], C105_evidence_partial [FNCE], C105_increase_weight [FNE], C105_increase [FNE]
* C106: C106_evidence [FNCE], C106_posterior [FNCE], C106_probability [FNCE]
* C107: C107_shows [FNE], C107_completes_partial [FNE], C107_weights [FNE], C107_titles [-], C107_single_refuted [FNE], C107_dictionary_refuted [FNE], C107_titles_refuted [F]
* C108: C108_reset [FNCE], C108_target_partial [FNCE], C108_systematic [FNE], C62_symmetric_refuted [FNCE], C62_symmetric_fixed [FNCE], C62_stale_walk_refuted [FNCE]
* C109: C109_likelihood [FNCE], C109_likelihood_probability [FNCE], C109_mean [FNCE], C109_bootstrap [FNCE], C109_bootstrap_mean [FNCE]
* C110: C110_log_likelihood_floats [FNCE], C110_unweighted_floats [FNCE], C110_weighted_refuted [FNCE]
* C111: C111_forecast [FNCE], C111_bootstrap [FNCE], C111_plain_mean_refuted [FNCE]
* C112: C112_exact [FNCE], C112_posterior [FNCE], C112_adaptive_refuted [FNCE]
* C113: C113_evidence [FNCE], C113_posterior [FNCE], C113_probability [FNCE], C113_multinomial [FNE], C113_residual [FNE]
* C114: C114_moved_partial [-], C114_cuda_partial [-], C114_round_trip_partial [-], C114_validation_refuted [-], C114_alternatives_refuted [-], C114_wrappers_refuted [-]
* C115: C115_patched [-], C115_once [-], C115_first_wins [-], C115_second_class_refuted [-]
* C116: C116_mean_floats [FNCE], C116_variance_floats [FNCE], C116_from_log_weights_floats [FNCE], C116_identical_particles_floats_refuted [FNCE]
* C117: C117_smoothed_mean [FNCE], C117_bootstrap [FNCE], C117_last_observation_unused [FNCE], C117_equal_weights_refuted [FNCE]
* C118: C118_silverman_best [FNCE], C118_scott [FNCE], C118_decreasing [FNCE]
* C119: C119_inversion [FE], C119_distinct [FE]
* C120: C120_kernel [FNCE], C120_affine [FNCE], C120_variance_refuted [FNCE], C120_linearized_first_order [FNCE], C120_linearized_exact [FNCE]
* C121: C121_residual_error [FNE], C121_residual_better [FNE], C121_systematic_refuted [FNE], C121_systematic_partial [FNE]
* C122: C122_recorded [-], C122_stranger_refuted [-], C122_load_partial [F], C122_save_refuted [FE]
