# Formal model of pxmcmc in Rocq (Coq 8.16.1)

## Approach

The Python package is modelled function by function as Gallina definitions
(`rocq/theories/*`). Python exceptions are values (`res A := Ok a | Raise e`).
Loops become recursion on explicit fuel (outcome `NoFuel` is separate from
returning and from raising), or structural recursion. numpy arrays are lists (1-D) or
buffer+shape (2-D); numpy broadcasting of length-1 operands and the shape
errors are modelled. In-place effects and aliasing are modelled with an
explicit heap only where a property is about them (C42, C27).

Numbers: array entries are complex numbers over Coq's real numbers
(`Coquelicot.Complex.C`), scalars are reals; a float array is one whose entries
have zero imaginary part, and storing into a float array takes the real part
(as numpy does). **Rounding, overflow, inf and NaN are not modelled** except
where stated (Ieee.v, FloatOps.v, FloatSk.v, FloatUnc.v: C58, C62-C68; plot scripts, C52). The sampler loops are polymorphic in the vector, data, scalar and
random-generator types, so those theorems hold for *any* arithmetic, including
IEEE floats, and the loops can be executed on small instances.

Randomness: the generator is an arbitrary state machine (an oracle). Theorems
quantify over it, so they hold for every random stream.

External libraries (pyssht, pys2let, healpy, astropy, h5py, matplotlib,
scipy.sparse inverse) are oracles: arguments of the model functions, with the
behaviour a theorem needs stated as a hypothesis of that theorem.
MW sample positions (theta_t=(2t+1)pi/(2L-1), phi_p=2 pi p/(2L-1)) are
transcribed from pyssht's documentation.

## Files

| files | content |
|-------|---------|
| PyBase, PyBaseFacts | exceptions, Python integers/ranges/slices/indexing |
| Sampler, SamplerSpec, SamplerDemo | model of the loops of mcmc.py; independent vocabulary; executable instance |
| SamplerFacts, MyulaProof, LoopProof, ScheduleProof, SamplerThms, PxMalaProof, MalaThms, SamplerMain, WorksProof | proofs about the loops |
| P_Samplers | property theorems C01-C06, C08-C11, C43, C44 |
| CVec | complex vectors, matrices, numpy broadcasting, inner products |
| RSort | sorting reals, order statistics |
| Thresh, ThreshSpec, ThreshProof, P_Thresh | soft, hard, _sign (C20, C21) |
| Utils, UtilsSpec, UtilsProof, P_Utils | packing, band limits, Chebyshev, pixel areas, snr, build_mask (C19, C22, C23, C25, C26, C28) |
| Quad, QuadSpec, TrigSum, QuadProof, QuadMain, P_Quad, P_QuadB | quadrature weights and s2_integrate (C24) |
| OpSpec | linear operators, adjointness |
| Prior, PriorSpec, PriorProof, P_Prior | prior.py (C34-C36) |
| Forward, FwdProof, P_Forward | forward.py: covariance, forward, gradient; logpi (C14, C15, C17) |
| Mcmc, McmcSpec, McmcProof, StepProof, SkProof, P_Mcmc | numerical operators of mcmc.py plugged into the loops: steps, transition, tuning, start points, SK-ROCK (C07, C10, C12, C13, C16) |
| Measure, MeasSpec, MeasProof, P_Meas | measurements.py: Identity, PathIntegral, WeakLensingHarmonic, WeakLensing (C29-C32) |
| Transforms, TransSpec, P_Trans | transforms.py and the two operators of forward.py (C33, C45) |
| P_Works | loops whose operators may raise outside the states a run reaches; operators of matching shape never raise, so numerical runs end (C01, C06, C17, C36, C43) |
| Objects, ObjSpec, ObjProof, P_Objects | heap of objects with attribute dictionaries: PxMCMCParams, PxMCMC.__init__, runs as heap actions, save_mcmc (C18, C44) |
| P_Keys | attribute dictionaries and files keep one entry per name (C18, C44) |
| Uncertainty, UncProof, P_Unc | uncertainty.py (C37-C39) |
| Takahashi, P_Taka | download_takahasi.py: binary_to_fits, option checks (C41, C46) |
| Plotting, P_Plot | plotting.py: data handed to the drawing libraries (C40, C47) |
| Stdout, P_Stdout | suppress_stdout, its users, interleaved threads (C27) |
| Arrays, ArrSpec, ArrProof, P_Arrays | heap of numpy buffers with views: soft, hard, _sign, the priors (C21, C42) |
| HSampler, HSampSpec, HSampProof | the sampler loops on that heap, and that they simulate the value-level loops |
| HMcmc, HMcmcSpec, HMcmcProof, P_HSampler | steps, gradients, log posterior, start point and constructor on the heap; runs change only their own tracking arrays (C42) |
| HOps, P_HOps | the shipped operators on the heap (C42) |
| ExpData, ExpSpec, ExpProof, P_ExpTopo, P_ExpTopoB, P_ExpPaths, P_ExpLens | the experiment scripts' data preparation and operators (C48-C50) |
| ExpRun, ExpRunSpec, P_ExpRun | the scripts' parameters, regulariser, sampler choice, run and saved file (C51) |
| ExpPlot, ExpPlotSpec, P_ExpPlot, P_ExpPlotB, P_ExpPlotC | the plotting scripts: figures, printed lines, saved arrays (C52) |
| ExpLink, P_ExpLink, P_ExpOpen | plot.py opening the file main.py wrote; whole workflows (C53) |
| P_TestsA, P_TestsB | what tests/ asserts, for all inputs (C54) |
| Download, P_Download | download_takahasi.py: download_binary and the main script over a directory and a server (C55) |
| StableProof, P_Stable | no new model: the step of Mcmc.v and the loop of Sampler.v under a shared generator (C56) |
| Calls, CallsSpec, CallsProof, P_Calls, P_CallsB | mcmc.py: the three run methods, logpi, _gradlogpi and _K_recursion again, with user methods that have effects on an environment which also holds the generator; the stage s-1 is evaluated twice as in the source (C57). Attributes data, invcov, nparams are fixed during a run; methods do not touch the sampler object |
| Ieee, IeeeProof, P_Ieee, P_IeeeLim | mcmc.py logpi, MYULA.chain_step, calc_logtransition, _tune_delta, the acceptance test and _initial_sample in floating point (real case): a float is a real, an infinity or NaN, results on numbers go through an arbitrary rounding function (C58). Zeros have no sign, sums from left to right, no broadcasting of arrays, operators are functions on floats; SKROCK is in FloatSk. P_IeeeLim pins the tables of the operations as limits of the real operations |
| ParamSpec, ParamProof, RepSpec, ExactProof, PermProof, P_Param | relations between two executions of the loops of Sampler.v on different types; the float model against Mcmc.v; Mcmc.v with reordered parameters (C59) |
| MomentSpec, MomentProof, P_Moments | expectations over finite laws of the random vectors, the generator reading a list of future values; no new code modelled (C60) |
| SkDivProof, P_SkDiv | no new model: the stages of Mcmc.v (K_recursion) on convex problems (C61) |
| RoundProof, P_Round | no new model: the float sampler of Ieee.v compared with the exact one of Mcmc.v (C62) |
| FloatOps, P_FloatOps, P_FloatOpsB | utils.py 55-67, 84-88, prior.py 28-50 (synthesis), measurements.py 69-83, forward.py 36-46, 60-70, 74-88 (error vector, analysis, no transform) in floating point, real case. Sparse matrices are rows of stored entries; a sparse vector made of a dense one does not store zeros. Left out: signed zeros, pairwise sums, complex numbers, the order in which scipy adds the entries of a row (here: column order) |
| FloatProof, FloatNear, P_FloatNear | no new model: the dense matrix of a list of sparse rows, exact and rounded values of the operators of FloatOps |
| FloatSk, FloatSkProof, P_FloatSk, P_FloatSkB | utils.py chebyshev1/2 and derivative, mcmc.py SKROCK.__init__, _gradlogpi, chain_step, _K_recursion, _recursion_coefs in floats; coefficients as a function of the stage |
| LimProof, LimOps, LimRun, LimTie, LimInst, LimSpec, LimEnd, LimSet, P_Limit, P_LimitB | no further source; LimSpec says when arrays, states and runs in floats are at a distance of at most e from those with real numbers, LimTie has the sampler that accepts ties |
| P_PathStep | no further source; loads of the pixels of a path matrix |
| FloatUnc, FloatUncProof, P_FloatUnc, P_FloatUncB, P_FloatUncC, P_FloatUncD | uncertainty.py credible_interval_range, credible_region_threshold, in_credible_region, utils.py hard, norm, snr in floats; np.quantile transcribed from numpy 1.24.4 (the version of poetry.lock), with sort and partition putting NaN last. wavelet_credible_interval_range is not repeated in floats; the number of samples is not rounded; the OverflowError of int(inf) appears as OpError 0 |
| ErgSpec, ErgProof, P_Ergodic | vocabulary for laws of samples (means of Lipschitz functions), one MYULA step written with the functions of Forward.v and Mcmc.v; no new model of the package |
| Args, ArgsRun, ArgsSpec, ArgsProof, P_Args | the add_argument tables of the six scripts, the part of argparse (CPython 3.11.10, Lib/argparse.py) that they use, and what the scripts read from the result. float() and int() are oracles, words are byte strings, messages are not modelled (only exit status 0 or 2). The model was compared with argparse itself on 4500 random command lines: same results |
| TuneSpec, TuneProof, P_Tune | no new model: the tuned step sizes and acceptance traces of Sampler.v and Mcmc.v over many iterations |
| ExpTruth, P_ExpTruth | the images, path matrix and observations with which the plotting scripts compare; subtraction with broadcasting (C72) |
| TurnSpec, TurnProof, P_Turn | weights turned by complex data: steps, recorded misfit, distance between runs, spread of the rows (C73) |
| FarSpec, P_Far | the acceptance ratio of PxMALA on a Gaussian target, and runs started far away (C74) |
| FarCSpec, P_FarC | the same ratio on complex samples (C75) |
| SteepSpec, P_Steep | runs of PxMALA started where the gradient is large (C76) |
| P_SteepT | the same with a tuned step size (C77) |

## Trusted base

* The Coq 8.16.1 kernel (no plugins beyond the standard tactics, no kernel flag changed).
* The axioms that `Print Assumptions` prints beneath each theorem:
  the theorems of P_Samplers are closed under the global context; theorems over the reals use
  the standard library's `ClassicalDedekindReals.sig_forall_dec`, `ClassicalDedekindReals.sig_not_dec`,
  `FunctionalExtensionality.functional_extensionality_dep`, and those using integrals
  or derivatives through Coquelicot also `Classical_Prop.classic`. Coquelicot itself adds no axiom.
* The correspondence of model and Python code: by reading; each definition cites the lines it transcribes.

## Plan per property

| id | modelled | proof |
|----|----------|-------|
| C01 | MYULA.run loop on fuel, generic in operators | loop invariant: after m iterations the arrays hold the on-grid iterates among the first m; closed form of the m at which N are reached |
| C02 | _tracking, logpi calls in the three loops | same invariant, row-wise relation |
| C03 | PxMALA.run with caches vs an uncached specification loop | refinement by induction on fuel |
| C04 | acceptance_trace and the accept branch | invariant over iterations |
| C05 | save condition of PxMALA | invariant with the list of accepted on-grid iterations; refutation of the fixed stride by a computed witness |
| C06 | PxMALA.run on fuel | stops iff the N-th accepted on-grid iteration exists; all-reject witness never stops for any fuel |
| C07 | _tune_delta, deltas_trace | real analysis on the clamped update, induction over histories |
| C08 | pairs of runs | corollaries of the closed forms of C01/C05 |
| C09 | loops with raising operators / stopped fuel | prefix invariant for every fuel and outcome |
| C10 | _initial_sample on a sum type of start points | case analysis |
| C11 | second run on the state left by the first | every row is overwritten (C01) |
| C12 | chain_step, _gradlogpi | field arithmetic on complex vectors; derivative of the Moreau envelope |
| C13 | calc_logtransition, logalpha | antisymmetry, exp; computed counterexample for the true proposal |
| C14 | logpi | algebra, positivity |
| C15 | forward, calc_gradg | exact quadratic expansion from adjointness; derivative corollary |
| C16 | _recursion_coefs, _K_recursion | computation for s=1; refutation for s=2 and for all s>=2 where possible |
| C17 | _build_inverse_covariance_matrix | decision table |
| C18 | save_mcmc as a function to a file value | map reasoning |
| C19 | flatten_mlm, expand_mlm with Python slices | list/index reasoning |
| C20 | soft, _sign | variational inequality |
| C21 | hard with sorting | order statistics |
| C22 | chebyshev1/2, cheb1der | induction, derivative |
| C23 | calc_pixel_areas | telescoping sums |
| C24 | mw_weights, weights_theta (fft, ifftshift), mw_map_weights, s2_integrate | discrete orthogonality, integration of cos k sin, telescoping positivity bound |
| C25 | norm, snr | logarithm laws |
| C26 | build_mask loops | fold invariants |
| C27 | suppress_stdout as state transformer; two-thread interleavings | case analysis; computed schedule |
| C28 | _multires_bandlimits | list reasoning |
| C29 | Identity | sums |
| C30 | PathIntegral | exchange of sums |
| C31 | WeakLensingHarmonic | index arithmetic of the double loop |
| C32 | WeakLensing | gather/scatter lemmas, composition of adjoints |
| C33 | SphericalWaveletTransform over oracles | composition |
| C34-C36 | priors | from C20 |
| C37-C39 | quantile by sorting and interpolation | order statistics |
| C40 | arithmetic/slicing part of plotting | list reasoning; drawing itself is not modelled |
| C41 | binary_to_fits over a word stream | induction over blocks |
| C42 | heap of arrays | frame reasoning |
| C46 | asserts of the download script | case analysis |
| C47 | plot_evolution | list reasoning |
| C48-C50 | the parts of experiments/*/main.py between reading the options and building the sampler | table and index reasoning, on top of C15, C17, C23, C26, C32; file formats, HEALPix, GreatCirclePath and the pool's processes are oracles |
| C51 | the rest of experiments/*/main.py, on the object heap and file system of C18/C44 | combines C01, C05, C07, C12, C18, C36, C44 and P_Works. The lensing script runs outside its `if __name__` block; importing it is not modelled |
| C52 | experiments/*/plot.py as programs that emit outputs; NaN is None | inversion of complete runs, on top of C37, C39, C40, C47, C26, C32; complex quantiles by lexicographic sorting. Not modelled: titles and colour maps; the reading of the truth maps and the broadcasting of truth - MAP are in C72 |
| C53 | reading keys of the .hdf5 file; plot.py on that file | C51's description of the file, C33/C36/C48-C50 for sizes, C52 for completion. P_ExpOpen: for any file, what opening it gives, and the exception when an entry is missing or of another kind. Assumed: h5py returns numbers, strings and numeric arrays as stored; pys2let's transforms are adjoint with fixed sizes |
| C54 | the assertions of tests/ (not the test code) | instances and consequences of C17, C19-C24, C30-C36, C45, C01, C06, C10; hard: counting entries above the cut; harmonic kernel: zero set of the multiplier |
| C55 | download_binary, main script of download_takahasi.py as a transformer of directory, requests and output | case analysis of every step; file names by decoding all accepted options; computed witnesses. Not modelled: failing open/rename, the progress bar, concurrent runs |
| C56 | chain_step, gradlogpi, gradg, proxf, MYULA.run | firm non-expansiveness of proximal maps, co-coercivity of the data gradient, induction on the path, C01 for the rows. Only distances of coupled chains: for laws see C69 |
| C57 | run of the three samplers, logpi, _gradlogpi, _K_recursion with effects | Hoare-style rules for the trace of calls (a beginning if the run does not return), simulation for private effects, schedule arithmetic of C01 |
| C58 | logpi, chain_step, calc_logtransition, _tune_delta, run of MYULA and PxMALA on floats | case analysis of the IEEE tables; the transition density sees every entry of both samples; lifted to runs by the reference executions of C01 and C03 |
| C59 | Sampler.v, Mcmc.v and Ieee.v | logical relation for the state and exception monad, one lemma per operation of the loops; permutation invariance of the sums |
| C60 | MYULA.run, chain_step, gradlogpi, logpi | recorded rows as functions of the noise (C01, C12), induction on the steps with the contraction of C56; Gaussian moments by parts |
| C61 | SKROCK.run, chain_step, _K_recursion, _recursion_coefs | the factor of stage j >= 2 is T_(j-1)(omega_0)/T_j(omega_1), at least 1 in absolute value because omega_1 < 1 <= omega_0 (SKROCK has T_j(omega_0) in the denominator); lower bounds on the distance of the stages by induction, rows by C01, mean square by comparing two noise sequences that differ in the first step. Larger steps are covered for two stages without regulariser only |
| C62 | MYULA.run, chain_step in floating point | forward error of the eight operations of chain_step for numbers of bounded size, then the contraction of C60 (next_mean) makes the errors a geometric series; rows by C01. The float operators are any functions close to the exact ones on the box; draws are bounded (every float generator has such a bound). Real parameters only |
| C63 | soft, _sign, L1, PathIntegral, ForwardOperator in floating point | case analysis on special values; monotone symmetric rounding (rounding record) for the numbers; NaN and agreement followed through one MYULA step entry by entry, then along the chain and the rows of a run (C01); zero errors: every term of the sum of squares is NaN or non-negative and one is NaN or infinite, then C58_accepted and C03 |
| C64 | weights, predictions, gradients, soft and MYULA chains with rounding against exact arithmetic | the sparse rows are identified with a dense matrix and its adjoint (exact_paths, then C59); sums of rounded products by induction over the stored entries, soft by cases with its jump-free exact form; the constants go into C62_runs, convexity from the adjoint pair (C30), the real diagonal weights and soft as a proximal map (C56) |
| C65 | SKROCK in floating point | one induction over the stages for any class of values that absorbs (NaN; not finite); exact arithmetic by the parametricity of C59 with the float step related to the exact one; spread over paths by composition of the one-stage spread; two chains by C61 (sample_grows) with an error term per step |
| C66 | The limit of exact arithmetic | families of values over a filter of settings (rounding, start, state) that tend to a limit; every operation of the float model is continuous at finite values; the generic sampler text by a relation between a family of runs and one run, as in C59; the accept test is continuous unless log u = log alpha |
| C67 | Step sizes for path integrals | Schur test for the path matrix (weighted Cauchy-Schwarz, exchange of sums), then C64_convex with lo = 0; C56 and C61 for the exact runs, C66 for those in floats |
| C68 | Special values and rounding in the analysis of chains | uniqueness of the sorted list; index by index cases; Lipschitz bound of the interpolation in samples and position; C58 and C66 for the runs |
| C69 | chain_step, gradlogpi, MYULA.run (C60) | contraction of the means of Lipschitz functions (same noise, two starts), Cauchy sequence of means, correlations of rows decay geometrically, C01 and C60 for the rows; Chebyshev. The noise has a finite law: the normal law itself is not treated, nor PxMALA and SKROCK |
| C70 | parse_args, _parse_known_args, _parse_optional, _get_option_tuples, _match_arguments_partial, consume_optional, consume_positionals; the six tables | each word falls into exactly one class; the loop, which consumes runs of positionals, equals one that goes word by word (greedy matching; fuel suffices); induction over the line. The grammar and the meaning are stated without the loop. A second word -- is dropped by argparse and leaves an empty list: modelled |
| C71 | _tune_delta in the loop of PxMALA | the logarithm of the step size adds up (a_i - 1/2)/(i + 1)^(3/4) up to a summable error, and clipping moves it one way only; summation by parts turns bounds on all tails of the weighted sum into a bound on the plain count. Nothing is assumed of the acceptance probabilities |
| C72 | truth maps, path matrix and data read by plot.py; numpy subtraction of 2-D arrays | C48-C50 for the misfits, C52 for the figures; sums over visible pixels against sums over the survey. Assumed for topography: pys2let and pyssht agree on the map with given coefficients. Single-pixel truth maps are compared by broadcasting in np_sub2 but are a ValueError in C52 |
| C73 | forward.py:80-82 with the MYULA run of a real chain | the operators and noise laws of C56 and C60; the weights of the real counterpart are Hermitian, those of complex data that matrix times exp(-i pi/4) (C73_turned). The exact spread is for no regulariser and equal curvature in all directions |
| C74 | mcmc.py:203-289 with fixed step size and real samples | the problem is given by what its operators return at real samples (`well`: gradient w (x - c), prox the identity, log posterior e - w times the squared distance); C74_wells gives such problems for all dimensions. Exact arithmetic: log 0 and overflow of the fourth powers are not in it |
| C75 | mcmc.py:281-289 and the comparison of line 245, complex samples | problems given by what their operators return (`cwell`), with real weights; C75_wells gives some for all dimensions. Complex numbers compare lexicographically, as numpy does (C13_accept_rule_complex) |
| C76 | mcmc.py:203-289 with fixed step size and real samples | the problems of C56 with a regulariser that moves samples by a bounded amount (`tame`; C76_regularisers: both L1 priors) and real gradients at real samples (`real_drift`). The normal vectors are bounded and the uniform numbers bounded away from 0, which leaves out the uniform number 0. Exact arithmetic, as in C74 |
| C77 | mcmc.py:203-289 with tune_delta=True and real samples | as C76. The gradients concerned are of the order 10^18 and more for parameters of order 1, because the smallest step size is lmda/10^8; in floating point their fourth powers are still finite |
| C45 | SphericalWaveletTransformOperator, PathIntegralOperator | composition of C29/C30, C33, C15 |
| C43, C44 | sampler loops | invariant |

Not stated: convergence in law of PxMALA and SKROCK chains, and of MYULA chains
with Gaussian noise (C60 and C69 are for noise laws with finitely many values;
Gaussian laws need measure theory), distance of the law of C69 from the
posterior beyond the moments of C60, drawing, timing.
