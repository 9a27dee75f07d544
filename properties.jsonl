{"id": "C01", "title": "MYULA burn-in and thinning schedule", "statement": "MYULA.run with nsamples=N, nburn=b>=0 and thinning g=ngap (0 meaning 1) performs exactly b+(N-1)*g+1 chain steps (none if N=0), then stops; saved sample j is the iterate obtained after exactly b+j*g+1 chain steps from the start point. No other iterate is saved and every one of the N rows is written.", "quantifier": "every N, b, g, start point, operator, prior and random stream", "why_tests_cant": "tests run one (100,10,5) schedule and check nothing about which iterates were stored", "anchors": ["pxmcmc/mcmc.py:MYULA.run", "pxmcmc/mcmc.py:PxMCMC._tracking"]}
{"id": "C02", "title": "Saved rows are mutually aligned", "statement": "For every saved index j of MYULA, PxMALA and SKROCK, chain[j], preds[j], logPi[j], L2s[j] and priors[j] all describe the same iterate X: preds[j] is forward(X) and (logPi,L2,prior)[j] is logpi(X, forward(X)), each after the cast to the dtype of the array it is stored in (imaginary parts are dropped from float arrays).", "quantifier": "every run of every sampler, all operators and random streams", "why_tests_cant": "a misaligned cache would only show for particular accept/reject histories", "anchors": ["pxmcmc/mcmc.py:MYULA.run", "pxmcmc/mcmc.py:PxMALA.run", "pxmcmc/mcmc.py:SKROCK.run", "pxmcmc/mcmc.py:PxMCMC._tracking", "pxmcmc/mcmc.py:PxMCMC.logpi"]}
{"id": "C03", "title": "PxMALA cached quantities never go stale", "statement": "PxMALA.run, which carries predictions, gradient, prox and log posterior of the current state across iterations, produces exactly the same trajectory, traces and saved rows as a Metropolis-Hastings loop that recomputes all of them from the current state at each iteration.", "quantifier": "every accept/reject history of any length, every operator and prior", "why_tests_cant": "needs every accept/reject history", "anchors": ["pxmcmc/mcmc.py:PxMALA.run"]}
{"id": "C04", "title": "PxMALA acceptance record", "statement": "After a PxMALA run acceptance_trace has one entry per iteration, each 0 or 1; entry i is 1 exactly when log(u_i) < logalpha_i; on 1 the next state is the proposal, on 0 the state (and its predictions, gradient, prox, log posterior) is unchanged.", "quantifier": "every run, iteration and uniform draw", "why_tests_cant": "quantifies over all random streams", "anchors": ["pxmcmc/mcmc.py:PxMALA.run"]}
{"id": "C05", "title": "Which PxMALA iterates are saved", "statement": "PxMALA saves, in order, exactly the first N iterates i>=nburn that lie on the thinning grid ((i-nburn) divisible by ngap, or ngap=0) and whose proposal was accepted. In particular it does NOT save the iterate at nburn+j*ngap as documented for ngap when proposals are rejected.", "quantifier": "every accept/reject history, N, nburn, ngap", "why_tests_cant": "needs every accept/reject history", "anchors": ["pxmcmc/mcmc.py:PxMALA.run", "pxmcmc/mcmc.py:PxMCMCParams"]}
{"id": "C06", "title": "PxMALA termination", "statement": "A user expects run to stop for every random stream. PxMALA.run terminates iff at least N on-grid proposals after burn-in are accepted, and stops at the N-th such iteration; with persistent rejection it never terminates.", "quantifier": "every accept/reject history", "why_tests_cant": "non-termination cannot be observed by a test", "anchors": ["pxmcmc/mcmc.py:PxMALA.run"]}
{"id": "C07", "title": "Tuned step size stays in its band", "statement": "With tune_delta and lmda>0, after every iteration delta is in [1e-8*lmda, lmda/2]; an accepted proposal never decreases and a rejected proposal never increases a delta that lies in the band; deltas_trace starts with the initial delta, holds the delta in force after every iteration (length iterations+1), and is just [delta] when not tuning; the change at iteration i is at most lmda/4*(i+1)^(-3/4), so adaptation vanishes.", "quantifier": "every accept/reject history of any length, every lmda>0, every initial delta", "why_tests_cant": "an invariant over unbounded histories", "anchors": ["pxmcmc/mcmc.py:PxMALA._tune_delta", "pxmcmc/mcmc.py:PxMALA.run"]}
{"id": "C08", "title": "Observation settings do not change the chain", "statement": "For the same start point and random stream: increasing nsamples only appends rows; the chain with thinning g and burn-in b is rows b, b+g, b+2g,... of the unthinned chain with no burn-in; and the track list and verbosity never change the rows that are recorded (MYULA, SKROCK; prefix stability also for PxMALA).", "quantifier": "every pair of runs related by N, b, g, track or verbosity", "why_tests_cant": "relational (two-run) property over all streams", "anchors": ["pxmcmc/mcmc.py:MYULA.run", "pxmcmc/mcmc.py:PxMALA.run", "pxmcmc/mcmc.py:SKROCK.run"]}
{"id": "C09", "title": "Interrupted runs leave a valid prefix", "statement": "If a run is stopped at any iteration boundary, or an operator raises in any iteration, then the rows recorded so far are exactly those of the uninterrupted run and all later rows are still zero (an exception while a row is being stored can leave only that one row incomplete).", "quantifier": "every crash point and every exception", "why_tests_cant": "crash points are unbounded", "anchors": ["pxmcmc/mcmc.py:MYULA.run", "pxmcmc/mcmc.py:PxMALA.run", "pxmcmc/mcmc.py:SKROCK.run"]}
{"id": "C10", "title": "Start point validation", "statement": "run(start_point) starts from the given point iff it is a 1-D numpy array of length nparams; any other type or dimensionality raises TypeError and any other length raises ValueError, before any sample is drawn or recorded; None draws nparams Laplace variates (plus nparams imaginary ones if complex).", "quantifier": "every start point value and shape", "why_tests_cant": "universal over inputs", "anchors": ["pxmcmc/mcmc.py:PxMCMC._initial_sample"]}
{"id": "C11", "title": "Re-running a sampler", "statement": "Calling run a second time on the same MYULA or SKROCK object with the same start point and random stream overwrites all recorded arrays and gives the same arrays as a fresh object. For PxMALA with tune_delta the second run starts from the tuned delta, so it need not.", "quantifier": "every number and history of earlier runs", "why_tests_cant": "history property", "anchors": ["pxmcmc/mcmc.py:MYULA.run", "pxmcmc/mcmc.py:PxMALA.run", "pxmcmc/mcmc.py:SKROCK.run"]}
{"id": "C12", "title": "MYULA step is the discretised Langevin step of the smoothed posterior", "statement": "The MYULA transition equals X + delta*gradlogpi(X) + sqrt(2 delta) w where gradlogpi(X) = -(X-prox(X))/lmda - gradg(forward(X)); and (X-soft(X,lmda*mu))/lmda is the gradient of the Moreau-Yosida envelope of mu*||.||_1.", "quantifier": "every X, prox, gradg, delta, lmda != 0, noise (complex or real)", "why_tests_cant": "universal algebraic identity", "anchors": ["pxmcmc/mcmc.py:MYULA.chain_step", "pxmcmc/mcmc.py:PxMCMC._gradlogpi", "pxmcmc/utils.py:soft"]}
{"id": "C13", "title": "PxMALA acceptance ratio and detailed balance", "statement": "The acceptance rule must make the chain reversible: pi(X)q(X,Y)a(X,Y)=pi(Y)q(Y,X)a(Y,X). This holds with the q computed by calc_logtransition, but calc_logtransition is not the density of the proposal that chain_step draws, and with the actual proposal density the identity fails.", "quantifier": "every pair of states X,Y, delta, lmda", "why_tests_cant": "universal over state pairs", "anchors": ["pxmcmc/mcmc.py:PxMALA.calc_logtransition", "pxmcmc/mcmc.py:PxMALA.run", "pxmcmc/mcmc.py:MYULA.chain_step"]}
{"id": "C14", "title": "Log posterior decomposition", "statement": "logpi returns (logPi, L2, prior) with logPi = -mu*prior - L2 and L2 = (data-preds)^H invcov (data-preds); for real data and positive errors L2 is real, nonnegative, zero exactly when preds = data; hence logPi <= 0 for mu>=0 with the L1 priors. With complex data and a real sig_d, L2 and logPi are not real.", "quantifier": "every X, preds, data, errors", "why_tests_cant": "universal", "anchors": ["pxmcmc/mcmc.py:PxMCMC.logpi", "pxmcmc/forward.py:ForwardOperator._build_inverse_covariance_matrix"]}
{"id": "C15", "title": "calc_gradg is the gradient of the data fidelity", "statement": "For adjoint-correct linear operators and Hermitian inverse covariance, calc_gradg(forward(X)) is the gradient of half of the L2 reported by logpi (L2(X+h) = L2(X) + 2 Re<gradg,h> + O(h^2), exactly), in both the analysis and synthesis settings; it is NOT the gradient of the L2 that enters logPi (factor 2).", "quantifier": "every X, direction h, operator pair, data, covariance", "why_tests_cant": "universal over inputs and directions", "anchors": ["pxmcmc/forward.py:ForwardOperator.calc_gradg", "pxmcmc/forward.py:ForwardOperator.forward", "pxmcmc/mcmc.py:PxMCMC.logpi"]}
{"id": "C16", "title": "SKROCK step is a consistent explicit stabilised scheme", "statement": "With s=1 the SKROCK step is X + delta*gradlogpi(X+0.525 sqrt(2 delta) Z) + sqrt(2 delta) Z. A consistent s-stage scheme leaves X fixed when gradient and noise vanish; the implementation does not for s>=2.", "quantifier": "every X, Z, delta, s", "why_tests_cant": "universal over s and X", "anchors": ["pxmcmc/mcmc.py:SKROCK.chain_step", "pxmcmc/mcmc.py:SKROCK._K_recursion", "pxmcmc/mcmc.py:SKROCK._recursion_coefs"]}
{"id": "C17", "title": "Inverse covariance construction", "statement": "ForwardOperator accepts a scalar (float/int/complex), a vector of length len(data), or a square 2-D array for sig_d: scalars and vectors give the diagonal matrix with entries 1/sig^2; non-square 2-D arrays raise ValueError, other vectors TypeError; an unknown setting raises ValueError.", "quantifier": "every sig_d of every kind and size, every data vector", "why_tests_cant": "universal over inputs", "anchors": ["pxmcmc/forward.py:ForwardOperator.__init__", "pxmcmc/forward.py:ForwardOperator._build_inverse_covariance_matrix"]}
{"id": "C18", "title": "save_mcmc writes exactly what was tracked", "statement": "The file contains a dataset under its documented name for each array the sampler has, with that array's contents, and no other dataset; its attributes are exactly the parameters in params overridden by the keyword arguments; nothing of a previous file of that name survives.", "quantifier": "every sampler state, params object, keyword arguments and previous file", "why_tests_cant": "universal over tracked subsets and file histories", "anchors": ["pxmcmc/saving.py:save_mcmc"]}
{"id": "C19", "title": "Coefficient packing round-trips", "statement": "expand_mlm(flatten_mlm(wav,scal), nscalcoefs=len(scal)) = (wav,scal); with nscales and a (v,nscales) array and v scaling coefficients it also round-trips; flatten_mlm(expand_mlm(m, nscales)) is m iff len(m) is divisible by nscales+1, otherwise the trailing len(m) mod (nscales+1) coefficients are dropped; invalid argument combinations raise the documented errors.", "quantifier": "every array contents, size, number of scales, including negative arguments", "why_tests_cant": "all sizes", "anchors": ["pxmcmc/utils.py:flatten_mlm", "pxmcmc/utils.py:expand_mlm"]}
{"id": "C20", "title": "soft is the proximal map of the weighted L1 norm", "statement": "For T>=0 (scalar or per-component) soft(X,T) is the unique minimiser of 1/2||u-X||^2 + sum_i T_i|u_i| over complex vectors u; it is nonexpansive, preserves phase and length, and maps exactly the components with |X_i|<=T_i to 0.", "quantifier": "every complex vector X and nonnegative threshold", "why_tests_cant": "universal optimisation statement", "anchors": ["pxmcmc/utils.py:soft", "pxmcmc/utils.py:_sign"]}
{"id": "C21", "title": "hard keeps the largest fraction", "statement": "For 1 <= k=int(T*len(X)) <= len(X), hard(X,T) keeps at least k entries unchanged, zeroes the others, every kept magnitude is >= every zeroed one, and with distinct magnitudes keeps exactly k. For T*len(X) < 1 it keeps everything instead of nothing. It overwrites its argument.", "quantifier": "every vector and fraction", "why_tests_cant": "all sizes and orderings", "anchors": ["pxmcmc/utils.py:hard"]}
{"id": "C22", "title": "Chebyshev evaluations", "statement": "chebyshev1(x,n) and chebyshev2(x,n) are the Chebyshev polynomials (T_n(cos t)=cos nt, U_n(cos t) sin t = sin (n+1)t), cheb1der(x,n) is the derivative of chebyshev1(.,n) at x, and negative orders raise ValueError.", "quantifier": "every order and real x", "why_tests_cant": "all orders", "anchors": ["pxmcmc/utils.py:chebyshev1", "pxmcmc/utils.py:chebyshev2", "pxmcmc/utils.py:cheb1der"]}
{"id": "C23", "title": "Pixel areas tile the sphere", "statement": "The areas returned by calc_pixel_areas(L,r) are all positive for r != 0 and sum to 4 pi r^2.", "quantifier": "every bandlimit L>=1 and radius", "why_tests_cant": "all L", "anchors": ["pxmcmc/utils.py:calc_pixel_areas", "pxmcmc/utils.py:pixel_area", "pxmcmc/utils.py:polar_cap_area"]}
{"id": "C24", "title": "Quadrature weights integrate band-limited functions exactly", "statement": "s2_integrate(f,L) equals the surface integral of f over the sphere for every function f(theta,phi)=sum_{|m|<L} g_m(theta)e^{im phi} whose axisymmetric part g_0 is a polynomial of degree < L in cos theta (hence every function band-limited at L), f sampled on the MW grid; all weights are positive and sum to 4 pi.", "quantifier": "every L>=1 and every band-limited function", "why_tests_cant": "all L and all functions", "anchors": ["pxmcmc/utils.py:s2_integrate", "pxmcmc/utils.py:mw_map_weights", "pxmcmc/utils.py:weights_theta", "pxmcmc/utils.py:mw_weights"]}
{"id": "C25", "title": "snr behaves like a decibel ratio", "statement": "snr(c*s,n)=snr(s,n)+20log10|c|, snr(s,n)=-snr(n,s), snr=0 iff equal norms and it is monotone in the signal norm, for nonzero signal and noise.", "quantifier": "every pair of nonzero arrays and scale", "why_tests_cant": "universal", "anchors": ["pxmcmc/utils.py:snr", "pxmcmc/utils.py:norm"]}
{"id": "C26", "title": "build_mask masks exactly the two bands", "statement": "build_mask(L,size) has the MW shape, entries 0 or 1, and is 0 exactly at pixels whose |90-colatitude| < size degrees or whose absolute galactic latitude < size degrees; enlarging size only enlarges the masked set.", "quantifier": "every L, size and pixel", "why_tests_cant": "all L and pixels", "anchors": ["pxmcmc/utils.py:build_mask"]}
{"id": "C27", "title": "suppress_stdout restores stdout", "statement": "After the with-block sys.stdout is the object it was before, whether the body returns or raises, for any nesting. In interleaved threads this fails: stdout can be left pointing to a closed file.", "quantifier": "every body, nesting and thread schedule", "why_tests_cant": "all schedules", "anchors": ["pxmcmc/utils.py:suppress_stdout", "pxmcmc/utils.py:map2alm", "pxmcmc/utils.py:alm2map"]}
{"id": "C28", "title": "Multiresolution band limits", "statement": "_multires_bandlimits returns, for the scaling function and each wavelet scale, the smallest band limit above which its harmonic window vanishes on m=0; it raises if a window vanishes identically.", "quantifier": "every tiling", "why_tests_cant": "universal over tilings", "anchors": ["pxmcmc/utils.py:_multires_bandlimits"]}
{"id": "C29", "title": "Identity measurement", "statement": "Identity(ndata,npix).forward keeps the first min(ndata,npix) pixels and zero-pads, adjoint is its exact adjoint, equal sizes make both the identity, wrong lengths raise AssertionError.", "quantifier": "every ndata, npix and vectors", "why_tests_cant": "all sizes", "anchors": ["pxmcmc/measurements.py:Identity"]}
{"id": "C30", "title": "PathIntegral adjoint", "statement": "PathIntegral.forward is multiplication by the path matrix and adjoint satisfies <y,forward(x)> = <adjoint(y),x> for all x,y; wrong lengths raise AssertionError.", "quantifier": "every complex matrix and vectors", "why_tests_cant": "all matrices", "anchors": ["pxmcmc/measurements.py:PathIntegral"]}
{"id": "C31", "title": "Harmonic weak lensing operator", "statement": "The kernel at index l^2+l+m is -sqrt((l+2)(l-1)/((l+1)l)) for l>=2; forward is linear, self-adjoint, zero on l<2 and norm-nonincreasing; sks_estimate inverts it on l>=2 and zeroes l<2; L<1 raises ValueError.", "quantifier": "every L>=1 and every coefficient vector", "why_tests_cant": "all L", "anchors": ["pxmcmc/measurements.py:WeakLensingHarmonic"]}
{"id": "C32", "title": "Masked weak lensing operator", "statement": "mask_forward lists unmasked pixels in row-major order, mask_adjoint is its exact adjoint and right inverse and fills masked pixels with 0; WeakLensing.adjoint is the adjoint of WeakLensing.forward whenever pyssht's adjoint pairs are; shape errors are reported as ValueError as documented (a 2-D mask of the wrong shape raises IndexError instead) and NaN signals are rejected as documented (they are not).", "quantifier": "every mask, galaxy count map and signal", "why_tests_cant": "all masks and sizes", "anchors": ["pxmcmc/measurements.py:WeakLensing"]}
{"id": "C33", "title": "Wavelet transform wrapper", "statement": "If the underlying wavelet library's analysis/synthesis are exact inverses (adjoint pairs) on coefficient pairs of the counted sizes, then SphericalWaveletTransform.inverse(forward(x)) = x on images, and forward/forward_adjoint and inverse/inverse_adjoint are adjoint pairs on flat vectors, all of length ncoefs. In harmonic mode the coefficient split is counted in pixel space and is wrong unless the scaling band limit is 1.", "quantifier": "every image, coefficient vector and library oracle", "why_tests_cant": "universal over transforms", "anchors": ["pxmcmc/transforms.py:SphericalWaveletTransform"]}
{"id": "C34", "title": "L1 prior and its prox are consistent (synthesis)", "statement": "In the synthesis setting proxf(X) is the unique minimiser of 1/2||u-X||^2 + T*prior(u); prior is a norm (nonnegative, homogeneous, triangle inequality).", "quantifier": "every X, T>=0", "why_tests_cant": "universal", "anchors": ["pxmcmc/prior.py:L1"]}
{"id": "C35", "title": "L1 prior and its prox are consistent (analysis)", "statement": "In the analysis setting with adj o fwd = identity and adjoint fwd/adj, proxf(X) is the unique minimiser of 1/2||u-X||^2+T||adj(u)||_1. It is not the prox of the function prior() returns, and not the prox of T||adj(.)||_1 for redundant tight frames (fwd o adj = identity only).", "quantifier": "every X, T>=0 and operator pair", "why_tests_cant": "universal", "anchors": ["pxmcmc/prior.py:L1._proxf_analysis", "pxmcmc/prior.py:L1.prior"]}
{"id": "C36", "title": "Weighted wavelet priors and their prox", "statement": "S2_Wavelets_L1.proxf is the prox of T*prior with the quadrature-weighted prior. S2_Wavelets_L1_Power_Weights must have the same property; its threshold carries the product of quadrature and power weights while prior applies the power weights twice, so it does not.", "quantifier": "every X, T, weights", "why_tests_cant": "universal", "anchors": ["pxmcmc/prior.py:S2_Wavelets_L1", "pxmcmc/prior.py:S2_Wavelets_L1_Power_Weights"]}
{"id": "C37", "title": "Credible interval ranges", "statement": "credible_interval_range(chain,alpha) for 0<=alpha<=1 is, per parameter, nonnegative, at most max-min, invariant under reordering and shifting samples, homogeneous under scaling, nonincreasing in alpha, max-min at alpha=0 and 0 at alpha=1.", "quantifier": "every real chain with at least one sample, every alpha", "why_tests_cant": "universal over chains", "anchors": ["pxmcmc/uncertainty.py:credible_interval_range"]}
{"id": "C38", "title": "Credible region membership", "statement": "With threshold credible_region_threshold(logpis,alpha), more than (1-alpha)(n-1) of the n samples are in the region. A credible region must be a highest-posterior-density set; the code's region is downward closed instead and can exclude the MAP sample.", "quantifier": "every vector of log posteriors and alpha", "why_tests_cant": "universal", "anchors": ["pxmcmc/uncertainty.py:credible_region_threshold", "pxmcmc/uncertainty.py:in_credible_region"]}
{"id": "C39", "title": "Wavelet credible intervals partition the parameters", "statement": "wavelet_credible_interval_range returns one (bl,2bl-1) map per scale, and the concatenation of the flattened maps is the credible interval range of the leading sum of bl(2bl-1) parameters, each parameter once, in order; too few parameters raise ValueError.", "quantifier": "every chain and list of band limits", "why_tests_cant": "all sizes", "anchors": ["pxmcmc/uncertainty.py:wavelet_credible_interval_range"]}
{"id": "C40", "title": "Plot scaling, slicing and oversampling", "statement": "plot_map with centre0 uses symmetric limits containing every pixel; plot_wavelet_maps' slices partition the wavelet coefficients in order; _oversample keeps all harmonic coefficients, appends zeros and so returns samples of the same function at the higher band limit.", "quantifier": "every map and bandlimit", "why_tests_cant": "universal", "anchors": ["pxmcmc/plotting.py:plot_map", "pxmcmc/plotting.py:plot_wavelet_maps", "pxmcmc/plotting.py:_oversample"]}
{"id": "C41", "title": "Takahashi binary reader", "statement": "binary_to_fits reads back the npix values of each field from a file written in the blocked record format, for every npix and every contents, consuming exactly the markers between blocks.", "quantifier": "every npix and contents", "why_tests_cant": "files are gigabytes; all sizes", "anchors": ["experiments/weaklensing/download_takahasi.py:binary_to_fits"]}
{"id": "C42", "title": "Library calls do not modify the caller's arrays", "statement": "soft, proxf and the samplers leave the arrays passed by the caller unchanged. hard overwrites its argument, and constructing S2_Wavelets_L1 with an array T overwrites that array.", "quantifier": "every heap of arrays and aliasing", "why_tests_cant": "aliasing over all call histories", "anchors": ["pxmcmc/utils.py:soft", "pxmcmc/utils.py:hard", "pxmcmc/prior.py:S2_Wavelets_L1.__init__"]}
{"id": "C43", "title": "Progress printing never breaks a run", "statement": "With verbosity 0 no track selection makes run raise; with verbosity>0 MYULA and SKROCK raise AttributeError when a progress line is due and any of logposterior, L2, prior is untracked; PxMALA never does. MYULA's printed line always refers to the latest saved row when nburn>=0.", "quantifier": "every track list, verbosity, schedule", "why_tests_cant": "universal over parameters", "anchors": ["pxmcmc/mcmc.py:PxMCMC._print_progress", "pxmcmc/mcmc.py:MYULA.run", "pxmcmc/mcmc.py:SKROCK.run"]}
{"id": "C44", "title": "Parameters object is not modified by sampling", "statement": "Sampling (including delta tuning) never changes the PxMCMCParams object, so save_mcmc records the initial delta; and tracking arrays exist exactly for the known names in track.", "quantifier": "every run and history", "why_tests_cant": "history property", "anchors": ["pxmcmc/mcmc.py:PxMCMC.__init__", "pxmcmc/mcmc.py:PxMALA._tune_delta", "pxmcmc/saving.py:save_mcmc"]}
{"id": "C45", "title": "The shipped forward operators wire their parts correctly", "statement": "SphericalWaveletTransformOperator and PathIntegralOperator, for every admissible setting: the transform is built with the given L, B, J_min, nparams is the length of the transform's coefficient vector (synthesis) or of its sample vector (analysis), forward is the transform (or the identity) followed by the measurement, and calc_gradg is the gradient of half the L2 misfit of that forward map when the transform oracles are an adjoint pair and the inverse covariance is Hermitian (real data).", "quantifier": "every L, B, J_min, setting, data vector, path matrix and transform oracle", "why_tests_cant": "universal over settings, data and transforms", "anchors": ["pxmcmc/forward.py:SphericalWaveletTransformOperator", "pxmcmc/forward.py:PathIntegralOperator", "pxmcmc/transforms.py:SphericalWaveletTransform"]}
{"id": "C46", "title": "Options of the download script", "statement": "The option checks of the Takahashi download script accept exactly nres 12 or 13 with realisation 0..107 and redshift id 1..66 and raise AssertionError otherwise. The documented choice nres=14 with realisation 0 is rejected for every redshift.", "quantifier": "every nres, realisation and redshift id", "why_tests_cant": "universal over integers", "anchors": ["experiments/weaklensing/download_takahasi.py:__main__"]}
{"id": "C47", "title": "plot_evolution marks the MAP samples", "statement": "plot_evolution draws -logposteriors and marks exactly the indices of the largest log posterior, in increasing order, at least one; an empty trace raises ValueError. plot_chain_sample draws the real and imaginary parts, from which the sample is recovered.", "quantifier": "every trace and sample", "why_tests_cant": "universal", "anchors": ["pxmcmc/plotting.py:plot_evolution", "pxmcmc/plotting.py:plot_chain_sample"]}
{"id": "C48", "title": "Data preparation of the topography experiment", "statement": "earthtopography/main.py reads a file with '_hpx_' in its name through HEALPix (band limiting) and otherwise one with '_mw_' as a 2-D MW map, any other name being a ValueError. The noise level of a pixel is |sigma|/sqrt(pixel area), multiplied by scaleafrica exactly on the pixels hit by the 100x100 grid of points over Africa (indices wrap as Python indices do). With noise the data are (image + noise)/1000 with the seeded generator, hence reproducible; without noise image/1000. A negative factor raises ValueError. The data and the error bars are in the same units (false: data in km, error bars in m), and a file in MW sampling can be inverted (false: every residual raises ValueError).", "quantifier": "every band limit, image, sigma, factor, generator and index function", "why_tests_cant": "universal over images, grids and random streams", "anchors": ["experiments/earthtopography/main.py"]}
{"id": "C49", "title": "Data and path matrix of the phase velocity experiment", "statement": "read_datafile returns, row by row, start (columns 0,1), stop (2,3), datum (4), |error| (5) and nsim (7) of any file with at least two rows of eight numbers, and rejects every other file, including one with a single path. Row i of get_path_matrix is the path from start i to stop i. The operator's data are the data column, its inverse covariance is diagonal with 1/(sig^2), or 1/(sig^2 nsim) with --nsim (n similar paths with nsim=n weigh 1/sig^2 together), and predictions are the rows of the matrix times the image. A stored matrix with another number of rows raises AssertionError; one with another number of columns fails at the first prediction; a second run gives the same operator and files. A stored matrix belongs to the paths of the data file (false: it is not checked).", "quantifier": "every data file, stored file, path builder and setting", "why_tests_cant": "universal", "anchors": ["experiments/phasevel/main.py:read_datafile", "experiments/phasevel/main.py:get_path_matrix", "experiments/phasevel/main.py:__main__"]}
{"id": "C50", "title": "Data and operator of the weak lensing experiment", "statement": "weaklensing/main.py keeps exactly the pixels at least 10 degrees from the equator and from the galactic plane and weights each with sqrt(2*30/0.37^2); the data are the weighted shear of the band-limited truth smoothed by 50 arcmin; parameters whose image is the truth have misfit zero. For every other image the misfit is (1-i)/sqrt(2) times gal_weight^4 sum |difference of shear|^2: it equals the chi^2 of the shear (false: it is 600000/1369 times as large in modulus, since weights are applied in the data and in the covariance). The analysis setting can be run (false: nparams is the number of wavelet coefficients, and every prediction raises ValueError unless that is the image size).", "quantifier": "every band limit, galactic latitude function, truth, library oracle and parameter vector", "why_tests_cant": "universal", "anchors": ["experiments/weaklensing/main.py:load_gammas", "experiments/weaklensing/main.py:__main__"]}
{"id": "C51", "title": "What an experiment script runs and saves", "statement": "A script run that ends writes exactly one file, named algo_setting_date_jobid.hdf5 in --outdir, with the run's parameters, the script's own arguments and nothing else as attributes, the four tracked arrays (and PxMALA's two traces) as data sets, and N rows each consistent with its sample; MYULA and SKROCK rows are iterates nburn+500j. With operators of matching shape and a nonzero lmda MYULA and SKROCK end after exactly 49501 (topography), 999501 (phase velocity), 12499501 (lensing) iterations, and nothing raises. --setting analysis runs (false: NotImplementedError); other settings and unknown algorithms raise without writing. The sampler uses the prox of the stated regulariser (true for topography and lensing, false for phase velocity). The step size saved as attribute delta is the one PxMALA uses (false after the first step: at most delta/4, or 5e-7 for topography). A MYULA step with lmda=delta/2 is 2 prox(x) - x - delta grad + sqrt(2 delta) xi.", "quantifier": "every argument set, operator, transform, tiling, random stream and file system", "why_tests_cant": "universal; the shortest run takes 49501 iterations", "anchors": ["experiments/earthtopography/main.py:__main__", "experiments/phasevel/main.py:__main__", "experiments/weaklensing/main.py:__main__", "pxmcmc/saving.py:save_mcmc"]}
{"id": "C52", "title": "What the plotting scripts report", "statement": "A complete run of each plot.py draws, prints and saves exactly the stated list of figures, lines and arrays: evolution, the first sample of largest log posterior and its image, the pixelwise mean and credible ranges of the samples after --burn, differences with the truth with colour limits at the largest magnitude (capped at 100 for phase velocity and lensing), SNRs over the (visible) pixels and relative squared prediction errors. A readable results file is processed to the end. False: a negative --burn keeps the last samples (rows of zeros are averaged in); the topography script handles the saved noise array (ambiguous truth value, ValueError); the phase velocity map titled 95% shows the 95% range (it is the 99% one, nowhere narrower); phase velocity results in the analysis setting can be plotted; the lensing prediction error of the MAP is a number (NaN whenever L >= 256 and the mask is on, because plot_map writes NaN into MAP; a number otherwise); the plotted lensing region is the observed one (it is contained in it: 20 against 10 degrees).", "quantifier": "every results file, command line, truth map, library oracle", "why_tests_cant": "universal", "anchors": ["experiments/earthtopography/plot.py", "experiments/phasevel/plot.py", "experiments/weaklensing/plot.py"]}
{"id": "C53", "title": "Results files can be plotted", "statement": "With pys2let given by adjoint transforms of consistent sizes, the operator and regulariser built by each main.py fit; a MYULA or SKROCK run then ends after the scheduled iterations with its results saved. Opening that file gives back the band limit, wavelet parameters, setting, number of samples, noise and every saved sample; every sample can be turned into an image; the phase velocity and lensing plot.py process every such file to the end, for any burn-in in range. For topography this holds without --makenoise (with --save_npy: TypeError after ten outputs); false: it holds with --makenoise (ValueError after eight figures, nothing printed).", "quantifier": "every command line, dataset, library and generator meeting the size conditions, burn-in, fuel", "why_tests_cant": "universal; a whole run takes hours and needs the data files", "anchors": ["experiments/earthtopography/main.py", "experiments/earthtopography/plot.py", "experiments/phasevel/main.py", "experiments/phasevel/plot.py", "experiments/weaklensing/main.py", "experiments/weaklensing/plot.py"]}
{"id": "C54", "title": "The assertions of the test suite hold for all inputs", "statement": "Beyond the random inputs of tests/: flatten_mlm of constant columns and the shapes from expand_mlm; soft, chebyshev1, chebyshev2 and cheb1der have the values tested for; hard of an array with increasing moduli keeps its last int(T n) entries and zeroes the others; pixel and polar cap areas are the areas of these regions, 4 pi for the whole sphere; s2_integrate of a harmonic expansion is sqrt(4 pi) times the monopole; a path along a parallel integrates every band-limited map over it, 2 pi for the constant 1; WeakLensingHarmonic loses exactly monopole and dipole; both operators of forward.py return one prediction per datum and one gradient entry per parameter, in both settings; L1.proxf with the identity is soft in both settings; the wavelet regularisers raise NotImplementedError for analysis and otherwise work on arrays of map_weights.size entries whatever fwd and adj are; MYULA and SKROCK end with no start point or one of the right length, PxMALA raises nothing, and all three raise ValueError for any other length. False: the parallel test works at L = 1 (IndexError).", "quantifier": "all arrays, sizes, band limits, thresholds, settings, samplers, generators", "why_tests_cant": "the tests use one band limit and random or fixed arrays", "anchors": ["tests/test_utils.py", "tests/test_measurements.py", "tests/test_forward.py", "tests/test_proxes.py", "tests/test_mcmc.py", "tests/test_transforms.py", "tests/conftest.py"]}
{"id": "C55", "title": "What the download script leaves behind", "statement": "For accepted options: different options use different files and none of them is output.fits; the address requested names the resolution's directory. With neither file there and a complete answer the binary file and the map are stored and everything else is as before; with the binary file there it is converted without a request; with the map there nothing changes; a second run after a successful one changes nothing. In every outcome no existing file is changed, other files are untouched, at most one request is made, and a run that comes through leaves a map, a new one being that of the stored binary file. The status code makes no difference; an interrupted transfer is never resumed; a left-over output.fits blocks every later run. False: after an interrupted transfer a further run gives the map (a truncated map is stored silently); an error page is not taken for data; a failed write can be retried.", "quantifier": "every directory state, server behaviour, serialisation, accepted options, sequence of runs", "why_tests_cant": "needs the network and gigabytes; failures cannot be enumerated", "anchors": ["experiments/weaklensing/download_takahasi.py:99-139"]}
{"id": "C56", "title": "MYULA chains that share their random numbers", "statement": "Let the forward operators be linear with correct adjoints, the inverse covariance Hermitian, the curvature (f x)^H W (f x)/||x||^2 between lo >= 0 and hi > 0, X - proxf(X) firmly non-expansive, lmda > 0 and 0 <= delta <= 2/(1/lmda + hi). Then two chains driven by the same random numbers never move apart: the squared distance shrinks in every step by the factor 1 - delta*lo*(2 - delta*(1/lmda + hi)), which lies in [0,1] and below 1 if lo > 0. So row j of two completed runs that differ in the starting point only are within that factor to the power nburn + j*ngap + 1 of the initial distance. X - proxf(X) is firmly non-expansive for every proximal map and for the L1 regularisers of the package (analysis setting: whenever fwd, the adjoint of adj, does not enlarge vectors, so also for redundant Parseval frames); the one-stage SKROCK step has the same contraction; such runs exist, and the drift vanishes exactly at the minimisers of half the chi-squared plus the Moreau envelope of the regulariser. False: the default step is small enough for every problem.", "quantifier": "every linear problem, regulariser, generator, pair of starting points, schedule and number of steps", "why_tests_cant": "stability of a stochastic recursion over all problems; a test sees one random path", "anchors": ["pxmcmc/mcmc.py:84-89", "pxmcmc/mcmc.py:131-201", "pxmcmc/forward.py:36-75", "pxmcmc/prior.py:8-70"]}
{"id": "C57", "title": "Operator calls of the samplers", "statement": "For forward operators and priors with arbitrary side effects: a MYULA run calls forward once for the start and then calc_gradg, proxf and forward once per iteration in this order, and the prior only in saved iterations; PxMALA calls forward, calc_gradg, proxf and the prior once for the start and once per proposal; SKROCK calls forward once for the start, and in each iteration the calls of its s-stage step, one forward, and the prior if the iteration is saved. Runs that raise or are stopped have made a beginning of these calls. Methods whose effects are private (results of pure operators, generator untouched) give exactly the run of the pure operators. An s-stage step evaluates the gradient c(s) times with c(0)=0, c(1)=1, c(s)=1+2c(s-1)+c(s-2) >= 2^s-1. False: s evaluations per step (4059 for the s=10 of the experiments).", "quantifier": "every environment, operator effect, schedule, start, number of stages and number of iterations, and every outcome of the run", "why_tests_cant": "tests use cheap pure operators, one short run each, and compare shapes of the result; no test counts calls", "anchors": ["pxmcmc/mcmc.py:71-111", "pxmcmc/mcmc.py:150-183", "pxmcmc/mcmc.py:217-275", "pxmcmc/mcmc.py:308-368"]}
{"id": "C58", "title": "NaN and infinities in the samplers", "statement": "In floating point with any rounding, for real parameters and any operators: PxMALA accepts no proposal with a NaN entry or with log posterior NaN or -inf, and none from a sample with a NaN entry or with log posterior NaN or +inf; so a finished run records no NaN sample and no log posterior NaN or -inf, and a stopped run writes none. If rounding keeps signs and half of each step size is positive, all recorded sample entries are finite. From a start with a NaN entry or log posterior NaN or +inf, or with a NaN step size, PxMALA accepts nothing and does not return; from a start with log posterior -inf any proposal with an ordinary ratio is accepted. A draw of 0 accepts every ratio that is not NaN or -inf. The tuned step size stays between its bounds unless the proposed value is NaN, in which case it is NaN. A NaN prediction makes L2 and the log posterior NaN. In MYULA a NaN in entry i of the sample, its prox or its gradient is in entry i of every later sample and every row saved afterwards. With fitting shapes and lmda nonzero MYULA returns and PxMALA raises nothing, whatever values occur. False: a finished MYULA run has numbers in its chain.", "quantifier": "every rounding function, operator, prior, start vector (entries may be NaN or infinite), step size, schedule, sequence of draws and number of iterations", "why_tests_cant": "tests start from small finite vectors and run a few well-scaled iterations; the loop that never accepts would only show as a hanging test", "anchors": ["pxmcmc/mcmc.py:71-82", "pxmcmc/mcmc.py:98-111", "pxmcmc/mcmc.py:185-201", "pxmcmc/mcmc.py:217-289"]}
{"id": "C59", "title": "Representation independence of the samplers", "statement": "The sampler loops use vectors, data, scalars, step sizes and random states only through the operations they call: if two sets of operations are related by relations on these types, and start and sampler object are related, then the runs of MYULA, PxMALA and SKROCK have the same outcome and related arrays, traces, output and generator states. Hence (a) floats with exact arithmetic give the run of the real-number model, for positive lmda and step size and draws in (0,1); (b) listing the model parameters in another order, with operators and random vectors reordered accordingly, changes nothing but the order of the entries of the recorded samples.", "quantifier": "all types, relations, operations, schedules, starts, permutations and numbers of iterations, and every outcome", "why_tests_cant": "a test fixes one representation and one parameter order", "anchors": ["pxmcmc/mcmc.py:46-140", "pxmcmc/mcmc.py:143-289", "pxmcmc/mcmc.py:292-383"]}
{"id": "C60", "title": "Mean and spread of MYULA chains", "statement": "Let the random vectors be independent with a common finite law of mean zero and mean square v per entry, and the problem convex with curvature between lo and hi. If lo > 0 the drift vanishes at exactly one point. For step sizes with delta (1/lmda + hi) <= 2 the mean square distance of recorded row j to that point is at most r^k |X0 - x*|^2 + 2 delta v n (1 + r + ... + r^(k-1)), with k the number of steps before the row is recorded and r the contraction rate of C56, and at least 2 delta v n about any point. Without regulariser and with lo = hi = w, mean and mean square are given exactly, and the mean square tends to v n / (w (1 - delta w / 2)). The recorded logPi is the log-density the chain follows (refuted: its variance is half that of the chain, for every step size, because logpi has no factor 1/2 before L2 and calc_gradg is the gradient of half of L2).", "quantifier": "all convex problems, schedules, starts, step sizes in the range, finite noise laws, real and complex", "why_tests_cant": "expectations over all random sequences and limits in the number of steps", "anchors": ["pxmcmc/mcmc.py:71-89", "pxmcmc/mcmc.py:143-202", "pxmcmc/forward.py:48-72"]}
{"id": "C61", "title": "Stability of SKROCK chains", "statement": "Two SKROCK chains of a convex problem that share the random numbers do not move apart when the step size is small, as for MYULA (refuted for two or more stages). With s >= 2 stages and 22 delta (1/lmda + hi) <= 1 every step multiplies the distance by at least s, so that of two completed runs with different starts row j differs by at least s^k |X - Y|, with k the number of steps before it is recorded, and over independent noise of mean zero and mean square v per entry the mean square distance of row j to any point is at least 3/4 delta v n s^(2(k-1)). With two stages and no regulariser no step size at all, in the whole range of real numbers, brings the chains closer together. One stage is covered by C56.", "quantifier": "all convex problems, numbers of stages, schedules, starts, random sequences, step sizes in the range", "why_tests_cant": "holds for every problem, random sequence and number of steps; the mean is over all noise sequences", "anchors": ["pxmcmc/mcmc.py:292-383"]}
{"id": "C62", "title": "Rounding errors in MYULA chains", "statement": "Take a convex problem with step size in the stable range of C56 and contraction factor rho < 1, a rounding function with error at most eps for the numbers that occur, and float operators gradg and proxf with error at most kappa per entry. A float run of MYULA and the run in exact arithmetic, from the same start and with the same bounded draws, use the same random numbers, and at every recorded sample of a run of any length the float chain holds finite numbers and differs from the exact chain by at most e / (1 - rho), where e = sqrt(n) (eps (7 + A (4 + 1/sqrt(2 delta))) + (delta/lmda + delta) kappa) is the error of one step for numbers of size up to A: errors do not accumulate.", "quantifier": "all problems, rounding functions, operators, schedules and lengths of run, starts and random sequences meeting the size conditions", "why_tests_cant": "bounds the error of runs of any length with any rounding function; exact arithmetic cannot be run", "anchors": ["pxmcmc/mcmc.py:143-202"]}
{"id": "C63", "title": "Thresholding, path integrals and zero errors in floating point", "statement": "In floating point, for every rounding function: soft of NaN or with a NaN threshold is NaN, soft of an infinity is NaN unless the threshold is infinite, and soft is 0 where |x| <= t. For rounding to a set of numbers that is symmetric and monotone, soft of a number is the rounded |x| - t with the sign of x, is no larger than x, never overflows and keeps the order; the L1 prior is NaN exactly if an entry is NaN. For MYULA with PathIntegral and the L1 prior: a NaN at one pixel is NaN at every pixel reached over k paths of non-zero weight after k steps; the values of a pixel no path crosses never influence another pixel; an infinite entry is NaN one step later. If one data error is 0, its weight is infinite, the log posterior of every sample is NaN or minus infinity, PxMALA accepts nothing and never returns, and MYULA's pixels on the path of that datum are infinite or NaN after one step and NaN from the second step on, unless the prediction is exactly the datum.", "quantifier": "all rounding functions, thresholds, vectors, path matrices, data, errors, weights, starts, random sequences and schedules", "why_tests_cant": "quantifies over every rounding function, every path matrix and runs of any length; a PxMALA run that never returns cannot be observed", "anchors": ["pxmcmc/utils.py:55-67", "pxmcmc/utils.py:84-88", "pxmcmc/prior.py:28-50", "pxmcmc/measurements.py:69-83", "pxmcmc/forward.py:66-88", "pxmcmc/mcmc.py:71-82", "pxmcmc/mcmc.py:143-263"]}
{"id": "C64", "title": "Rounding errors of MYULA with path integrals and the L1 prior, from the arithmetic up", "statement": "For real data, errors and parameters, with PathIntegral, ForwardOperator in the analysis setting and the L1 prior: if the arithmetic is exact, the float model of the problem is the exact model, and ForwardOperator builds the exact problem with weights 1 / sig^2. If every operation on the numbers that occur has an error of at most eps, then the weights, the predictions, the residuals, the gradient and soft each have an error of at most an explicit multiple of eps, in terms of the largest entry, the most entries in a row and in a column of the path matrix, the largest datum and weight and the size of the parameters; and the samples of a MYULA run differ from those of the run with exact arithmetic and the same random numbers by at most a constant that does not depend on the number of iterations.", "quantifier": "all rounding functions with an absolute error of at most eps on the numbers that occur, path matrices, data, errors, thresholds, step sizes, starts, random sequences and schedules", "why_tests_cant": "the exact run cannot be computed, and the bound holds for runs of any length, every path matrix and every arithmetic", "anchors": ["pxmcmc/utils.py:55-67", "pxmcmc/prior.py:28-50", "pxmcmc/measurements.py:69-83", "pxmcmc/forward.py:36-46", "pxmcmc/forward.py:60-88", "pxmcmc/mcmc.py:143-186"]}
{"id": "C65", "title": "SKROCK in floating point", "statement": "For real data and parameters and any rounding: SKROCK's constructor raises ZeroDivisionError for s = 0, ValueError for s < 0, and for s > 0 either fills one triple of coefficients per stage, those of the Chebyshev recurrences in that arithmetic, or raises ZeroDivisionError; it succeeds whenever it does with exact numbers. With exact arithmetic coefficients, steps and runs are those of the real-number model. Once constructed, a run returns for any values, also for lmda = 0. An entry that is NaN stays NaN in every later sample, an entry that is not finite never becomes a finite number, and the same holds from stage to stage within a step. With path integrals and the L1 prior a NaN crosses s paths in each step, an infinite entry is NaN after one step together with every pixel connected to it by s - 1 paths, pixels no path crosses do not affect the others, and a datum with error zero makes every pixel of its path infinite or NaN as soon as the prediction in some stage is not equal to the datum. With two or more stages, of two chains with the same random numbers one leaves every bounded range within an explicit number of steps, if a step in floats is close enough to the exact step on that range.", "quantifier": "all rounding functions, stage numbers, operators, path matrices, thresholds, step sizes, starts, random sequences and schedules", "why_tests_cant": "the set of roundings, values and random sequences is unbounded; which entries become NaN in a long run depends on the connections of all paths, and overflow may need more steps than a test makes", "anchors": ["pxmcmc/mcmc.py:84-89", "pxmcmc/mcmc.py:290-383", "pxmcmc/utils.py:128-197", "pxmcmc/measurements.py:69-83", "pxmcmc/forward.py:60-88"]}
{"id": "C66", "title": "The limit of exact arithmetic", "statement": "For real data with errors that are not zero, path integrals, the L1 prior and lmda > 0: whatever the number of iterations, for every e > 0 there is an accuracy of the arithmetic, the start point and the sampler's state from which on a whole run of MYULA, of SKROCK with one or more stages and of PxMALA in floats ends as the run with exact numbers and leaves arrays of the same shapes, the same acceptances and all entries at a distance of at most e. Samplers just made in both arithmetics are such states.", "quantifier": "all distances, rounding functions, path matrices, data, errors, thresholds, step sizes, starts, random sequences, stage numbers and schedules", "why_tests_cant": "no test runs an arithmetic other than the machine's, and none bounds the difference of whole runs from the exact ones; a proposal that is accepted in one arithmetic and refused in every finer one needs exact ties", "anchors": ["pxmcmc/mcmc.py:84-145", "pxmcmc/mcmc.py:158-383", "pxmcmc/utils.py:55-67", "pxmcmc/utils.py:128-197", "pxmcmc/measurements.py:69-83", "pxmcmc/forward.py:60-88"]}
{"id": "C67", "title": "Step sizes for path integrals", "statement": "For path integrals with the L1 prior, lmda > 0 and errors that are not zero, let H be at least the largest load of a pixel: the sum over the paths of length of the path times its length in the pixel over the squared error (the sum of 1/sigma^2 will do for paths of length at most one). Then the curvature of the data term lies between 0 and H. In any arithmetic that is accurate enough, with the same random numbers for both chains: two MYULA chains with delta (1/lmda + H) <= 2 never move further apart than their starts, up to any e > 0; of two SKROCK chains with two or more stages and 22 delta (1/lmda + H) <= 1 one leaves every bounded range after a number of steps that can be computed from the starts. Both samplers return.", "quantifier": "all path matrices, data, errors, thresholds, step sizes in the range, starts, random sequences, roundings, stage numbers and schedules", "why_tests_cant": "that chains stay together or part is a statement about all starts and unboundedly many steps; the admissible step size depends on the whole path matrix", "anchors": ["pxmcmc/measurements.py:46-83", "pxmcmc/forward.py:36-88", "pxmcmc/mcmc.py:84-89", "pxmcmc/mcmc.py:143-202", "pxmcmc/mcmc.py:290-383"]}
{"id": "C68", "title": "Special values and rounding in the analysis of chains", "statement": "In any rounding arithmetic: a quantile is defined for 0 <= q <= 1 and at least one sample, and raises otherwise; it is NaN if a sample is NaN, or if the position is on an infinite sample or between two of them; next to one infinite sample it is the infinity or NaN according to the position. It is false that the median of samples two thirds of which are numbers is a number, and that a range that is a number shows that the samples are numbers. A credible interval range depends on the samples of its parameter only and is NaN if one of them is. If a log posterior is NaN, so is the threshold of the credible region and no point belongs to the region. MYULA from a start with a NaN pixel gives the range NaN for it and an empty region. Ranges and thresholds of numbers are within a bound proportional to the accuracy of those on real numbers, and equal them without rounding; those of whole runs of MYULA, SKROCK and (without ties) PxMALA with path integrals tend to those of the exact runs. hard keeps NaN entries and counts them among the largest; norm and snr have the special values of their formulas.", "quantifier": "all samples incl. inf and NaN, levels, roundings, shapes; all path matrices, starts, random sequences and schedules for the runs", "why_tests_cant": "tests use small finite samples; positions of special values and rounding errors range over infinitely many cases, and the limit statements quantify over all arithmetics", "anchors": ["pxmcmc/uncertainty.py:7-16", "pxmcmc/uncertainty.py:43-56", "pxmcmc/utils.py:70-81", "pxmcmc/utils.py:302-317"]}
{"id": "C69", "title": "MYULA chains settle in law and their averages converge", "statement": "Let the random vectors be independent with a common finite white law, the problem convex with curvature between lo > 0 and hi, and delta (1/lmda + hi) < 2. There is a law of vectors that one step of MYULA leaves as it is, and only one (on Lipschitz functions). For every start, schedule, generator and Lipschitz function h with constant A, the mean of h at recorded row j differs from that of the law by at most A r^(k/2) (2 |X0 - x*| + spread), k being the steps before the row is recorded and r the rate of C56. The mean square error of the average of h over N recorded rows is at most A^2 (16 |X0 - x*|^2 + 20 spread^2) / ((1 - sqrt r) N), whatever burn-in and gap, so the probability that the average is off by e tends to zero. Under the law the mean of gradlogpi is zero. Such a law exists whenever the data term is convex (refuted for lo = 0: a pixel that no path crosses, without regulariser).", "quantifier": "all convex problems, schedules, starts, step sizes in the range, finite noise laws, real and complex, Lipschitz functions, numbers of rows", "why_tests_cant": "laws, limits and expectations over all random sequences", "anchors": ["pxmcmc/mcmc.py:84-96", "pxmcmc/mcmc.py:143-202", "pxmcmc/forward.py:48-72"]}
{"id": "C70", "title": "Command lines of the experiment scripts", "statement": "For the parsers of the six scripts in experiments (options, types, defaults and attributes as listed): a command line is accepted exactly if it splits into options (in full, as an unambiguous abbreviation, with the value as next word or after =), flags and positionals, all values being of the type of their option and the number of positionals right; words after -- are positionals. The result holds the attributes in the order of the add_argument calls; the last mention of an option counts, options not mentioned have their default, and the places of the positionals among the options do not matter. Help is shown exactly if a help word comes before the first error that argparse reports at once; every other line ends with status 2, in particular every line with an unknown option before --. The arguments that run_experiment (C48) and the plot scripts (C52) get are the values given last or the defaults. Refuted: a positional left out takes its default (phasevel/main.py has such defaults, they are never used); every value that float() reads can follow its option (-1e-3 cannot, =-1e-3 can); --eta 1 is the same as leaving --eta out (float and int exponent).", "quantifier": "all lists of words, all parsers of the kind used, all functions float() and int()", "why_tests_cant": "all command lines", "anchors": ["experiments/earthtopography/main.py:21-69", "experiments/phasevel/main.py:63-122", "experiments/weaklensing/main.py:43-84", "experiments/earthtopography/plot.py:18-37", "experiments/phasevel/plot.py:19-38", "experiments/weaklensing/plot.py:20-42"]}
{"id": "C71", "title": "The acceptance rate that tuning leads to", "statement": "For every tuned PxMALA run with lmda > 0, returned or still going, that from iteration a to iteration k never sets its step size to lmda/2, at most (k - a)/2 + 20 k^(3/4) proposals are accepted in these iterations; if it never sets it to lmda/10^8, at least (k - a)/2 - 20 k^(3/4) are (with step sizes between m and M: ln(M/m) + 3/2 and ln(M/m) in place of 20). So the mean of acceptance_trace is within e of 1/2 after max(a/e, (40/e)^4) iterations, for all problems and random numbers, and a rate further away means that the step size has been at the corresponding end of its band. A run of acceptances (rejections) long enough to raise (k + 1)^(1/4) by 10, from the start 14640 iterations, brings the step size to the upper (lower) end. A run that returns n rows took about 2 n iterations or more unless it reached lmda/2, and, with ngap 0 or 1, not many more than 2 n unless it reached lmda/10^8. Refuted: tuning achieves an acceptance probability of 0.5 (documentation of PxMALA) - with a parameter that neither data nor regulariser restrict, runs of every length accept everything and end with step size lmda/2.", "quantifier": "all forward operators, regularisers, parameters, generators, starts, schedules and numbers of iterations", "why_tests_cant": "a statement about the long run of every chain", "anchors": ["pxmcmc/mcmc.py:206-212", "pxmcmc/mcmc.py:245-260", "pxmcmc/mcmc.py:277-279"]}
{"id": "C72", "title": "What the plotting scripts compare the results with", "statement": "truth - MAP of two MW images is taken pixel by pixel when the band limits are equal, broadcasts when one of them is a single pixel, and is a ValueError otherwise. Topography: for a run on ETOPO1_Ice_hpx_256.fits without noise the truth is the image of the data, and the MAP SNR printed is 10 log10(sum |data|^2 / (sqrt 2 sigma^2 L2)), with L2 the real part of the misfit of the sample of largest recorded log posterior, when its image is real. Lensing: the truth is the convergence whose weighted shear are the data of a run on takahasi_4096_000_zs16_kappa.fits, the file written by get_sim_data.py with the settings in it; with the mask on, R2E is at most sqrt 2 L2 / (w^4 sum |shear|^2), w = 1/(error of a pixel). Phase velocity: truth, path matrix and observations need three files with fixed names and at least two rows; for a run on these files the observations and predictions are those of the forward operator, and lo L2 <= R2E sum d^2 <= hi L2 for variances between lo and hi. Refuted: the truth is the map of the run whatever --infile (topography); every results file of the phase velocity experiment can be plotted (with --L other than 28 the script draws two figures and stops with a ValueError); R2E is about the data that were inverted (another infile).", "quantifier": "all maps, files, operators, samples and results files; all behaviours of healpy, pys2let and pyssht", "why_tests_cant": "relates figures of one script to the data and misfits of another for all inputs", "anchors": ["experiments/earthtopography/plot.py:68-88", "experiments/phasevel/plot.py:79-80", "experiments/phasevel/plot.py:157-165", "experiments/weaklensing/plot.py:64-74"]}
{"id": "C73", "title": "Complex data take MYULA off the reals", "statement": "With complex data and real errors the weights are those of real data with the same values turned by exp(-i pi/4), and so is the gradient. From a real sample with real gradient g and real proximal point, one MYULA step of a real run (complex=False) gives imaginary parts (delta/sqrt 2) g and real parts moved by -(delta/sqrt 2) g. For a real operator and real data values the recorded L2 is that of the stored row (the real parts) plus the weighted squares of the predictions of the imaginary parts over sqrt 2. For a problem whose real counterpart has curvature between lo and hi, rows of two runs on the same random numbers differ by at most r^k in squared distance, r = 1 - delta (lo/sqrt 2)(2 - delta(1/lmda + sqrt 2 hi)), when delta (1/lmda + sqrt 2 hi) <= 2. Without a regulariser and with curvature w in every direction, the mean square distance of a stored row to the real part of the stationary point is |Re(a^k z0)|^2 + 2 delta v n sum_{i<k} (Re a^i)^2 with a = 1 - delta w exp(-i pi/4); with t = delta w < sqrt 2 it settles at (v n/w)(1/(sqrt 2 - t) + sqrt 2/(4 - 2 sqrt 2 t + t^2)), more than the v n/w/(1 - t/2) of real data, and it grows without bound when t >= sqrt 2. Refuted: the steps that settle with real data (t < 2) settle with complex data; the recorded misfit and log posterior are those of the stored row.", "quantifier": "all operators, data, errors, regularisers, step sizes, start points, run lengths, generators and noise laws", "why_tests_cant": "limits over run lengths and statements for all operators, step sizes and random numbers", "anchors": ["pxmcmc/forward.py:80-82", "pxmcmc/mcmc.py:192-201", "experiments/earthtopography/main.py:122-134", "experiments/weaklensing/main.py:109-119"]}
{"id": "C74", "title": "PxMALA on a Gaussian target", "statement": "Without a regulariser and with data term gradient w (x - c) and log posterior e - w|x - c|^2, the log ratio PxMALA computes between real samples x and y is w (|y-c|^2 - |x-c|^2)(E - 1) with E = (delta^2/2)(1 - delta w/4)(2(1 - delta w/2)|x-y|^2 + (delta w/2)^2(|x-c|^2 + |y-c|^2)); with the density of the actual proposal it is -w(|y-c|^2 - |x-c|^2)(2 + delta w)/4. So where E < 1 the proposals accepted with certainty are those nearer to c, as Metropolis-Hastings asks; where E > 1 they are those further away. For 0 < delta w < 2, E < 1 if x and y are within 1/(2 delta) of c, and E > 1 if the squared distance of x or y from c exceeds 8/(delta^2 (delta w)^2 (1 - delta w/4)) or |x-y|^2 exceeds 1/(delta^2 (1 - delta w/4)(1 - delta w/2)). With many parameters this happens near c too: a proposal whose normal vector has squared length at least m, from x with 2 (delta w)^2 |x-c|^2 <= delta m, is accepted with certainty exactly when it is no nearer to c, once delta^3 m (1 - delta w/4)(1 - delta w/2) > 2. A run with fixed step size, normal vectors of squared length at most k and uniform numbers at least u, started so far away that the three inequalities of too_far hold, rejects every proposal, never returns, and leaves chain and log posterior arrays as they were. Refuted: PxMALA moves on wherever it is started (for every delta w < 2 and all k, u there is a start from which MYULA returns and PxMALA never does); a proposal that Metropolis-Hastings accepts with certainty has an acceptance probability bounded below.", "quantifier": "all dimensions, centres, weights, step sizes, samples, random generators within the bounds, run parameters and run lengths", "why_tests_cant": "an identity for all samples and step sizes, and runs of every length under all bounded random numbers", "anchors": ["pxmcmc/mcmc.py:203-275", "pxmcmc/mcmc.py:281-289", "pxmcmc/mcmc.py:192-201", "pxmcmc/mcmc.py:71-82"]}
{"id": "C75", "title": "PxMALA on complex samples", "statement": "calc_logtransition adds complex squares, not squared moduli. Without a regulariser, with gradient w (x - c) and log posterior e - w|x - c|^2 at complex samples, and Q(x,y) the sum of the squares of the differences, the log ratio is (delta^2 w/2)(1 - delta w/4)(Q(y,c) - Q(x,c))(2(1 - delta w/2)Q(x,y) + (delta w/2)^2(Q(x,c) + Q(y,c))) - w(|y-c|^2 - |x-c|^2), in general a complex number. For x = c + z u and y = c + z v with u, v real and |z| = 1 it is w(|v|^2 - |u|^2)(z^4 E(u,v) - 1) with the E of C74, whereas with the density of the actual proposal it is -w(|y-c|^2 - |x-c|^2)(2 + delta w)/4, without z. A proposal is accepted whatever the uniform number iff the real part of the log ratio is not negative. So for z^4 = 1 and E > 1 exactly the proposals no nearer to c are accepted with certainty, for z^4 = -1 exactly those no further away, and for z^4 = i or -i the number compared is that of the posterior alone. Refuted: the rule treats all directions alike (for all delta w < 2 and p in (0,1) there are two samples at the same distance from c such that the move to c is certain from the one and has probability at most p from the other).", "quantifier": "all dimensions, centres, weights, step sizes, complex samples and uniform numbers", "why_tests_cant": "an identity for all complex samples and step sizes", "anchors": ["pxmcmc/mcmc.py:281-289", "pxmcmc/mcmc.py:244-245", "pxmcmc/mcmc.py:192-201", "pxmcmc/mcmc.py:71-82"]}
{"id": "C76", "title": "Where the gradient is large PxMALA stops moving", "statement": "For every problem of C56 (linear measurement, curvature of the data term between lo and hi, firmly non-expansive regulariser) whose proximal map moves no sample by more than B and whose penalty changes by at most P per unit of distance, real samples with real gradients, and a fixed step size with delta(1/lambda + hi) < 2: calc_logtransition adds fourth powers of the residuals, so the log ratio of a proposal from x is at most -delta (delta m)^4 gamma^4/64, with gamma the length of the gradient at x and m = 1 - delta(1/lambda + hi)/2, once gamma is large enough for the noise. Hence, for normal vectors of length at most k and uniform numbers of at least u > 0, a run started at such an x accepts no proposal, records nothing and does not end, however long. If lo > 0 every x outside some ball is such a start, for every k and u. Both L1 regularisers satisfy the conditions on the regulariser, with B the length of the thresholds and P the square root of the number of parameters; in particular parameters observed directly with a sparse prior have such starts in every dimension.", "quantifier": "all dimensions, measurements, weights, data, regularisers, step sizes below the limit, starts, bounds of the random numbers, numbers of iterations", "why_tests_cant": "runs without end, for all problems of a class and all random streams within bounds", "anchors": ["pxmcmc/mcmc.py:203-289", "pxmcmc/mcmc.py:281-289", "pxmcmc/mcmc.py:71-95", "pxmcmc/prior.py:24-60"]}
{"id": "C77", "title": "Tuning does not free PxMALA where the gradient is very large", "statement": "For the problems of C76 with lmda hi < 3, a start whose gradient is too large in the sense of C76 for every step size between lmda/10^8 and lmda/2, and an initial step size in that band: a tuned run accepts no proposal, records nothing and does not end, and after 14640 iterations its step size is lmda/10^8. If lo > 0 every start outside some ball is such a start, for all bounds of the random numbers; in particular for parameters observed directly with a sparse prior. Refuted: tuning achieves an acceptance probability of 0.5 (the docstring of PxMALA), on a strongly convex problem with one parameter: the rate is 0 for runs of any length.", "quantifier": "all dimensions, measurements, weights, data, regularisers, starts, bounds of the random numbers, numbers of iterations", "why_tests_cant": "runs without end, for all problems of a class and all random streams within bounds", "anchors": ["pxmcmc/mcmc.py:203-289", "pxmcmc/mcmc.py:277-279", "pxmcmc/mcmc.py:281-289"]}
