{"id": "C01", "title": "Invalid arguments give NaN from every density and CDF", "statement": "Each scalar d* and p* function of the univariate distributions returns NaN whenever any floating argument is NaN or a parameter is outside the distribution's parameter set (negative scale/rate/shape/dof, probability outside [0,1], a>=b, negative trial count), in both normal and log form.", "quantifier": "all argument values, both log_form values, every arithmetic whose comparisons are false on NaN (IEEE binary64 included)", "why_tests_cant": "The NaN policy is a statement about all values of 2-4 floating arguments for about forty functions; tests touch a handful of literals.", "anchors": ["include/stats_incl/misc/sanity_checks/*.hpp", "include/stats_incl/dens/*.ipp", "include/stats_incl/prob/*.ipp"]}
{"id": "C02", "title": "Invalid probability or parameters give NaN from every quantile function", "statement": "Each q* function returns NaN whenever p is NaN or outside [0,1], or a parameter is NaN or outside the parameter set.", "quantifier": "all p and parameter values, every arithmetic whose comparisons are false on NaN (IEEE binary64 included)", "why_tests_cant": "Universal over floating inputs.", "anchors": ["include/stats_incl/misc/sanity_checks/prob_val.hpp", "include/stats_incl/quant/*.ipp"]}
{"id": "C03", "title": "Invalid parameters give NaN from every sampler", "statement": "Each scalar r* function returns NaN, for every state of the random engine, whenever a parameter is NaN or outside the parameter set.", "quantifier": "all parameter values and all engine states", "why_tests_cant": "Needs every engine state and every invalid value.", "anchors": ["include/stats_incl/rand/*.ipp", "rinvgauss_compute"]}
{"id": "C04", "title": "Densities vanish outside the support", "statement": "For valid parameters each density returns 0 (and -inf in log form) at every point outside the support of its distribution.", "quantifier": "all points outside the support, all valid parameters, both log_form values", "why_tests_cant": "Universal over a half-line or over infinitely many integers.", "anchors": ["include/stats_incl/dens/*.ipp"]}
{"id": "C05", "title": "CDF limits at the ends of the support", "statement": "For valid finite parameters each CDF returns 0 at -inf and at every point below the support, and 1 at +inf and at every point above the support (0 / -inf in log form correspondingly).", "quantifier": "all valid finite parameters, all points below/above the support", "why_tests_cant": "Universal over parameters.", "anchors": ["include/stats_incl/prob/*.ipp"]}
{"id": "C06", "title": "log_form=true is the logarithm of log_form=false", "statement": "For every density and CDF and every argument, the value returned with log_form=true equals the natural logarithm (log 0 = -inf, log NaN = NaN) of the value returned with log_form=false, in exact arithmetic.", "quantifier": "all arguments including infinities and NaN, all d* and p* functions", "why_tests_cant": "The two forms go through different branches; a test compares them at a few points only.", "anchors": ["include/stats_incl/misc/internal_fns/log_if.hpp", "include/stats_incl/misc/internal_fns/exp_if.hpp", "dexp_vals_check", "dunif_vals_check", "pf_limit_vals_dof"]}
{"id": "C07", "title": "Densities are never negative", "statement": "For every argument, a density evaluated with log_form=false is NaN or a value in [0,+inf].", "quantifier": "all arguments including infinities", "why_tests_cant": "Universal over reals.", "anchors": ["include/stats_incl/dens/*.ipp"]}
{"id": "C08", "title": "CDF values lie in [0,1]", "statement": "For valid finite parameters and every non-NaN x, each CDF returns a number in [0,1].", "quantifier": "all x, all valid finite parameters", "why_tests_cant": "Universal over reals.", "anchors": ["include/stats_incl/prob/*.ipp"]}
{"id": "C09", "title": "CDFs are monotone", "statement": "For valid finite parameters, x <= y implies p*(x) <= p*(y), across every branch boundary of the implementation.", "quantifier": "all pairs x<=y, all valid finite parameters", "why_tests_cant": "Relates two arbitrary executions.", "anchors": ["include/stats_incl/prob/*.ipp"]}
{"id": "C10", "title": "Continuous densities equal their documented formula", "statement": "For valid finite parameters with positive scale and x inside the support, each continuous density equals the formula in its documentation page, exactly in real arithmetic; at boundary points it equals the limit of that formula.", "quantifier": "all x in the support, all valid parameters", "why_tests_cant": "Equality of two real functions on a continuum.", "anchors": ["include/stats_incl/dens/*.ipp", "docs/source/api/*.rst"]}
{"id": "C11", "title": "CDFs equal their documented formula", "statement": "For valid finite parameters each elementary CDF (normal via erf, log-normal, exponential, uniform, Laplace, logistic, Cauchy, Weibull) equals the formula in its documentation page at every x.", "quantifier": "all x, all valid parameters", "why_tests_cant": "Equality of two real functions on a continuum.", "anchors": ["include/stats_incl/prob/*.ipp", "docs/source/api/*.rst"]}
{"id": "C12", "title": "Density is the derivative of the CDF (elementary distributions)", "statement": "At every interior point of the support the CDF is differentiable and its derivative is the density: exponential, uniform, Laplace (off the median), logistic, Cauchy, Weibull.", "quantifier": "all interior x, all valid parameters", "why_tests_cant": "A derivative is a limit; no finite set of evaluations settles it.", "anchors": ["include/stats_incl/dens/*.ipp", "include/stats_incl/prob/*.ipp"]}
{"id": "C13", "title": "Density is the derivative of the CDF (distributions using special functions)", "statement": "Same as C12 for normal, log-normal, gamma, chi-squared, inverse-gamma, inverse-Gaussian, beta, F and t, given the defining derivative of the special function each CDF calls.", "quantifier": "all interior x, all valid parameters", "why_tests_cant": "A derivative is a limit.", "anchors": ["include/stats_incl/dens/*.ipp", "include/stats_incl/prob/*.ipp"]}
{"id": "C14", "title": "CDF of quantile is the identity", "statement": "For every p in (0,1) and valid parameters with positive scale, p*(q*(p)) = p in exact arithmetic for exponential, uniform, Laplace, logistic, Cauchy, Weibull, normal, t with 1 or 2 degrees of freedom.", "quantifier": "all p in (0,1), all valid parameters", "why_tests_cant": "Universal over reals.", "anchors": ["include/stats_incl/prob/*.ipp", "include/stats_incl/quant/*.ipp"]}
{"id": "C15", "title": "Quantile of CDF is the identity inside the support", "statement": "For every interior x and valid parameters with positive scale, q*(p*(x)) = x in exact arithmetic for the same families.", "quantifier": "all interior x, all valid parameters", "why_tests_cant": "Universal over reals.", "anchors": ["include/stats_incl/prob/*.ipp", "include/stats_incl/quant/*.ipp"]}
{"id": "C16", "title": "Quantile functions are monotone and stay in the support", "statement": "p1 <= p2 implies q*(p1) <= q*(p2), and q*(p) lies in the closed support, with the documented end values at p=0 and p=1.", "quantifier": "all p1<=p2 in [0,1], all valid parameters", "why_tests_cant": "Relates two arbitrary executions.", "anchors": ["include/stats_incl/quant/*.ipp"]}
{"id": "C17", "title": "Bernoulli, Rademacher and binomial quantiles are generalized inverses", "statement": "qbern, qradem and qbinom return the smallest support point k with CDF(k) >= p, for every p in (0,1].", "quantifier": "all p, all success probabilities, all numbers of trials", "why_tests_cant": "Unbounded number of trials, continuum of p.", "anchors": ["qbern_compute", "qradem_compute", "qbinom_recur", "pbinom_compute"]}
{"id": "C18", "title": "Poisson quantile is the generalized inverse", "statement": "qpois(p,rate) returns the smallest k with ppois(k,rate) >= p; in particular qpois(ppois(k,rate),rate) = k.", "quantifier": "all p in (0,1), all finite rates", "why_tests_cant": "Ties are a measure-zero set that tests do not hit.", "anchors": ["qpois_compute_right_search"]}
{"id": "C19", "title": "Discrete quantile searches terminate", "statement": "qbinom performs at most n+1 search steps in any arithmetic; qpois terminates for every valid rate and every p in [0,1].", "quantifier": "all inputs, including infinite rate", "why_tests_cant": "Termination for all inputs; a non-terminating run cannot be a unit test.", "anchors": ["qbinom_recur", "qpois_compute_right_search", "qpois_compute_search_begin"]}
{"id": "C20", "title": "Binomial probabilities sum to one and pbinom is their partial sum", "statement": "For every n>=0 and p in [0,1]: sum over k=0..n of dbinom(k,n,p) is 1, and pbinom(x,n,p) is the sum of dbinom over 0..x for every x.", "quantifier": "all n (unbounded), all x, all p in [0,1] including the end points", "why_tests_cant": "Unbounded n.", "anchors": ["dbinom_vals_check", "pbinom_vals_check", "pbinom_compute"]}
{"id": "C21", "title": "ppois is the partial sum of dpois and tends to one", "statement": "For every finite rate >= 0 and every x >= 0, ppois(x,rate) equals the sum of dpois(k,rate) for k=0..x whichever of the two internal evaluation methods is selected, and the sums tend to 1.", "quantifier": "all x (unbounded), all finite rates", "why_tests_cant": "Unbounded x; limit statement.", "anchors": ["dpois_log_compute", "ppois_compute", "ppois_compute_recur"]}
{"id": "C22", "title": "Bernoulli and Rademacher CDFs are the partial sums of their probabilities", "statement": "pbern(x,p) = sum of dbern over z<=x, pradem(x,p) = sum of dradem over z<=x, for every integer x; both sum to one.", "quantifier": "all integers x, all p", "why_tests_cant": "Unbounded x.", "anchors": ["dbern_compute", "pbern_compute", "dradem_compute", "pradem_compute"]}
{"id": "C23", "title": "Symmetric distributions are symmetric", "statement": "For normal, Laplace, logistic and Cauchy (and t about 0): density(mu+d)=density(mu-d), CDF(mu-d)=1-CDF(mu+d), and for the quantiles with location mu, q(1-p)=2mu-q(p).", "quantifier": "all d, all p in (0,1), all valid parameters", "why_tests_cant": "Universal over reals.", "anchors": ["include/stats_incl/dens/*.ipp", "include/stats_incl/prob/*.ipp", "include/stats_incl/quant/*.ipp"]}
{"id": "C24", "title": "Student-t quantile is antisymmetric", "statement": "qt(1-p,dof) = -qt(p,dof) for every p in (0,1) and dof>0.", "quantifier": "all p in (0,1), all dof", "why_tests_cant": "Universal over reals.", "anchors": ["qt_int_main", "qt_vals_check"]}
{"id": "C25", "title": "Location-scale equivariance", "statement": "For normal, Laplace, logistic, Cauchy and uniform: p(x,mu,sigma)=p((x-mu)/sigma,0,1), d(x,mu,sigma)=d((x-mu)/sigma,0,1)/sigma, q(p,mu,sigma)=mu+sigma*q(p,0,1).", "quantifier": "all finite x, mu, sigma>0, p in (0,1)", "why_tests_cant": "Universal over reals.", "anchors": ["include/stats_incl/dens/*.ipp", "include/stats_incl/prob/*.ipp", "include/stats_incl/quant/*.ipp"]}
{"id": "C26", "title": "Family identities", "statement": "chi-squared(k) = gamma(k/2,2) for d, p and q; exponential(r) = Weibull(1,1/r) for d (x>0), p and q, and = gamma(1,1/r) for d; t(1) = Cauchy(0,1) for d, p and q; t(inf) = normal(0,1); binomial(1,p) = Bernoulli(p).", "quantifier": "all arguments in the common domain", "why_tests_cant": "Relates two functions on a continuum.", "anchors": ["include/stats_incl/dens/*.ipp", "include/stats_incl/prob/*.ipp", "include/stats_incl/quant/*.ipp"]}
{"id": "C27", "title": "Transformed-variable identities", "statement": "dlnorm(x) = dnorm(log x)/x and plnorm(x)=pnorm(log x) and qlnorm = exp(qnorm); dinvgamma(x;a,b) = dgamma(1/x;a,1/b)/x^2 and pinvgamma(x;a,b) = 1 - pgamma(1/x;a,1/b); the F density and CDF are the beta ones under x -> d1 x/(d2 + d1 x).", "quantifier": "all x in the support, all valid parameters", "why_tests_cant": "Relates two functions on a continuum.", "anchors": ["dlnorm_log_check", "dinvgamma_log_compute", "pinvgamma_compute", "df_log_check", "pf_compute"]}
{"id": "C28", "title": "Short overloads mean the standard parameters", "statement": "dnorm(x) = dnorm(x,0,1), pnorm(x)=pnorm(x,0,1), qnorm(p)=qnorm(p,0,1), dunif(x)=dunif(x,0,1), with and without log form where offered.", "quantifier": "all x", "why_tests_cant": "Universal over reals.", "anchors": ["dnorm (2 arguments)", "pnorm (2 arguments)", "qnorm (1 argument)", "dunif (1 argument)"]}
{"id": "C29", "title": "Vector and matrix evaluation is element-wise", "statement": "Calling a d/p/q function on a vector or dense matrix of any size returns an object of the same shape whose every element is the scalar function applied to the corresponding input element, with or without OpenMP, for any thread count and any interleaving of the threads.", "quantifier": "all lengths, all thread counts >= 1, all interleavings", "why_tests_cant": "Unbounded sizes and all schedules.", "anchors": ["EVAL_DIST_FN_VEC", "STDVEC_DIST_FN", "ARMA_DIST_FN", "EIGEN_DIST_FN"]}
{"id": "C30", "title": "Parallel evaluation and generation are memory-safe and race-free", "statement": "In the vector macros every read and write index is below the number of elements, no unsigned subtraction wraps, and no two concurrently running iterations touch the same output element or the same engine.", "quantifier": "all lengths, all thread counts >= 1", "why_tests_cant": "All sizes; races are schedule-dependent.", "anchors": ["EVAL_DIST_FN_VEC", "RAND_DIST_FN_VEC", "MAIN_MAT_RAND_DIST_FN"]}
{"id": "C31", "title": "Serial vector sampling is a sequence of scalar draws", "statement": "Without OpenMP (or below the parallel threshold) filling a vector/matrix of any size with r* equals performing the scalar call once per element in order with the same engine, and leaves the engine in the state those scalar calls would leave it.", "quantifier": "all sizes, all engine states, any sampler", "why_tests_cant": "Unbounded sizes, all histories.", "anchors": ["RAND_DIST_FN_VEC", "GEN_MAT_RAND_FN", "STDVEC_RAND_DIST_FN"]}
{"id": "C32", "title": "Parallel sampling is deterministic for a given engine state and thread count", "statement": "With OpenMP, the filled vector and the final state of the caller's engine are functions of the initial engine state, the size and the thread count only: every interleaving gives the same result, every element is written, and the caller's engine advances by exactly one uniform draw per block.", "quantifier": "all sizes, thread counts, engine states, interleavings", "why_tests_cant": "All schedules.", "anchors": ["RAND_DIST_FN_VEC", "generate_seed_value"]}
{"id": "C33", "title": "Parallel blocks get distinct seeds", "statement": "The seeds given to the per-block engines of one parallel fill are pairwise distinct, so no two blocks replay the same stream.", "quantifier": "all engine states, all thread counts", "why_tests_cant": "All engine states.", "anchors": ["generate_seed_value", "RAND_DIST_FN_VEC"]}
{"id": "C34", "title": "A seeded vector draw does not depend on the number of threads", "statement": "Filling a vector from a given seed gives the same values whatever the OpenMP thread count.", "quantifier": "all seeds, sizes, thread counts", "why_tests_cant": "Needs different machine configurations.", "anchors": ["RAND_DIST_FN_VEC"]}
{"id": "C35", "title": "Seed overloads are engine overloads on a fresh engine", "statement": "For every sampler the call with an integer seed returns what the engine call returns on an engine freshly constructed from the seed; in particular repeated calls with the same seed and parameters agree, and a call leaves no hidden state behind.", "quantifier": "all seeds, parameters, and call histories", "why_tests_cant": "All histories.", "anchors": ["include/stats_incl/rand/*.ipp", "std::normal_distribution local in rnorm_compute"]}
{"id": "C36", "title": "rmultinom is reproducible from its engine", "statement": "The value returned by rmultinom is determined by prob_vec and the state of the engine passed to it.", "quantifier": "all probability vectors, engine states and states of the operating system entropy source", "why_tests_cant": "Needs control over the entropy source.", "anchors": ["rmultinom"]}
{"id": "C37", "title": "Inverse-transform samplers have the right distribution", "statement": "For rexp, rcauchy, rlaplace, rlogis, rweibull, rbern, rradem: as a function of the uniform variate u in (0,1) consumed from the engine, the draw is <= x exactly on the set u <= CDF(x) up to one boundary point (for rbern/rradem the upper value is returned exactly when u <= prob).", "quantifier": "all x, all valid parameters, all u in (0,1)", "why_tests_cant": "A distributional statement; samples only suggest it.", "anchors": ["rexp_compute", "rcauchy_compute", "rlaplace_compute", "rlogis_compute", "rweibull_compute", "rbern", "rradem"]}
{"id": "C38", "title": "Draws lie in the support", "statement": "For valid finite parameters every draw that is returned lies in the support of the distribution (rexp, rweibull, rlnorm, rgamma, rchisq, rinvgamma, rinvgauss positive; rbeta in (0,1); rf positive; rbern in {0,1}; rradem in {-1,1}; rbinom an integer in 0..n; rpois a non-negative integer; none is NaN).", "quantifier": "all engine states, all valid parameters", "why_tests_cant": "All engine states.", "anchors": ["include/stats_incl/rand/*.ipp"]}
{"id": "C39", "title": "Certain events are certain", "statement": "rbern(0) is always 0 and rbern(1) always 1; rradem(0) always -1 and rradem(1) always 1; rbinom(n,0)=0 and rbinom(n,1)=n for every engine state and n.", "quantifier": "all engine states, all n", "why_tests_cant": "All engine states.", "anchors": ["rbern", "rradem", "rbinom", "runif_compute"]}
{"id": "C40", "title": "Samplers terminate", "statement": "rgamma with valid parameters returns on every engine stream that contains an accepted proposal, with recursion depth at most two; every valid parameter value admits streams on which it returns.", "quantifier": "all engine streams, all valid parameters", "why_tests_cant": "Non-termination cannot be observed by a test.", "anchors": ["rgamma_compute"]}
{"id": "C41", "title": "Integer-typed arguments are promoted to floating point", "statement": "For any mix of arithmetic argument types the result type of a distribution function is a floating type, so NaN, infinities and fractions are representable; calling with integer-typed arguments gives the same value as calling with the converted floating arguments.", "quantifier": "all combinations of arithmetic argument types and all values", "why_tests_cant": "All type combinations.", "anchors": ["return_t", "common_return_t", "pbinom", "rbern", "rbinom", "rradem"]}
{"id": "C42", "title": "No integer overflow or invalid conversion", "statement": "Evaluating the discrete functions involves no signed overflow and no out-of-range floating-to-integer conversion, for every argument in the range of the argument type (including when a vector of floating values is passed).", "quantifier": "all 64-bit integers; all floating vector elements", "why_tests_cant": "2^64 inputs.", "anchors": ["dpois_log_compute", "ppois_compute", "qpois_compute_right_search", "qpois_trunc_normal_approx", "EVAL_DIST_FN_VEC on integer-argument functions"]}
{"id": "C43", "title": "dmvnorm equals the documented density", "statement": "For every dimension K and every symmetric positive definite Sigma, dmvnorm(x,mu,Sigma) equals the documented formula, and for K=1 it equals dnorm(x,mu,sqrt(Sigma)).", "quantifier": "all K, all x, mu, positive definite Sigma", "why_tests_cant": "Unbounded dimension.", "anchors": ["dmvnorm", "mat_ops::log_det", "mat_ops::quad_form"]}
{"id": "C44", "title": "dwish and dinvwish equal the documented densities", "statement": "For every dimension K, positive definite X and Psi and nu > K-1 (of integral or floating type), dwish and dinvwish equal the documented formulas.", "quantifier": "all K, X, Psi, nu", "why_tests_cant": "Unbounded dimension, all parameter types.", "anchors": ["dwish", "dinvwish"]}
{"id": "C45", "title": "Wishart draws are symmetric positive semidefinite; multivariate normal draws are affine images of standard normals", "statement": "rwish returns a symmetric positive semidefinite K-by-K matrix for every engine state; rmvnorm returns mu + L z with L L' = Sigma and z the K standard normal draws; a dimension mismatch returns an empty result and leaves the engine untouched.", "quantifier": "all K, all engine states", "why_tests_cant": "Unbounded dimension, all engine states.", "anchors": ["rwish", "rinvwish", "rmvnorm"]}
{"id": "C46", "title": "Degenerate scale is treated as a point mass", "statement": "With sigma = 0 each location-scale family is the point mass at mu: CDF 0 below mu and 1 at and above mu, quantile mu for every p, density 0 off mu and +inf at mu.", "quantifier": "all finite x and mu, all p", "why_tests_cant": "Universal over reals.", "anchors": ["dnorm_limit_vals", "dlaplace_limit_vals", "dlogis_vals_check", "dcauchy_vals_check", "dlnorm_limit_vals", "pnorm_limit_vals", "plaplace_limit_vals", "plogis_limit_vals", "pcauchy_vals_check"]}
{"id": "C47", "title": "Uniform distribution functions keep their range in double arithmetic", "statement": "In IEEE binary64, for all finite a<b: punif returns a number in [0,1] and qunif(p,a,b) for p in [0,1] returns a number in [a,b].", "quantifier": "all binary64 values", "why_tests_cant": "2^192 inputs; the violations are rounding and overflow corner cases.", "anchors": ["punif_compute", "qunif_compute"]}
{"id": "C48", "title": "runif stays strictly inside its interval", "statement": "For all finite a<b, runif(a,b) returns a value strictly between a and b for every engine state, given that the standard library's uniform distribution on [lo,hi) returns a value in [lo,hi).", "quantifier": "all binary64 a<b, all engine states", "why_tests_cant": "All engine states and all pairs of doubles.", "anchors": ["runif_compute"]}
{"id": "C49", "title": "Inverse-gamma functions accept every positive rate", "statement": "For every finite positive rate, shape and x, pinvgamma returns a number in [0,1].", "quantifier": "all positive finite x, shape, rate", "why_tests_cant": "Universal over reals.", "anchors": ["pinvgamma_limit_vals", "gamma_sanity_check"]}
{"id": "C50", "title": "Finite valid inputs never produce NaN", "statement": "For finite x and valid finite parameters (positive scale), each density, CDF and quantile returns a value that is not NaN.", "quantifier": "all finite x, all valid finite parameters, all p in [0,1]", "why_tests_cant": "Universal over reals.", "anchors": ["include/stats_incl/dens/*.ipp", "include/stats_incl/prob/*.ipp", "include/stats_incl/quant/*.ipp"]}
{"id": "C51", "title": "Generators return n*k elements", "statement": "r*<std::vector<double>>(n,k,...) returns exactly n*k elements for every n and k representable in ullint_t.", "quantifier": "all n and k, all engine states, all thread counts", "why_tests_cant": "All sizes, including products that overflow.", "anchors": ["GEN_MAT_RAND_FN", "mat_ops::resize"]}
{"id": "C52", "title": "Samplers that combine several variates have the documented distribution", "statement": "When the uniform and normal variates they consume are independent with their nominal laws, one accepted round of rgamma, and rchisq, rinvgamma, rbeta, rf, rt, rinvgauss and rbinom, return a value whose probability of being at most x is the corresponding distribution function.", "quantifier": "all x, all valid finite parameters", "why_tests_cant": "Statement about a measure on infinitely many draws.", "anchors": ["rgamma_compute", "rinvgauss_compute", "rbeta_compute", "rf_compute", "rt_compute", "rbinom_compute"]}
{"id": "C53", "title": "rmultinom has the multinomial distribution", "statement": "For category probabilities that are non-negative and sum to one, rmultinom draws the counts by chained binomials with conditional probabilities whose product is the multinomial mass function, and the counts add up.", "quantifier": "all numbers of categories, all probability vectors, all engine streams", "why_tests_cant": "Arbitrary number of categories and infinitely many draws.", "anchors": ["rmultinom"]}
{"id": "C54", "title": "Boundary parameters give limiting distributions", "statement": "When a parameter takes a boundary value the sanity checks accept (an infinite location, scale, shape or degrees of freedom, or a zero scale, shape or rate), each density and CDF returns, away from an atom of the limit law, the limit of its values at finite parameters approaching that boundary.", "quantifier": "all finite x, all families, all boundary parameters", "why_tests_cant": "Limits over infinitely many parameter values.", "anchors": ["*_limit_vals", "*_vals_check", "include/stats_incl/dens/*.ipp", "include/stats_incl/prob/*.ipp"]}
{"id": "C55", "title": "Sums, means and variances of a vector are what their names say", "statement": "For every vector of finite numbers accu and sqaccu return the sum and the sum of squares; for a nonempty vector mean returns the average, lying between the least and greatest element, and var returns the mean squared deviation from it, which is non-negative, zero exactly for constant vectors, and scales by a^2 under x -> a x + b; every back end returns the same variance.", "quantifier": "all lengths, all finite elements", "why_tests_cant": "Vectors of any length.", "anchors": ["mat_ops::accu", "mat_ops::sqaccu", "mat_ops::mean", "mat_ops::var"]}
{"id": "C56", "title": "Container helpers compute the named operation", "statement": "cumsum returns the partial sums, without leaving the vector and ending in accu, and is what rmultinom uses; sum_absdiff is the l1 distance (a metric); exp and log act elementwise and are inverse; fill, resize and zeros give the requested length and contents; eye is the identity matrix; repmat tiles its argument.", "quantifier": "all lengths and dimensions, all contents", "why_tests_cant": "Vectors and matrices of any size.", "anchors": ["mat_ops::cumsum", "mat_ops::sum_absdiff", "mat_ops::exp", "mat_ops::log", "mat_ops::fill", "mat_ops::resize", "mat_ops::zeros", "mat_ops::eye", "mat_ops::repmat"]}
{"id": "C57", "title": "Vector statistics keep their basic laws in double arithmetic", "statement": "In IEEE binary64, for every nonempty vector of finite numbers: mean is finite, var is a non-negative number, and var is zero only for constant vectors; integer data whose partial sums stay within 2^53 is summed exactly.", "quantifier": "all vectors of finite doubles", "why_tests_cant": "Rounding and overflow corner cases.", "anchors": ["mat_ops::accu", "mat_ops::mean", "mat_ops::var"]}
{"id": "C58", "title": "Distribution functions are monotone and in range in double precision", "statement": "In IEEE binary64 every distribution function, as a function of its argument, never returns NaN on a non-NaN argument, stays in [0,1] and is non-decreasing, provided the mathematical functions it calls are non-decreasing with the right ranges.", "quantifier": "all doubles including infinities, all valid finite parameters", "why_tests_cant": "Rounding, overflow and cancellation.", "anchors": ["pnorm", "plnorm", "pcauchy", "plaplace", "plogis", "pt", "pexp", "pweibull", "pgamma", "pchisq", "pinvgamma", "pbeta", "punif", "pbern", "pradem", "pf", "pinvgauss", "ppois"]}
{"id": "C59", "title": "Quantile functions are monotone in double precision", "statement": "In IEEE binary64 every quantile function never returns NaN on probabilities in [0,1] and is non-decreasing there, provided the mathematical functions it calls are non-decreasing with the right ranges.", "quantifier": "all doubles in [0,1], all valid finite parameters", "why_tests_cant": "Rounding, overflow and cancellation.", "anchors": ["qnorm", "qlnorm", "qcauchy", "qlaplace", "qlogis", "qt", "qexp", "qweibull", "qgamma", "qchisq", "qinvgamma", "qbeta", "qf", "qunif", "qbern", "qradem", "qbinom"]}
{"id": "C60", "title": "The Taylor refinement of extreme Student quantiles converges to the quantile", "statement": "In exact arithmetic the refinement loop that qt uses for extreme tails keeps the exact quantile fixed, never crosses it, and converges to it with order three, with an explicit error bound after any number of steps, from every start between zero and the quantile and from every start above it that satisfies the stated smallness condition; a start far above it can be made worse. For lower-tail probabilities in the range where the loop is used, qt returns Hill's starting value refined by six steps, lies on the same side of the exact quantile as that starting value, and is within the third-order bound.", "quantifier": "all degrees of freedom, probabilities, starting values and numbers of steps", "why_tests_cant": "qt has no closed form beyond one and two degrees of freedom; the loop is what makes its extreme tails accurate", "anchors": ["qt_int_y_2_iter_val_update", "qt_int_y_2_iter_loop_update", "qt_int_y_2_iter_loop", "qt_int_y_2_iter_begin", "qt_int_y_2_mterm", "qt_int_y_2", "qt"]}
{"id": "C61", "title": "Densities are never negative and never NaN in double precision", "statement": "In IEEE binary64 every density and mass function returns a non-negative number for every argument other than NaN, infinities included, and its log form is never NaN.", "quantifier": "all doubles including infinities, all valid finite parameters", "why_tests_cant": "Overflow, underflow and infinity minus infinity.", "anchors": ["dnorm", "dlaplace", "dlnorm", "dcauchy", "dexp", "dunif", "dgamma", "dchisq", "dinvgamma", "dbeta", "dt", "dlogis", "dinvgauss", "dweibull", "df", "dbern", "dradem", "dbinom", "dpois"]}
{"id": "C62", "title": "Densities are unimodal in double precision", "statement": "In IEEE binary64 dnorm, dlaplace and dcauchy are non-decreasing up to the location parameter and non-increasing after it, and dexp is non-increasing on the half-line, in both forms: rounding creates no second bump.", "quantifier": "all pairs of doubles including infinities, all finite locations and positive finite scales", "why_tests_cant": "Universal over pairs of doubles.", "anchors": ["dnorm", "dlaplace", "dcauchy", "dexp"]}
{"id": "C63", "title": "Distribution functions have a bounded rounding error in double precision", "statement": "In IEEE binary64, when the mathematical functions called are accurate to a unit e, pnorm, plogis, pcauchy, plaplace, plnorm, pinvgamma, pinvgauss, pbinom, pt and the large-argument branch of ppois return the mathematical distribution function up to an explicit small multiple of e (absolute; for pt with other degrees of freedom than one and two it grows with them, and for pinvgauss with exp(2 lambda/mu), so that with lambda = 36 mu more than 1/200 is lost; for pbinom it grows with n and the logarithms of p and 1 - p), and punif, pexp, pweibull, pgamma, pchisq, pbeta, pf, the lower tail of pt, pbern and pradem up to an explicit relative error; no relative bound holds in the lower tail of pnorm, plogis and plaplace, and no absolute bound holds below the machine epsilon for pweibull and plnorm.", "quantifier": "all finite doubles and parameters whose intermediate quotients stay between 2^-1000 and 2^1000 (and the explicit parameter ranges given with each bound)", "why_tests_cant": "Rounding, underflow and conditioning over all doubles.", "anchors": ["pnorm", "plogis", "pcauchy", "plaplace", "plnorm", "pinvgamma", "pinvgauss", "pbinom", "pt", "ppois", "punif", "pexp", "pweibull", "pgamma", "pchisq", "pbeta", "pf", "pbern", "pradem"]}
{"id": "C64", "title": "The model passes the project's own test suite", "statement": "Every scalar assertion of tests/dens, tests/prob and tests/quant about a limiting case (bad parameters, NaN, infinities, degenerate parameters, ends of the support) passes, whatever the mathematical functions return at ordinary arguments, as long as they have the usual limits at zero, one, infinity and NaN; and there is a backend with those limits for which the assertions against reference values pass too.", "quantifier": "all backends with the stated limits (1098 assertions); one executable backend (187 assertions)", "why_tests_cant": "The suite is a specification written by the authors, independent of the model; the quantification is over the functions of the backend.", "anchors": ["dbern", "dbeta", "dbinom", "dcauchy", "dchisq", "dexp", "df", "dgamma", "dinvgamma", "dinvgauss", "dlaplace", "dlnorm", "dlogis", "dnorm", "dpois", "dradem", "dt", "dunif", "dweibull", "pbern", "pbeta", "pbinom", "pcauchy", "pchisq", "pexp", "pf", "pgamma", "pinvgamma", "pinvgauss", "plaplace", "plnorm", "plogis", "pnorm", "ppois", "pradem", "pt", "punif", "pweibull", "qbern", "qbeta", "qbinom", "qcauchy", "qchisq", "qexp", "qf", "qgamma", "qinvgamma", "qinvgauss", "qlaplace", "qlnorm", "qlogis", "qnorm", "qpois", "qradem", "qt", "qunif", "qweibull"]}
{"id": "C65", "title": "Quantile functions have a bounded rounding error in double precision", "statement": "In IEEE binary64, when the mathematical functions called are accurate to a unit e, the double returned by qunif, qexp, qlogis, qcauchy, qlaplace, qnorm and qt (one and infinite degrees of freedom) is within an explicit distance, proportional to e, of the real quantile, and the double returned by qt with two degrees of freedom, qlnorm, qweibull, qgamma, qchisq, qinvgamma, qbeta and qf is the real quantile up to an explicit relative error; qbern and qradem are exact unless the probability is within two rounding units of the threshold. For every probability p, qnorm, qlnorm, qlaplace and qt with infinite degrees of freedom return either a value with the same bound for some probability within two rounding units of p, or the lower end of the support, the latter only when p itself is below two rounding units. For very small probabilities qexp, qnorm, qlaplace and qinvgamma lose all accuracy, even with correctly rounded functions.", "quantifier": "all doubles strictly between 0 and 1 as probability (for the direct bound at least 1/4 for qnorm, qlnorm, qlaplace and at least 1/2 for qinvgamma) and all finite parameters in the explicit ranges given with each bound", "why_tests_cant": "Rounding, cancellation in 1-p and 2p-1, and conditioning over all doubles.", "anchors": ["qunif", "qexp", "qlogis", "qcauchy", "qlaplace", "qnorm", "qt", "qlnorm", "qweibull", "qgamma", "qchisq", "qinvgamma", "qbeta", "qf", "qbern", "qradem"]}
{"id": "C66", "title": "Samplers in double precision return numbers in the support, with named exceptions", "statement": "In IEEE binary64, for every generator whose uniform draws lie strictly between 0 and 1 and whose normal draws are finite, rexp, rweibull and rlnorm return a non-negative number, rnorm, rcauchy, rlaplace and rlogis return a number, rgamma, rchisq and rinvgamma with shape above one return a non-negative number whenever the rejection loop ends, rgamma, rchisq, rinvgamma, rbeta and rf in general return NaN or a value in the support (rgamma NaN only when the draw it is built from overflows), and rbern, rradem and rbinom return exactly 0/1, -1/1 and an integer between 0 and n. std::mt19937_64 with libstdc++'s uniform distribution satisfies the requirement on uniforms in every reachable state. rgamma, rbeta, rf and rt can return NaN, rt and rinvgamma infinity, and rinvgauss a negative number, all for valid parameters.", "quantifier": "all generators with those ranges, all engine states, all valid finite parameters, all numbers of rejection rounds", "why_tests_cant": "Underflow, overflow and cancellation over all doubles and all engine states.", "anchors": ["runif", "rnorm", "rexp", "rweibull", "rlnorm", "rcauchy", "rlaplace", "rlogis", "rgamma", "rchisq", "rinvgamma", "rbeta", "rf", "rt", "rbern", "rradem", "rbinom", "rinvgauss"]}
{"id": "C67", "title": "Densities have a bounded rounding error in double precision", "statement": "In IEEE binary64, when the mathematical functions called are accurate to a unit e, the logarithmic form of every density and mass function differs from the logarithm of the mathematical density by at most an explicit small multiple of e times the sum of the sizes of the terms added (for df, times 1 + df1 x / df2), and the plain form has an explicit relative error of the same size, up to underflow; dcauchy, dunif, dbern and dradem have a relative error of a fixed multiple of e. Beyond those ranges dlogis and dcauchy overflow and lose the logarithm entirely, even with correctly rounded functions.", "quantifier": "all finite doubles and valid parameters in the explicit ranges given with each bound, all integers below 2^53", "why_tests_cant": "Rounding and cancellation between large terms over all doubles.", "anchors": ["dnorm", "dlnorm", "dexp", "dlaplace", "dlogis", "dcauchy", "dunif", "dgamma", "dinvgamma", "dchisq", "dbeta", "dt", "dweibull", "dinvgauss", "dpois", "dbinom", "dbern", "dradem", "df"]}
{"id": "C68", "title": "A probability survives the quantile function followed by the distribution function in double precision", "statement": "In IEEE binary64, when the mathematical functions called are accurate to a unit e, the distribution function applied to the quantile of a probability p returns p up to an explicit multiple of e: an absolute difference for the normal, logistic, Laplace, Cauchy, lognormal, exponential, uniform, inverse gamma and Student (one, two and infinitely many degrees of freedom) families, growing with |location|/scale for those with a location, and a relative difference for the gamma, chi-squared, Weibull, beta and F families, growing with the shape or the first degrees of freedom. For a location that is huge compared with the scale, for Weibull and gamma shapes near zero and for a beta shape near zero, p is lost entirely, even with correctly rounded functions.", "quantifier": "all doubles strictly between 0 and 1 as probability (at least 1/2 for the inverse gamma) and all finite parameters in the explicit ranges given with each bound", "why_tests_cant": "Two rounded computations in sequence, with cancellation and conditioning over all doubles.", "anchors": ["qnorm", "pnorm", "qlogis", "plogis", "qlaplace", "plaplace", "qcauchy", "pcauchy", "qlnorm", "plnorm", "qexp", "pexp", "qunif", "punif", "qt", "pt", "qinvgamma", "pinvgamma", "qgamma", "pgamma", "qchisq", "pchisq", "qweibull", "pweibull", "qbeta", "pbeta", "qf", "pf"]}
{"id": "C69", "title": "The Poisson quantile in double precision: what the search returns, that it ends, that it is accurate and ordered", "statement": "In IEEE binary64 qpois with a rate below 11 returns the first integer at which ppois exceeds the probability; with accurate special functions the search ends (at most at 176), the integer is the mathematical quantile up to an error of 24 e in the probability, and it never decreases when the probability grows; at a probability attained by ppois the answer is a larger integer. With a rate from 11 to 2^48 the search starts three below the normal approximation and only goes up: it ends, its answer is the mathematical quantile up to that error unless the start is already too far, in which case the start less one is returned, and when the probability grows the answer decreases by at most one. ppois itself is within 24 e of the mathematical distribution function for every rate and every integer.", "quantifier": "all doubles strictly between 0 and 1, all rates from the machine epsilon to 2^48, all numbers of rounds, all conversions to an integer that drop the fraction", "why_tests_cant": "Comparison of rounded sums in a loop of unbounded length over all doubles.", "anchors": ["qpois", "ppois"]}
{"id": "C70", "title": "The binomial quantile in double precision: what the search returns, how long it takes, that it is accurate", "statement": "In IEEE binary64, whatever the backend functions return, qbinom(p, n, prob) with 0 < p < 1 is the first count at which the computed distribution function is not below p, after exactly that count plus two loop tests, and a computed value of the distribution function larger than the ones before it is taken back to its count. With backend functions accurate to a unit e the result is the mathematical quantile up to an error 11 e W in the probability, W = 3 + n (2 + |ln prob| + |ln(1 - prob)|), and exactly the mathematical quantile when p is further than that from the two neighbouring values of the distribution function. A value that is attained more than once does not come back: with prob = 2^-60 the computed distribution function is 1 at count 0, whose quantile is n.", "quantifier": "all doubles strictly between 0 and 1 as probability, all numbers of trials (between 2 and 2^53 for the accuracy) and all success probabilities in [0,1] (in (0,1) with 2000 e W <= 1 for the accuracy)", "why_tests_cant": "Search loop over rounded sums; no bound on the number of trials.", "anchors": ["qbinom", "pbinom", "dbinom"]}
