# Formal model of kthohr/stats

## 1. What is modelled and how

The library is a set of C++ function templates over a floating type `T`.  The
model keeps that shape: every scalar function is a Gallina definition over a
record `Num` (`Num.v`) whose fields are the operations the C++ code uses
(`+ - * /`, comparisons, `STLIM<T>`, and the gcem / std functions it calls).
Branches, their order and the order of the operations follow the source.
Every definition cites the file and lines it models.

`Num` is instantiated twice.

* **Extended reals** (`ER.v`): `NaN | +inf | -inf | Fin r`, exact arithmetic,
  IEEE rules for NaN and infinities.  Zero is unsigned and `x/0` is `sign(x)*inf`
  (`0/0` NaN): this is IEEE behaviour for `+0`, and a stated simplification for
  `-0`.  Special functions (erf, lgamma, incomplete gamma and beta and their
  inverses) come from a record `SF` of arbitrary real functions.  A theorem that
  needs a fact about one of them takes it as a hypothesis of a predicate on
  `SF`; the files `Witness*.v` show the predicates are satisfiable.
  `epsilon` is an arbitrary real in (0,1).
* **IEEE binary64** (Flocq, `B64.v`): used where rounding, overflow or the exact
  comparison semantics are the point (C01, C02, C33, C47, C48).

Properties that hold whatever the arithmetic (NaN policy, support, termination)
are proved for every `Num` satisfying a few laws on comparisons, then both
instances are shown to satisfy the laws.

Other parts have their own executable models:

* `Vec.v`: the vector macros of `statslib_defs.hpp` as lists of iterations with
  index arithmetic on unsigned 64-bit style checked naturals (an underflow or an
  out-of-range index is a distinct outcome), run under any interleaving.
* `Rand.v`: samplers as state-passing functions over an abstract engine; the
  `std::` distributions are oracles `engine -> value * engine` whose only assumed
  behaviour is the range the C++ standard promises.
* `Types.v`: the type-level functions `return_t`, `common_return_t`.
* `Ints.v`: 64-bit integer arithmetic and float-to-integer conversion with
  undefined behaviour as a distinct outcome.
* `Multi.v`: multivariate functions over matrices of reals of arbitrary dimension.

## 2. Plan per property

| Id | Modelled by | Proof |
|----|-------------|-------|
| C01 C02 | generic scalar model, all branches | case analysis from NaN comparison laws, any `Num`; instances ER and binary64 |
| C03 | `Rand.v` | as C01; `rinvgauss` refuted by a witness |
| C04 C05 | generic / ER | branch analysis |
| C06 | ER | `exp`/`log` inverse laws per function; refutations for dexp, dunif, pf at infinite arguments |
| C07 C08 C09 C50 | ER + `SF` hypotheses | real inequalities, monotonicity across branches |
| C10 C11 | ER, documentation formulas written independently in `Spec.v` | real algebra |
| C12 C13 | ER | Coquelicot `is_derive` |
| C14 C15 C16 | ER | inverse laws of exp/log/tan/atan/erf |
| C17 C18 C19 | generic search loops with fuel-free specification | induction on the search; refutation by a tie |
| C20 C21 C22 | ER | binomial theorem, induction on x, exponential series |
| C23 C25 C26 C27 C28 | ER | real algebra; refutation for the dnorm overload |
| C24 | ER | closed forms proved for dof 1, 2, inf; refuted in general |
| C29 C30 C31 C32 C34 | `Vec.v` | induction over interleavings of independent writes |
| C33 | ER seeds (proved), binary64 (refuted) | interval argument / computation |
| C35 C36 | `Rand.v` | function extensionality of the state-passing model; refutation for rmultinom |
| C37 C38 C39 C40 | `Rand.v` over ER | order arguments on the uniform variate; loop invariant |
| C41 C42 | `Types.v`, `Ints.v` | case analysis over types; refutations at extreme integers |
| C43 C44 C45 | `Multi.v` | matrix algebra in arbitrary dimension |
| C46 C49 | ER | branch analysis; refutations |
| C47 C48 | `B64.v` | Flocq rounding monotonicity; refutation by computation |
| C51 | `Vec.v` (fills), `resize` | modular arithmetic; refuted when n*k overflows |
| C52 | `Draw*.v`, `SpecDraw.v`, `SpecLaw.v` | the value returned as a function of the variates, then integrals and change of variables |
| C53 | `Multin.v`, `MultinLaw.v` | chain rule for the conditional binomials; refuted for a trailing zero probability |
| C54 | `LimR*.v`, `LimE*.v`, `SpecLim.v` | Coquelicot limits of the real formulas, transported to the ER model |
| C55 C56 | `MatVec.v`, `SpecMat.v` | induction on lists and loops; refutations for zeros, repmat and the n-1 divisor |
| C57 | `MatB64.v` | computation with Flocq; exactness of integer sums |
| C58 C59 | `SpecB64.v`, `B64Ord.v`, `B64Cdf*.v`, `B64Quant*.v`, `B64CR*.v`, `B64Thm.v`, `B64Thm6.v` | order theory of binary64 with infinities; monotone rounding; correctly rounded functions as witness; refutations by computation |
| C60 | `SpecQt.v`, `QtRefR.v`, `QtRefE.v`, `QtRef4.v`, `QtRef.v` | derivative of the Taylor step; monotonicity; third-order bound by induction on the number of steps; closed form at 4 degrees of freedom as witness |
| C61 C62 | `SpecB64D.v`, `B64Mag.v`, `B64Dens*.v`, `GammaBd.v`, `B64CR3.v`, `B64DensBad.v`, `B64Thm2.v` | magnitudes of intermediate values; monotone rounding; bounds on the gamma function for the correctly rounded witness; refutations by computation |
| C63 | `SpecAcc.v`, `RealAcc.v`, `B64Acc.v`, `B64AccCdf*.v`, `B64AccW.v`, `RealTail.v`, `B64AccT.v`, `B64AccF.v`, `B64AccIG.v`, `B64AccBin.v`, `B64Thm3.v`, `B64Thm8.v` | error propagation through binary64 operations; condition numbers of the mathematical functions by the mean value theorem; correctly rounded functions as witness; refutations in the tails |
| C64 | `SpecTests.v`, `B64Exec.v`, `TestsSuite.v` (generated from /repo/tests), `TestsPatch.v`, `TestsThm.v` | computation with an abstract backend patched to its limits; executable backend for the reference values |
| C65 | `SpecAccQ.v`, `RealAccQ.v`, `B64AccQ.v`, `B64AccQ2.v`, `B64AccQ3.v`, `B64AccQ4.v`, `B64AccQW.v`, `B64AccQLow.v`, `B64Thm4.v` | error propagation through the quantile formulas; conditioning of log, tan, the error function and the power near the quantile; correctly rounded inverse functions as witness; below 1/4 the double next to p for which 2p - 1 or p - 1/2 is exact; refutations at small probabilities |
| C66 | `SpecRandB.v`, `B64Rand.v`, `B64Rand2.v`, `B64RandBad.v`, `B64RandW.v`, `B64RandMT.v`, `B64Thm5.v` | sign and range of every intermediate double; bit ranges of the Mersenne twister words; correctly rounded functions as witness; refutations by computation |
| C67 | `SpecAccD.v`, `B64AccLog.v`, `B64AccDens*.v`, `B64AccDf.v`, `B64AccW4.v`, `B64AccDBad.v`, `B64Thm7.v` | absolute error of a sum of logarithmic terms in units of the sum of their sizes; the exponential turns it into a relative error; correctly rounded functions as witness; refutations by overflow |
| C68 | `SpecTrip.v`, `RealTrip.v`, `RealTrip2.v`, `B64Trip.v`, `B64Trip2.v`, `B64Trip3.v`, `B64TripLow.v`, `B64AccF.v`, `B64TripBad.v`, `B64Thm8.v` | error of the quantile (C65) carried through the slope of the distribution function, and the error of the distribution function (C63) added; density times quantile bounds; small probabilities through the double next to them for which 2p - 1 or p - 1/2 is exact; correctly rounded functions as witness; refutations below the machine epsilon and beyond 2^53 |
| C69 | `SpecPois.v`, `RealPois.v`, `B64AccPois.v`, `B64Pois.v`, `B64Thm9.v` | induction over the rounds of the search; ppois exceeds every probability from 16 times the rate on; sum of positive approximations; correctly rounded functions as witness |
| C70 | `SpecBin.v`, `B64AccBin.v`, `B64Bin.v`, `B64Thm10.v` | induction over the loop tests; the first count that is not below is unique; error of the distribution function (C63) carried to the count; correctly rounded functions as witness; refutation where the success probability is lost in 1 - prob |

When the full statement is false of the model, the theorem is named `..._refuted`
and the part that does hold is proved beside it.

## 3. Trusted base

### 3.1 Logic

Coq 8.16.1's kernel, and these axioms of its standard library, as `Print Assumptions` lists them:

| Axiom | Where it comes from |
|-------|---------------------|
| `ClassicalDedekindReals.sig_forall_dec`, `ClassicalDedekindReals.sig_not_dec` | the standard library's real numbers |
| `FunctionalExtensionality.functional_extensionality_dep` | the standard library's real numbers |
| `Classical_Prop.classic` | excluded middle: real analysis, Coquelicot, Flocq's lemmas over the reals |
| `ClassicalEpsilon.constructive_indefinite_description` | only in `MxR.v`, to make the reals a mathcomp field (C43, C44, C45) |

No other axiom is used and none is declared.  mathcomp, Coquelicot and Flocq are used as libraries;
they add no axiom of their own to any theorem.  There is no functor, module type, plugin, admitted proof
or switched-off check.

### 3.2 What is modelled

Each definition cites the lines it models.

| Part of the code | Model |
|------------------|-------|
| `misc/sanity_checks/*.hpp` | `Sanity.v`, generic |
| `misc/internal_fns/{log_if,exp_if,seed_values}.hpp` | `Num.v`, `Dens.v`, `Seed.v` |
| `dens/*.ipp`, `prob/*.ipp`, `quant/*.ipp` (scalar functions, all families) | `Dens.v`, `Prob.v`, `Quant.v`, generic |
| `rand/*.ipp` (scalar samplers, seed and engine overloads) | `Rand.v`, `Multin.v`, generic |
| `dens/{dmvnorm,dwish,dinvwish}.ipp`, `rand/{rmvnorm,rwish,rinvwish}.ipp` | `Multi.v` |
| the macros of `statslib_defs.hpp` for std::vector, Armadillo and Eigen, serial and OpenMP | `Vec.v`, `Threads.v` |
| `return_t`, `common_return_t` and the wrappers' conversions | `Types.v` |
| 64-bit integer arithmetic of the discrete families | `Ints.v` |
| std::mt19937_64 and its seeding | `MT.v` (executable, used for witnesses) |
| `misc/matrix_ops`: the std::vector versions, Blaze `eye` and `repmat`, `log_det`, `quad_form` | `MatVec.v`, `Multi.v` |

### 3.3 What is assumed or left out

* **Arithmetic.**  "Exact arithmetic" means the extended reals of `ER.v`: no rounding, no overflow, one
  zero (so `x/0` has the sign of `x`).  binary64 is Flocq's, with one NaN (no payloads), rounding to
  nearest even.  `float` and `long double` are covered only by the theorems stated for every `Num`.
  gcem is not in the sandbox; if its constants (`GCEM_PI`, ...) are `long double` literals (with the L suffix), an
  expression containing one is evaluated in `long double` by the code and in binary64 by the model.
* **gcem and std functions.**  `erf`, `lgamma`, the incomplete gamma and beta functions and their
  inverses are fields of the record `SF` (or `TF` in binary64).  A theorem that needs a fact takes it as
  a hypothesis (`erf_spec`, `lgamma_spec`, `incgamma_spec`, `incbeta_spec`, ...), which says that the
  function is the mathematical function it names; `Witness*.v` shows that the hypotheses can be met.  In
  the extended reals `exp`, `log`, `sqrt`, `pow`, `atan`, `tan` are the real functions.  In binary64
  nothing is assumed of them beyond the hypotheses written in a theorem: monotonicity and range, values at
  end points, or accuracy to a unit `e` (`SpecAcc.v`, `SpecAccQ.v`, `SpecAccD.v`), as in C58, C63, C65, C67 to C70.
  The correctly rounded functions `TFR` meet the accuracy hypotheses with `e` = 2^-51; no actual libm or
  gcem implementation is claimed to.
* **Standard distributions and engines.**  `std::uniform_real_distribution` and `std::normal_distribution`
  are oracles of the class `Rng`.  Theorems assume at most the range the
  C++ standard promises.  C52 and C53 speak of independent variates with their nominal laws; this is part
  of those statements.  `std::random_device` is an arbitrary stream of words.
* **Linear algebra.**  Armadillo, Blaze and Eigen are a record `MatLib`; `lib_ok` says that their
  Cholesky factor, inverse and determinant are exact, and is shown satisfiable.  Their one-call forwards
  (`inv`, `det`, `solve`, `trace`, `trans`, `chol`, `get_row`, ...) are that record.
* **Conversions.**  LP64 (`llint_t` and `ullint_t` are 64 bits, two's complement).  Converting a value
  outside the range of the integer type is the outcome `UB`.  Converting an infinite probability count in
  `qpois` and the like is an oracle (`inf_int`).
* **OpenMP.**  Threads interleave at the steps of the scalar call; the memory model is sequentially
  consistent; the iterations of a parallel loop go to the threads in any way.  The number of threads is any
  positive number.
* **Left out.**  The Blaze vector paths (they go through `blaze::map`); `cout_output`, `cerr_output`,
  `get_mem_ptr`; the wide character types and `bool` as the integral argument of `pbinom` in C41;
  compile-time evaluation (`constexpr`), whose result is taken to be that of the same expression at run
  time; memory exhaustion in `std::vector`; exceptions.

### 3.4 Print Assumptions, theorem by theorem

Every theorem of `MANIFEST.json` falls in one of these groups (regenerated from `Print Assumptions`,
which also stands beneath each theorem in the `Props_*.v` files).

**Closed under the global context (no axioms)** — 150 theorems:

- C01: dnorm, pnorm, dcauchy, pcauchy, dlaplace, plaplace, dlogis, plogis, dlnorm, plnorm, dbeta, pbeta, dchisq, pchisq, dexp, pexp, df, pf, dgamma, pgamma, dinvgamma, pinvgamma, dinvgauss, pinvgauss, dt, pt, dunif, punif, dweibull, pweibull, dbern, pbern, dradem, pradem, dbinom, dpois, pbinom, ppois, dnorm_std, pnorm_std, dunif_std
- C02: qnorm, qcauchy, qlaplace, qlogis, qlnorm, qbeta, qchisq, qexp, qf, qgamma, qinvgamma, qinvgauss, qt, qunif, qweibull, qbern, qradem, qbinom, qpois, qnorm_std
- C03: runif, rnorm, rexp, rcauchy, rlaplace, rlogis, rweibull, rlnorm, rbern, rradem, rbinom, rgamma, rchisq, rbeta, rf, rt, rinvgamma, rpois
- C19: qbinom_total, qbinom_fuel, qpois_fuel
- C29: stdvec, matrix, stdvec_map, stdvec_runs, mat_map, returns, deterministic
- C30: eval_no_ub, rand_no_ub, block_index, tail_no_wrap, tail_index, rand_no_race, eval_no_race
- C31: serial, calls_deterministic, below_threshold, serial_function, below_threshold_function, runs
- C32: result, deterministic, every_element, no_old_data, engine_advance
- C33: engines
- C34: four_or_more, small_fills, fewer_than_five
- C35: overloads, history, erase, engine
- C36: word_partial
- C40: rgamma_fuel
- C41: type, integral, same, holds, floating, order, converted, promoted
- C42: dbinom, pbinom, dpois_partial, ppois_partial, dpois_max, ppois_max, qbinom_partial, qpois_partial, vec_refuted
- C43: plain, capped
- C51: count, count_refuted
- C56: cumsum_total, cumsum_step, rmultinom, sum_absdiff_short, fill, resize, zeros, zeros_keeps, eye, repmat, repmat_cols
- C66: seed

**`functional_extensionality_dep`, `sig_forall_dec`** — 2 theorems:

- C53: law
- C56: repmat_refuted

**`classic`, `functional_extensionality_dep`, `sig_forall_dec`, `sig_not_dec`** — 907 theorems:

- C03: rinvgauss_nan_par, rinvgauss_refuted
- C04: dexp_out, dgamma_out, dinvgamma_out, dchisq_out, df_out, dinvgauss_out, dlnorm_out, dweibull_out, dbeta_out, dunif_out, dbern_out, dradem_out, dbinom_out, dpois_out, dnorm_inf, dlaplace_inf, dlogis_inf, dcauchy_inf, dt_inf, dchisq_inf, dgamma_inf, dinvgamma_inf, dinvgauss_inf, dlnorm_inf, dweibull_inf, df_inf, df_inf_refuted
- C05: pnorm_ends, plaplace_ends, plogis_ends, pcauchy_ends, pt_ends, pexp_below, pexp_above, punif_below, punif_above, pweibull_below, pweibull_above, pchisq_below, pchisq_above, pgamma_below, pgamma_above, pf_below, pf_above, plnorm_below, plnorm_above, pbeta_below, pbeta_above, pinvgauss_below, pinvgauss_above, pinvgamma_below, pinvgamma_above, pbern_below, pbern_above, pradem_below, pradem_above, pbinom_below, pbinom_above, ppois_below, pexp_above_refuted, pgamma_above_ext, pgamma_below_ext, pchisq_above_ext, pf_above_ext, pweibull_above_ext, pinvgauss_above_ext, pbeta_ext, pt_ends_ext
- C06: dnorm_log, dcauchy_log, dlaplace_log, dlogis_log, dlnorm_log, dinvgauss_log, dgamma_log, dinvgamma_log, dweibull_log, dbeta_log, pnorm_log, pcauchy_log, plaplace_log, plogis_log, plnorm_log, pinvgauss_log, pgamma_log, pinvgamma_log, pweibull_log, pbeta_log, punif_log, dchisq_log, pchisq_log, pexp_log, dt_log, pt_log, dbern_log, pbern_log, dradem_log, pradem_log, dpois_log, ppois_log, dbinom_log, pbinom_log, dexp_log, dunif_log, df_log, pf_log, dexp_refuted, dunif_refuted, pf_refuted
- C07: dnorm_nn, dlaplace_nn, dlogis_nn, dbeta_nn, dinvgamma_nn, dinvgauss_nn, dweibull_nn, dunif_nn, dcauchy_nn, dlnorm_nn, dgamma_nn, df_nn, dchisq_nn, dexp_nn, dt_nn, dpois_nn, dbern_nn, dradem_nn, dbinom_nn
- C08: pexp_unit, punif_unit, plaplace_unit, plogis_unit, pcauchy_unit, pweibull_unit, pnorm_unit, plnorm_unit, pgamma_unit, pchisq_unit, pinvgamma_unit, pbeta_unit, pf_unit, pt_unit, pinvgauss_unit, pbern_unit, pradem_unit, pbinom_unit, ppois_unit
- C09: pexp_mono, punif_mono, plaplace_mono, plogis_mono, pcauchy_mono, pweibull_mono, pnorm_mono, plnorm_mono, pgamma_mono, pchisq_mono, pinvgamma_mono, pbeta_mono, pf_mono, pt_mono, pinvgauss_mono, pbern_mono, pradem_mono, pbinom_mono, ppois_mono
- C10: dexp_val, dunif_val, dlaplace_val, dlogis_val, dcauchy_val, dnorm_val, dweibull_val, dlnorm_val, dinvgauss_val, dgamma_val, dchisq_val, dinvgamma_val, dbeta_val, df_val, dt_val, dgamma_at0, dchisq_at0, dbeta_at0, df_at0, dinvgamma_at0, dinvgauss_at0, dlnorm_at0, dweibull_at0, dexp_at0, dbeta_at1, dweibull_at0_shape1, dweibull_refuted
- C11: pexp_val, pexp_low, punif_val, punif_low, punif_high, plaplace_val, plogis_val, pcauchy_val, pnorm_val, plnorm_val, plnorm_low, pweibull_val, pweibull_low, pgamma_val, pchisq_val, pinvgamma_val, pbeta_val, pf_val, pt_val, pinvgauss_val, pweibull_refuted, plnorm_refuted
- C12: pexp_density, punif_density, plaplace_density, plogis_density, pcauchy_density, pweibull_density, pweibull_cutoff, pweibull_refuted
- C13: pnorm_density, plnorm_density, pgamma_density, pchisq_density, pinvgamma_density, pbeta_density, pf_density, pt_density, pinvgauss_density, plnorm_cutoff, pgamma_cutoff, pchisq_cutoff, pf_cutoff, pinvgamma_cutoff, pgamma_refuted
- C14: pexp_qexp, punif_qunif, plaplace_qlaplace, plogis_qlogis, pcauchy_qcauchy, pnorm_qnorm, pbeta_qbeta, pt_qt_1, pt_qt_2, pweibull_qweibull, plnorm_qlnorm, pgamma_qgamma, pchisq_qchisq, pf_qf, pinvgamma_qinvgamma, pweibull_qweibull_cutoff, pweibull_refuted, qinvgauss_error_partial, pf_qf_inf1, pf_qf_inf2, pf_qf_inf
- C15: qexp_pexp, qunif_punif, qlaplace_plaplace, qlogis_plogis, qcauchy_pcauchy, qweibull_pweibull, qnorm_pnorm, qlnorm_plnorm, qgamma_pgamma, qchisq_pchisq, qinvgamma_pinvgamma, qbeta_pbeta, qf_pf, qt_pt_1, qt_pt_2, qweibull_pweibull_cutoff, qweibull_refuted
- C16: qexp_like, qunif_like, qlaplace_like, qlogis_like, qcauchy_like, qweibull_like, qnorm_like, qlnorm_like, qgamma_like, qchisq_like, qinvgamma_like, qbeta_like, qf_like, qt_1_like, qt_2_like, qinvgauss_ends, qinvgauss_support_partial, qt_mono_refuted, qt_3_not_mono, qt_3_unbounded, qt_range_refuted, qinvgauss_like
- C17: qbern_quantile, qradem_quantile, qbinom_quantile, qbinom_one, qbinom_one_quantile, qbinom_refuted
- C18: qpois_refuted, qpois_of_ppois, qpois_small_partial, qpois_large_partial, qpois_large_off
- C19: qpois_total, qpois_diverges_refuted, qpois_inf
- C20: binomial_sums, dbinom_formula, pbinom_formula
- C21: poisson_sums, dpois_formula, ppois_formula
- C22: bern_sums, radem_sums
- C23: dnorm_sym, pnorm_sym, qnorm_sym, dlaplace_sym, plaplace_sym, qlaplace_sym, dlogis_sym, plogis_sym, qlogis_sym, dcauchy_sym, pcauchy_sym, qcauchy_sym, dt_sym, dt_inf_sym, pt_sym, pt_inf_sym
- C24: qt_1_sym, qt_2_sym, qt_inf_sym, qt_3_not_sym, qt_refuted
- C25: dnorm_ls, pnorm_ls, qnorm_ls, dlaplace_ls, plaplace_ls, qlaplace_ls, dlogis_ls, plogis_ls, qlogis_ls, dcauchy_ls, pcauchy_ls, qcauchy_ls, dunif_ls, punif_ls, qunif_ls, qnorm_ls_ends
- C26: dchisq_gamma, pchisq_gamma, qchisq_gamma, dexp_weibull, pexp_weibull, qexp_weibull, dexp_gamma, pexp_gamma, dt_1_cauchy, pt_1_cauchy, qt_1_cauchy, dt_inf_norm, pt_inf_norm, qt_inf_norm, dbinom_1_bern, pbinom_1_bern, qbinom_1_bern, pexp_weibull_refuted, qbinom_1_bern_refuted
- C27: dlnorm_dnorm, plnorm_pnorm, qlnorm_qnorm, dinvgamma_dgamma, pinvgamma_pgamma, df_dbeta, pf_pbeta
- C28: pnorm_std, qnorm_std, dunif_std, dnorm_std_refuted
- C33: exact, binary64_partial, binary64_apart_partial, binary64_range, binary64_refuted
- C34: threads_refuted
- C36: rmultinom_refuted
- C37: rexp, rcauchy, rlaplace, rlogis, rweibull, rbern, rradem, rnorm, rlnorm, rpois
- C38: runif, rnorm, rlnorm, rexp, rweibull, rcauchy, rlaplace, rlogis, rinvgauss, rbern, rradem, rbinom, rpois, rgamma, rchisq, rbeta, rf, rt, rinvgamma_partial, rinvgamma_refuted
- C39: rbern_0, rbern_1, rradem_0, rradem_1, rbinom_0, rbinom_1, rbern_double_0, rbern_double_1, rradem_double_0, rradem_double_1, rbinom_double_0, rbinom_double_1_partial, rbinom_double_1_refuted, rbinom_double_saturates
- C40: rgamma_big, rgamma_small, rgamma_zero, depth_big, depth_small, depth, depth_double, streams, rgamma_inf_refuted
- C41: rbern_partial, rbern_double_partial, rradem_partial, rradem_double_partial, rbinom_partial, rbinom_double_partial, pbinom_partial, rand_refuted, rradem_refuted, pbinom_refuted, pbinom_log_refuted, pbinom_ub_refuted, pbinom_zero_refuted
- C42: pois_refuted, qbinom_refuted, qpois_conv_refuted, qpois_inf_refuted, vec, vec_partial
- C45: seq_fill, mismatch, mismatch_n
- C46: dnorm_deg, pnorm_deg, dlaplace_deg, qnorm_deg, qlaplace_deg, qlogis_deg, qcauchy_deg, qlnorm_deg, plaplace_deg_partial, plogis_deg_partial, pcauchy_deg_partial, plnorm_deg, dlogis_refuted, dcauchy_refuted, plaplace_refuted, plogis_refuted, pcauchy_refuted, dlnorm_refuted, plaplace_deg_at, plogis_deg_at, pcauchy_deg_at, dlogis_deg_value, dcauchy_deg_value, dlnorm_deg_value
- C47: punif_partial, qunif_partial, punif_monotone_partial, punif_refuted, punif_zero_refuted, qunif_refuted
- C48: strict_partial, adjacent_refuted, overflow_refuted, libstdcxx_refuted
- C49: pinvgamma_refuted, pinvgamma_big_rate
- C50: dnorm_nan, dlaplace_nan, dlogis_nan, dcauchy_nan, dgamma_nan, dchisq_nan, dinvgamma_nan, dinvgauss_nan, dlnorm_nan, dweibull_nan, df_nan, dbeta_nan, dexp_nan, dunif_nan, dt_nan, pexp_nan, punif_nan, plaplace_nan, plogis_nan, pcauchy_nan, pweibull_nan, pnorm_nan, plnorm_nan, pgamma_nan, pchisq_nan, pinvgamma_nan, pbeta_nan, pf_nan, pt_nan, pinvgauss_nan, qexp_nan, qunif_nan, qlaplace_nan, qlogis_nan, qcauchy_nan, qweibull_nan, qnorm_nan, qlnorm_nan, qgamma_nan, qchisq_nan, qinvgamma_nan, qbeta_nan, qf_nan, qinvgauss_nan, dbern_nan, dradem_nan, dbinom_nan, dpois_nan, pbern_nan, pradem_nan, pbinom_nan, ppois_nan, qbern_nan, qradem_nan, qbinom_nan, qt_1_nan, qt_2_nan, qpois_nan, dweibull_refuted, qt_small_dof_nan, qt_refuted
- C52: rgamma, rgamma_small, rchisq, rinvgamma, rbeta, rf, rt, rinvgauss, rbinom
- C53: rmultinom, rmultinom_zero_refuted
- C54: pnorm_loc, plaplace_loc, plogis_loc, pcauchy_loc, dnorm_loc, dlaplace_loc, dlogis_loc, dcauchy_loc, pnorm_scale, plaplace_scale, plogis_scale, pcauchy_scale, dnorm_scale, dlaplace_scale, plnorm, dlnorm, pexp, dexp, dexp_refuted, dunif, punif, punif_refuted, pweibull_shape, pweibull_scale, dweibull_scale, dweibull_refuted, pgamma_shape, pgamma_scale, dgamma_shape, dgamma_scale, pchisq, dchisq, pinvgamma_shape, pinvgamma_rate, dinvgamma_shape, dinvgamma_refuted, dinvgamma_rate, pbeta, pbeta_diag, pbeta_point, dbeta, dbeta_diag, pinvgauss_lambda, pinvgauss_mu, pinvgauss_refuted, dinvgauss_lambda, dinvgauss_mu, dinvgauss_refuted, dpois, ppois, dt, pt, pf_df2, pf_df1, pf_both, df_df2, df_df1, df_both
- C55: accu, sqaccu, mean, mean_bounds, mean_affine, var, var_sign, var_affine, empty, var_backend_refuted
- C56: cumsum, cumsum_last, sum_absdiff, sum_absdiff_metric, exp, log_exp, zeros_refuted
- C57: accu, var_negative_refuted, var_nan_refuted, var_zero_refuted, mean_infinite_refuted
- C58: pnorm, plnorm, pcauchy, plaplace, plogis, pt_1, pt_inf, pexp, pweibull, pgamma, pchisq, pinvgamma, pbeta, punif, pbern, pradem, pt, pt_tail, pt_symmetric, pbinom, correctly_rounded, pt_2_refuted, pt_2_dip_refuted, plogis_refuted, pf_refuted, pf_dip_refuted, pinvgauss_refuted, ppois_refuted, pt_4_refuted, pbinom_refuted
- C59: qnorm, qlnorm, qcauchy, qlaplace, qlogis, qt_1, qt_inf, qexp, qweibull, qgamma, qchisq, qinvgamma, qbeta, qf, qunif, qbern, qradem, qbinom, correctly_rounded, qt_2_refuted, qnorm_refuted, qexp_lost, qnorm_lost
- C60: fixed_point, iteration, same_side, from_below, converges, from_above, from_far_above_refuted, qt_tail_side, qt_tail_accuracy, qt_middle
- C61: dnorm, dlaplace, dlnorm, dcauchy, dexp, dunif, dgamma, dchisq, dinvgamma, dbeta, dt, dlogis, dinvgauss, dweibull, dbern, dradem, dbinom, dpois, correctly_rounded, df_refuted, df_nan_refuted, dcauchy_refuted, dlogis_scale_refuted, dlogis_refuted, dinvgauss_refuted, dweibull_refuted, dt_refuted, dbeta_refuted, dgamma_refuted
- C62: dnorm, dlaplace, dcauchy, dexp, dexp_log_refuted
- C63: pnorm, plogis, pcauchy, plaplace, pt_1, plnorm, pinvgamma, punif, pexp, pweibull, pgamma, pchisq, pbeta, pbern_pradem, ppois, correctly_rounded, pnorm_tail_refuted, plogis_tail_refuted, plaplace_tail_refuted, pweibull_low_refuted, plnorm_low_refuted, pgamma_low_refuted, pt_2, ppois_all, pt, pt_tail, pf, pf_low, pinvgauss, pinvgauss_refuted, pbinom
- C64: dens_limits, prob_limits, quant_limits, dens_values, prob_values, quant_values
- C65: qunif, qexp, qlogis, qcauchy, qlaplace, qnorm, qt_1, qt_inf, qt_2, qlnorm, qweibull, qgamma, qchisq, qinvgamma, qbeta, qf, qbern, qradem, correctly_rounded, qnorm_next, qlnorm_next, qt_inf_next, qlaplace_next, qexp_refuted, qnorm_refuted, qlaplace_refuted, qinvgamma_refuted, qbern_refuted
- C66: uniform, engine, rexp, rweibull, rlnorm, rnorm, rcauchy, rlaplace, rlogis, rgamma, rgamma_small, rchisq, rchisq_small, rinvgamma, rinvgamma_small, rbeta, rf, rbern, rradem, rbinom, few_values, rinvgauss_refuted, rgamma_refuted, rbeta_refuted, rf_refuted, rt_refuted, rt_inf_refuted, rinvgamma_refuted
- C67: dnorm, dlnorm, dexp, dlaplace, dlogis, dcauchy, dunif, dgamma, dinvgamma, dchisq, dbeta, dt, dweibull, dinvgauss, df, dpois, dbinom, dbern, dradem, correctly_rounded, dexp_plain, dlogis_refuted, dcauchy_refuted
- C68: norm, logis, laplace, cauchy, lnorm, exp, unif, t1, t2, tinf, invgamma, gamma, chisq, weibull, beta, f, norm_offset_refuted, weibull_small_refuted, gamma_small_refuted, beta_small_refuted
- C69: small, small_ends, small_accurate, small_monotone, attained, large, large_ends, large_accurate, large_monotone
- C70: search, tests, attained, accurate, exact, attained_refuted

**`classic`, `constructive_indefinite_description`, `functional_extensionality_dep`, `sig_forall_dec`, `sig_not_dec`** — 13 theorems:

- C43: dmvnorm, dim1
- C44: dwish_partial, dwish_refuted, dwish_wrap, dinvwish
- C45: rwish, rwish_draws, rinvwish, rinvwish_draws, rmvnorm, rmvnorm_n, rmvnorm_inplace_refuted

## 4. Wrong programs (`seeded/LOG.jsonl`)

One line per edit of the model tried in a scratch copy, whatever the outcome.  How to read it:

* An edit counts as caught when the rebuild stops with an error in a proof.  `first_failing_lemmas` is where
  it stopped; `theorems_failed` names the property theorems that could then not be checked.  A failing proof
  is evidence that the theorem notices the edit, not a proof that the theorem is false of the edited program.
* Edits whose claim says "same real value" leave the mathematical function unchanged.  They are caught
  because a proof follows the order of operations; some of them may satisfy the same statement.
* Only the properties aimed at are rebuilt first, and the whole development only if those pass.  The edits
  chosen at random were checked against C64 alone.
* `survived` is true when nothing failed.  `inconclusive` is true when the rebuild ran out of time or stopped
  without naming a lemma; such an edit is neither caught nor a survivor.
* Edits that survived C64 or were inconclusive there are re-run against other properties, in entries whose
  claim begins "re-run".
