{
 "claims": [
  {
   "property": "C01",
   "status": "proved",
   "theorems": [
    "C01_dnorm",
    "C01_pnorm",
    "C01_dcauchy",
    "C01_pcauchy",
    "C01_dlaplace",
    "C01_plaplace",
    "C01_dlogis",
    "C01_plogis",
    "C01_dlnorm",
    "C01_plnorm",
    "C01_dbeta",
    "C01_pbeta",
    "C01_dchisq",
    "C01_pchisq",
    "C01_dexp",
    "C01_pexp",
    "C01_df",
    "C01_pf",
    "C01_dgamma",
    "C01_pgamma",
    "C01_dinvgamma",
    "C01_pinvgamma",
    "C01_dinvgauss",
    "C01_pinvgauss",
    "C01_dt",
    "C01_pt",
    "C01_dunif",
    "C01_punif",
    "C01_dweibull",
    "C01_pweibull",
    "C01_dbern",
    "C01_pbern",
    "C01_dradem",
    "C01_pradem",
    "C01_dbinom",
    "C01_dpois",
    "C01_pbinom",
    "C01_ppois",
    "C01_dnorm_std",
    "C01_pnorm_std",
    "C01_dunif_std"
   ],
   "note": ""
  },
  {
   "property": "C02",
   "status": "proved",
   "theorems": [
    "C02_qnorm",
    "C02_qcauchy",
    "C02_qlaplace",
    "C02_qlogis",
    "C02_qlnorm",
    "C02_qbeta",
    "C02_qchisq",
    "C02_qexp",
    "C02_qf",
    "C02_qgamma",
    "C02_qinvgamma",
    "C02_qinvgauss",
    "C02_qt",
    "C02_qunif",
    "C02_qweibull",
    "C02_qbern",
    "C02_qradem",
    "C02_qbinom",
    "C02_qpois",
    "C02_qnorm_std"
   ],
   "note": ""
  },
  {
   "property": "C03",
   "status": "partial",
   "theorems": [
    "C03_runif",
    "C03_rnorm",
    "C03_rexp",
    "C03_rcauchy",
    "C03_rlaplace",
    "C03_rlogis",
    "C03_rweibull",
    "C03_rlnorm",
    "C03_rbern",
    "C03_rradem",
    "C03_rbinom",
    "C03_rgamma",
    "C03_rchisq",
    "C03_rbeta",
    "C03_rf",
    "C03_rt",
    "C03_rinvgamma",
    "C03_rpois",
    "C03_rinvgauss_nan_par",
    "C03_rinvgauss_refuted"
   ],
   "note": "every sampler except rinvgauss, in any arithmetic (exact and binary64); rinvgauss has no parameter check: NaN parameters still give NaN, negative ones do not (C03_rinvgauss_refuted)"
  },
  {
   "property": "C04",
   "status": "partial",
   "theorems": [
    "C04_dexp_out",
    "C04_dgamma_out",
    "C04_dinvgamma_out",
    "C04_dchisq_out",
    "C04_df_out",
    "C04_dinvgauss_out",
    "C04_dlnorm_out",
    "C04_dweibull_out",
    "C04_dbeta_out",
    "C04_dunif_out",
    "C04_dbern_out",
    "C04_dradem_out",
    "C04_dbinom_out",
    "C04_dpois_out",
    "C04_dnorm_inf",
    "C04_dlaplace_inf",
    "C04_dlogis_inf",
    "C04_dcauchy_inf",
    "C04_dt_inf",
    "C04_dchisq_inf",
    "C04_dgamma_inf",
    "C04_dinvgamma_inf",
    "C04_dinvgauss_inf",
    "C04_dlnorm_inf",
    "C04_dweibull_inf",
    "C04_df_inf",
    "C04_df_inf_refuted"
   ],
   "note": "not true of the code as stated, settled by a counterexample: every density; refuted clause: df at x=+inf is NaN when df1<2 or df2<1 (C04_df_inf_refuted)"
  },
  {
   "property": "C05",
   "status": "partial",
   "theorems": [
    "C05_pnorm_ends",
    "C05_plaplace_ends",
    "C05_plogis_ends",
    "C05_pcauchy_ends",
    "C05_pt_ends",
    "C05_pexp_below",
    "C05_pexp_above",
    "C05_punif_below",
    "C05_punif_above",
    "C05_pweibull_below",
    "C05_pweibull_above",
    "C05_pchisq_below",
    "C05_pchisq_above",
    "C05_pgamma_below",
    "C05_pgamma_above",
    "C05_pf_below",
    "C05_pf_above",
    "C05_plnorm_below",
    "C05_plnorm_above",
    "C05_pbeta_below",
    "C05_pbeta_above",
    "C05_pinvgauss_below",
    "C05_pinvgauss_above",
    "C05_pinvgamma_below",
    "C05_pinvgamma_above",
    "C05_pbern_below",
    "C05_pbern_above",
    "C05_pradem_below",
    "C05_pradem_above",
    "C05_pbinom_below",
    "C05_pbinom_above",
    "C05_ppois_below",
    "C05_pexp_above_refuted",
    "C05_pgamma_above_ext",
    "C05_pgamma_below_ext",
    "C05_pchisq_above_ext",
    "C05_pf_above_ext",
    "C05_pweibull_above_ext",
    "C05_pinvgauss_above_ext",
    "C05_pbeta_ext",
    "C05_pt_ends_ext"
   ],
   "note": "not true of the code as stated, settled by a counterexample: every CDF with valid finite parameters; refuted clause: pexp with rate 0 at +inf; pinvgamma needs rate<=1/epsilon (see C49)"
  },
  {
   "property": "C06",
   "status": "partial",
   "theorems": [
    "C06_dnorm_log",
    "C06_dcauchy_log",
    "C06_dlaplace_log",
    "C06_dlogis_log",
    "C06_dlnorm_log",
    "C06_dinvgauss_log",
    "C06_dgamma_log",
    "C06_dinvgamma_log",
    "C06_dweibull_log",
    "C06_dbeta_log",
    "C06_pnorm_log",
    "C06_pcauchy_log",
    "C06_plaplace_log",
    "C06_plogis_log",
    "C06_plnorm_log",
    "C06_pinvgauss_log",
    "C06_pgamma_log",
    "C06_pinvgamma_log",
    "C06_pweibull_log",
    "C06_pbeta_log",
    "C06_punif_log",
    "C06_dchisq_log",
    "C06_pchisq_log",
    "C06_pexp_log",
    "C06_dt_log",
    "C06_pt_log",
    "C06_dbern_log",
    "C06_pbern_log",
    "C06_dradem_log",
    "C06_pradem_log",
    "C06_dpois_log",
    "C06_ppois_log",
    "C06_dbinom_log",
    "C06_pbinom_log",
    "C06_dexp_log",
    "C06_dunif_log",
    "C06_df_log",
    "C06_pf_log",
    "C06_dexp_refuted",
    "C06_dunif_refuted",
    "C06_pf_refuted"
   ],
   "note": "not true of the code as stated, settled by a counterexample: every density and CDF; refuted for dexp at +inf, dunif with an infinite bound, pf with df1=+inf"
  },
  {
   "property": "C07",
   "status": "proved",
   "theorems": [
    "C07_dnorm_nn",
    "C07_dlaplace_nn",
    "C07_dlogis_nn",
    "C07_dbeta_nn",
    "C07_dinvgamma_nn",
    "C07_dinvgauss_nn",
    "C07_dweibull_nn",
    "C07_dunif_nn",
    "C07_dcauchy_nn",
    "C07_dlnorm_nn",
    "C07_dgamma_nn",
    "C07_df_nn",
    "C07_dchisq_nn",
    "C07_dexp_nn",
    "C07_dt_nn",
    "C07_dpois_nn",
    "C07_dbern_nn",
    "C07_dradem_nn",
    "C07_dbinom_nn"
   ],
   "note": ""
  },
  {
   "property": "C08",
   "status": "proved",
   "theorems": [
    "C08_pexp_unit",
    "C08_punif_unit",
    "C08_plaplace_unit",
    "C08_plogis_unit",
    "C08_pcauchy_unit",
    "C08_pweibull_unit",
    "C08_pnorm_unit",
    "C08_plnorm_unit",
    "C08_pgamma_unit",
    "C08_pchisq_unit",
    "C08_pinvgamma_unit",
    "C08_pbeta_unit",
    "C08_pf_unit",
    "C08_pt_unit",
    "C08_pinvgauss_unit",
    "C08_pbern_unit",
    "C08_pradem_unit",
    "C08_pbinom_unit",
    "C08_ppois_unit"
   ],
   "note": "all 19 CDFs in exact arithmetic, assuming the special functions are the functions they name; pinvgamma for rate<=1/epsilon (refuted beyond, C49)"
  },
  {
   "property": "C09",
   "status": "proved",
   "theorems": [
    "C09_pexp_mono",
    "C09_punif_mono",
    "C09_plaplace_mono",
    "C09_plogis_mono",
    "C09_pcauchy_mono",
    "C09_pweibull_mono",
    "C09_pnorm_mono",
    "C09_plnorm_mono",
    "C09_pgamma_mono",
    "C09_pchisq_mono",
    "C09_pinvgamma_mono",
    "C09_pbeta_mono",
    "C09_pf_mono",
    "C09_pt_mono",
    "C09_pinvgauss_mono",
    "C09_pbern_mono",
    "C09_pradem_mono",
    "C09_pbinom_mono",
    "C09_ppois_mono"
   ],
   "note": "all 19 CDFs in exact arithmetic; pinvgamma for rate<=1/epsilon"
  },
  {
   "property": "C10",
   "status": "partial",
   "theorems": [
    "C10_dexp_val",
    "C10_dunif_val",
    "C10_dlaplace_val",
    "C10_dlogis_val",
    "C10_dcauchy_val",
    "C10_dnorm_val",
    "C10_dweibull_val",
    "C10_dlnorm_val",
    "C10_dinvgauss_val",
    "C10_dgamma_val",
    "C10_dchisq_val",
    "C10_dinvgamma_val",
    "C10_dbeta_val",
    "C10_df_val",
    "C10_dt_val",
    "C10_dgamma_at0",
    "C10_dchisq_at0",
    "C10_dbeta_at0",
    "C10_df_at0",
    "C10_dinvgamma_at0",
    "C10_dinvgauss_at0",
    "C10_dlnorm_at0",
    "C10_dweibull_at0",
    "C10_dexp_at0",
    "C10_dbeta_at1",
    "C10_dweibull_at0_shape1",
    "C10_dweibull_refuted"
   ],
   "note": "not true of the code as stated, settled by a counterexample: 15 continuous densities, interior and boundary; refuted for dweibull at 0 with shape 1 (NaN)"
  },
  {
   "property": "C11",
   "status": "partial",
   "theorems": [
    "C11_pexp_val",
    "C11_pexp_low",
    "C11_punif_val",
    "C11_punif_low",
    "C11_punif_high",
    "C11_plaplace_val",
    "C11_plogis_val",
    "C11_pcauchy_val",
    "C11_pnorm_val",
    "C11_plnorm_val",
    "C11_plnorm_low",
    "C11_pweibull_val",
    "C11_pweibull_low",
    "C11_pgamma_val",
    "C11_pchisq_val",
    "C11_pinvgamma_val",
    "C11_pbeta_val",
    "C11_pf_val",
    "C11_pt_val",
    "C11_pinvgauss_val",
    "C11_pweibull_refuted",
    "C11_plnorm_refuted"
   ],
   "note": "not true of the code as stated, settled by a counterexample: refuted for Weibull and log-normal between 0 and epsilon, where the code returns 0"
  },
  {
   "property": "C12",
   "status": "partial",
   "theorems": [
    "C12_pexp_density",
    "C12_punif_density",
    "C12_plaplace_density",
    "C12_plogis_density",
    "C12_pcauchy_density",
    "C12_pweibull_density",
    "C12_pweibull_cutoff",
    "C12_pweibull_refuted"
   ],
   "note": "not true of the code as stated, settled by a counterexample: refuted for Weibull between 0 and epsilon"
  },
  {
   "property": "C13",
   "status": "partial",
   "theorems": [
    "C13_pnorm_density",
    "C13_plnorm_density",
    "C13_pgamma_density",
    "C13_pchisq_density",
    "C13_pinvgamma_density",
    "C13_pbeta_density",
    "C13_pf_density",
    "C13_pt_density",
    "C13_pinvgauss_density",
    "C13_plnorm_cutoff",
    "C13_pgamma_cutoff",
    "C13_pchisq_cutoff",
    "C13_pf_cutoff",
    "C13_pinvgamma_cutoff",
    "C13_pgamma_refuted"
   ],
   "note": "not true of the code as stated, settled by a counterexample: special functions specified by their defining integrals; refuted between 0 and epsilon for log-normal, gamma, chi-squared and F, above 1/epsilon for inverse gamma"
  },
  {
   "property": "C14",
   "status": "partial",
   "theorems": [
    "C14_pexp_qexp",
    "C14_punif_qunif",
    "C14_plaplace_qlaplace",
    "C14_plogis_qlogis",
    "C14_pcauchy_qcauchy",
    "C14_pnorm_qnorm",
    "C14_pbeta_qbeta",
    "C14_pt_qt_1",
    "C14_pt_qt_2",
    "C14_pweibull_qweibull",
    "C14_plnorm_qlnorm",
    "C14_pgamma_qgamma",
    "C14_pchisq_qchisq",
    "C14_pf_qf",
    "C14_pinvgamma_qinvgamma",
    "C14_pweibull_qweibull_cutoff",
    "C14_pweibull_refuted",
    "C14_qinvgauss_error_partial",
    "C14_pf_qf_inf1",
    "C14_pf_qf_inf2",
    "C14_pf_qf_inf"
   ],
   "note": "not true of the code as stated, settled by a counterexample: Weibull refuted for p below the CDF at epsilon; log-normal, gamma, chi-squared, F, beta, inverse gamma also covered; qinvgauss has an error bound (_partial)"
  },
  {
   "property": "C15",
   "status": "partial",
   "theorems": [
    "C15_qexp_pexp",
    "C15_qunif_punif",
    "C15_qlaplace_plaplace",
    "C15_qlogis_plogis",
    "C15_qcauchy_pcauchy",
    "C15_qweibull_pweibull",
    "C15_qnorm_pnorm",
    "C15_qlnorm_plnorm",
    "C15_qgamma_pgamma",
    "C15_qchisq_pchisq",
    "C15_qinvgamma_pinvgamma",
    "C15_qbeta_pbeta",
    "C15_qf_pf",
    "C15_qt_pt_1",
    "C15_qt_pt_2",
    "C15_qweibull_pweibull_cutoff",
    "C15_qweibull_refuted"
   ],
   "note": "not true of the code as stated, settled by a counterexample: Weibull refuted for x below epsilon; further families covered"
  },
  {
   "property": "C16",
   "status": "partial",
   "theorems": [
    "C16_qexp_like",
    "C16_qunif_like",
    "C16_qlaplace_like",
    "C16_qlogis_like",
    "C16_qcauchy_like",
    "C16_qweibull_like",
    "C16_qnorm_like",
    "C16_qlnorm_like",
    "C16_qgamma_like",
    "C16_qchisq_like",
    "C16_qinvgamma_like",
    "C16_qbeta_like",
    "C16_qf_like",
    "C16_qt_1_like",
    "C16_qt_2_like",
    "C16_qinvgauss_ends",
    "C16_qinvgauss_support_partial",
    "C16_qt_mono_refuted",
    "C16_qt_3_not_mono",
    "C16_qt_3_unbounded",
    "C16_qt_range_refuted",
    "C16_qinvgauss_like"
   ],
   "note": "every family with a quantile function proved except t, where only 1 and 2 degrees of freedom hold: qt is refuted with 3 degrees of freedom (infinite at some p<1 and finite above it) and with fewer than 1/2 (NaN)"
  },
  {
   "property": "C17",
   "status": "partial",
   "theorems": [
    "C17_qbern_quantile",
    "C17_qradem_quantile",
    "C17_qbinom_quantile",
    "C17_qbinom_one",
    "C17_qbinom_one_quantile",
    "C17_qbinom_refuted"
   ],
   "note": "not true of the code as stated, settled by a counterexample: refuted only at p=1 with success probability 0 (C17_qbinom_refuted)"
  },
  {
   "property": "C18",
   "status": "partial",
   "theorems": [
    "C18_qpois_refuted",
    "C18_qpois_of_ppois",
    "C18_qpois_small_partial",
    "C18_qpois_large_partial",
    "C18_qpois_large_off"
   ],
   "note": "not true of the code as stated, settled by a counterexample: the property is false of the code: refuted at every attained probability (C18_qpois_refuted, C18_qpois_of_ppois); the _partial theorems state the strict variant the code does satisfy, for rate>=11 assuming the start point has CDF <= p"
  },
  {
   "property": "C19",
   "status": "partial",
   "theorems": [
    "C19_qbinom_total",
    "C19_qbinom_fuel",
    "C19_qpois_total",
    "C19_qpois_fuel",
    "C19_qpois_diverges_refuted",
    "C19_qpois_inf"
   ],
   "note": "not true of the code as stated, settled by a counterexample: qbinom in any arithmetic, qpois for finite rates; refuted for an infinite rate"
  },
  {
   "property": "C20",
   "status": "proved",
   "theorems": [
    "C20_binomial_sums",
    "C20_dbinom_formula",
    "C20_pbinom_formula"
   ],
   "note": ""
  },
  {
   "property": "C21",
   "status": "proved",
   "theorems": [
    "C21_poisson_sums",
    "C21_dpois_formula",
    "C21_ppois_formula"
   ],
   "note": ""
  },
  {
   "property": "C22",
   "status": "proved",
   "theorems": [
    "C22_bern_sums",
    "C22_radem_sums"
   ],
   "note": ""
  },
  {
   "property": "C23",
   "status": "proved",
   "theorems": [
    "C23_dnorm_sym",
    "C23_pnorm_sym",
    "C23_qnorm_sym",
    "C23_dlaplace_sym",
    "C23_plaplace_sym",
    "C23_qlaplace_sym",
    "C23_dlogis_sym",
    "C23_plogis_sym",
    "C23_qlogis_sym",
    "C23_dcauchy_sym",
    "C23_pcauchy_sym",
    "C23_qcauchy_sym",
    "C23_dt_sym",
    "C23_dt_inf_sym",
    "C23_pt_sym",
    "C23_pt_inf_sym"
   ],
   "note": ""
  },
  {
   "property": "C24",
   "status": "partial",
   "theorems": [
    "C24_qt_1_sym",
    "C24_qt_2_sym",
    "C24_qt_inf_sym",
    "C24_qt_3_not_sym",
    "C24_qt_refuted"
   ],
   "note": "not true of the code as stated, settled by a counterexample: holds for 1, 2 and infinite degrees of freedom; refuted for 3"
  },
  {
   "property": "C25",
   "status": "proved",
   "theorems": [
    "C25_dnorm_ls",
    "C25_pnorm_ls",
    "C25_qnorm_ls",
    "C25_dlaplace_ls",
    "C25_plaplace_ls",
    "C25_qlaplace_ls",
    "C25_dlogis_ls",
    "C25_plogis_ls",
    "C25_qlogis_ls",
    "C25_dcauchy_ls",
    "C25_pcauchy_ls",
    "C25_qcauchy_ls",
    "C25_dunif_ls",
    "C25_punif_ls",
    "C25_qunif_ls",
    "C25_qnorm_ls_ends"
   ],
   "note": ""
  },
  {
   "property": "C26",
   "status": "partial",
   "theorems": [
    "C26_dchisq_gamma",
    "C26_pchisq_gamma",
    "C26_qchisq_gamma",
    "C26_dexp_weibull",
    "C26_pexp_weibull",
    "C26_qexp_weibull",
    "C26_dexp_gamma",
    "C26_pexp_gamma",
    "C26_dt_1_cauchy",
    "C26_pt_1_cauchy",
    "C26_qt_1_cauchy",
    "C26_dt_inf_norm",
    "C26_pt_inf_norm",
    "C26_qt_inf_norm",
    "C26_dbinom_1_bern",
    "C26_pbinom_1_bern",
    "C26_qbinom_1_bern",
    "C26_pexp_weibull_refuted",
    "C26_qbinom_1_bern_refuted"
   ],
   "note": "not true of the code as stated, settled by a counterexample: refuted for the Weibull CDF between 0 and epsilon, and for qbinom/qbern at p=1 with probability 0"
  },
  {
   "property": "C27",
   "status": "proved",
   "theorems": [
    "C27_dlnorm_dnorm",
    "C27_plnorm_pnorm",
    "C27_qlnorm_qnorm",
    "C27_dinvgamma_dgamma",
    "C27_pinvgamma_pgamma",
    "C27_df_dbeta",
    "C27_pf_pbeta"
   ],
   "note": ""
  },
  {
   "property": "C28",
   "status": "partial",
   "theorems": [
    "C28_pnorm_std",
    "C28_qnorm_std",
    "C28_dunif_std",
    "C28_dnorm_std_refuted"
   ],
   "note": "not true of the code as stated, settled by a counterexample: refuted for the two-argument dnorm, which calls pnorm"
  },
  {
   "property": "C29",
   "status": "proved",
   "theorems": [
    "C29_stdvec",
    "C29_matrix",
    "C29_stdvec_map",
    "C29_stdvec_runs",
    "C29_mat_map",
    "C29_returns",
    "C29_deterministic"
   ],
   "note": "std::vector, Armadillo and Eigen dense paths, any interleaving at the granularity of the steps of the scalar call; Blaze goes through blaze::map and is not modelled"
  },
  {
   "property": "C30",
   "status": "proved",
   "theorems": [
    "C30_eval_no_ub",
    "C30_rand_no_ub",
    "C30_block_index",
    "C30_tail_no_wrap",
    "C30_tail_index",
    "C30_rand_no_race",
    "C30_eval_no_race"
   ],
   "note": "no undefined access, no index wrap, no shared location between two running threads"
  },
  {
   "property": "C31",
   "status": "proved",
   "theorems": [
    "C31_serial",
    "C31_calls_deterministic",
    "C31_below_threshold",
    "C31_serial_function",
    "C31_below_threshold_function",
    "C31_runs"
   ],
   "note": "serial and below-threshold fills; the scalar sampler is an arbitrary step function on the engine"
  },
  {
   "property": "C32",
   "status": "proved",
   "theorems": [
    "C32_result",
    "C32_deterministic",
    "C32_every_element",
    "C32_no_old_data",
    "C32_engine_advance"
   ],
   "note": "result, final engine state and completeness of a parallel fill, independent of schedule and of the old contents"
  },
  {
   "property": "C33",
   "status": "partial",
   "theorems": [
    "C33_exact",
    "C33_binary64_partial",
    "C33_binary64_apart_partial",
    "C33_binary64_range",
    "C33_binary64_refuted",
    "C33_engines"
   ],
   "note": "true in exact arithmetic (C33_exact); refuted in binary64 for neighbouring blocks (C33_binary64_refuted); true in binary64 when no draw exceeds 1-2^-40 and always for non-neighbouring blocks"
  },
  {
   "property": "C34",
   "status": "partial",
   "theorems": [
    "C34_threads_refuted",
    "C34_four_or_more",
    "C34_small_fills",
    "C34_fewer_than_five"
   ],
   "note": "refuted on mt19937_64 with 1 and 2 threads (C34_threads_refuted); proved for thread counts of 4 or more and for fills below the threshold"
  },
  {
   "property": "C35",
   "status": "proved",
   "theorems": [
    "C35_overloads",
    "C35_history",
    "C35_erase",
    "C35_engine"
   ],
   "note": "each seed overload equals the engine overload on the fresh engine; for any history of seed and engine calls, seed calls change no engine and engine calls depend on their own engine only"
  },
  {
   "property": "C36",
   "status": "partial",
   "theorems": [
    "C36_rmultinom_refuted",
    "C36_word_partial"
   ],
   "note": "refuted: on mt19937_64 two device words give different counts (C36_rmultinom_refuted); with the device word fixed the result is determined"
  },
  {
   "property": "C37",
   "status": "proved",
   "theorems": [
    "C37_rexp",
    "C37_rcauchy",
    "C37_rlaplace",
    "C37_rlogis",
    "C37_rweibull",
    "C37_rbern",
    "C37_rradem",
    "C37_rnorm",
    "C37_rlnorm",
    "C37_rpois"
   ],
   "note": "exact arithmetic; plus rnorm, rlnorm and rpois (rate < 11)"
  },
  {
   "property": "C38",
   "status": "partial",
   "theorems": [
    "C38_runif",
    "C38_rnorm",
    "C38_rlnorm",
    "C38_rexp",
    "C38_rweibull",
    "C38_rcauchy",
    "C38_rlaplace",
    "C38_rlogis",
    "C38_rinvgauss",
    "C38_rbern",
    "C38_rradem",
    "C38_rbinom",
    "C38_rpois",
    "C38_rgamma",
    "C38_rchisq",
    "C38_rbeta",
    "C38_rf",
    "C38_rt",
    "C38_rinvgamma_partial",
    "C38_rinvgamma_refuted"
   ],
   "note": "exact arithmetic; refuted for rinvgamma with rate > 1/epsilon, where every draw is NaN; all other samplers proved"
  },
  {
   "property": "C39",
   "status": "partial",
   "theorems": [
    "C39_rbern_0",
    "C39_rbern_1",
    "C39_rradem_0",
    "C39_rradem_1",
    "C39_rbinom_0",
    "C39_rbinom_1",
    "C39_rbern_double_0",
    "C39_rbern_double_1",
    "C39_rradem_double_0",
    "C39_rradem_double_1",
    "C39_rbinom_double_0",
    "C39_rbinom_double_1_partial",
    "C39_rbinom_double_1_refuted",
    "C39_rbinom_double_saturates"
   ],
   "note": "proved in exact arithmetic and in binary64 except rbinom(n,1) with n > 2^53 in binary64, refuted there (the count saturates at 2^53)"
  },
  {
   "property": "C40",
   "status": "partial",
   "theorems": [
    "C40_rgamma_fuel",
    "C40_rgamma_big",
    "C40_rgamma_small",
    "C40_rgamma_zero",
    "C40_depth_big",
    "C40_depth_small",
    "C40_depth",
    "C40_depth_double",
    "C40_streams",
    "C40_rgamma_inf_refuted"
   ],
   "note": "proved for finite shape >= 0 (returns iff a proposal is accepted, depth at most two recursive calls, streams exist); refuted for an infinite shape, which passes the sanity check and never returns"
  },
  {
   "property": "C41",
   "status": "partial",
   "theorems": [
    "C41_type",
    "C41_integral",
    "C41_same",
    "C41_holds",
    "C41_floating",
    "C41_order",
    "C41_converted",
    "C41_promoted",
    "C41_rbern_partial",
    "C41_rbern_double_partial",
    "C41_rradem_partial",
    "C41_rradem_double_partial",
    "C41_rbinom_partial",
    "C41_rbinom_double_partial",
    "C41_pbinom_partial",
    "C41_rand_refuted",
    "C41_rradem_refuted",
    "C41_pbinom_refuted",
    "C41_pbinom_log_refuted",
    "C41_pbinom_ub_refuted",
    "C41_pbinom_zero_refuted"
   ],
   "note": "result types and conversion proved for every wrapper that converts to common_return_t; rbern, rbinom, rradem and pbinom use the raw type: refuted at invalid probabilities, for unsigned types and for the result type of pbinom, and proved to agree at valid integral probabilities"
  },
  {
   "property": "C42",
   "status": "partial",
   "theorems": [
    "C42_dbinom",
    "C42_pbinom",
    "C42_dpois_partial",
    "C42_ppois_partial",
    "C42_dpois_max",
    "C42_ppois_max",
    "C42_pois_refuted",
    "C42_qbinom_partial",
    "C42_qbinom_refuted",
    "C42_qpois_partial",
    "C42_qpois_conv_refuted",
    "C42_qpois_inf_refuted",
    "C42_vec",
    "C42_vec_partial",
    "C42_vec_refuted"
   ],
   "note": "dbinom and pbinom proved free of overflow for all 64-bit arguments; dpois, ppois overflow exactly at 2^63-1 and qbinom at n=2^63-1; qpois converts an out-of-range value for large rates; vectors of doubles are converted with undefined behaviour exactly for NaN, infinite and out-of-range elements"
  },
  {
   "property": "C43",
   "status": "proved",
   "theorems": [
    "C43_dmvnorm",
    "C43_dim1",
    "C43_plain",
    "C43_capped"
   ],
   "note": "exact arithmetic, any dimension, given an exact linear algebra library (lib_ok, shown satisfiable); the clamp of an overflowing density to max() has no effect on exact reals"
  },
  {
   "property": "C44",
   "status": "partial",
   "theorems": [
    "C44_dwish_partial",
    "C44_dwish_refuted",
    "C44_dwish_wrap",
    "C44_dinvwish"
   ],
   "note": "dinvwish and dwish proved for floating nu and for integral nu >= K+1; refuted for dwish with an integral nu = K, where nu-K-1 wraps to 2^64-1"
  },
  {
   "property": "C45",
   "status": "partial",
   "theorems": [
    "C45_rwish",
    "C45_rwish_draws",
    "C45_rinvwish",
    "C45_rinvwish_draws",
    "C45_rmvnorm",
    "C45_rmvnorm_n",
    "C45_seq_fill",
    "C45_mismatch",
    "C45_mismatch_n",
    "C45_rmvnorm_inplace_refuted"
   ],
   "note": "proved for an exact library whose Cholesky factor is lower triangular (Armadillo, Eigen): rwish and rinvwish positive definite and equal to the Bartlett construction, rmvnorm = mu + L z, mismatch empty; refuted for a Cholesky routine that leaves the upper triangle in place (Blaze). The Armadillo-only rmvnorm reads its normals from arma::randn, which is covered as an arbitrary fill"
  },
  {
   "property": "C46",
   "status": "partial",
   "theorems": [
    "C46_dnorm_deg",
    "C46_pnorm_deg",
    "C46_dlaplace_deg",
    "C46_qnorm_deg",
    "C46_qlaplace_deg",
    "C46_qlogis_deg",
    "C46_qcauchy_deg",
    "C46_qlnorm_deg",
    "C46_plaplace_deg_partial",
    "C46_plogis_deg_partial",
    "C46_pcauchy_deg_partial",
    "C46_plnorm_deg",
    "C46_dlogis_refuted",
    "C46_dcauchy_refuted",
    "C46_plaplace_refuted",
    "C46_plogis_refuted",
    "C46_pcauchy_refuted",
    "C46_dlnorm_refuted",
    "C46_plaplace_deg_at",
    "C46_plogis_deg_at",
    "C46_pcauchy_deg_at",
    "C46_dlogis_deg_value",
    "C46_dcauchy_deg_value",
    "C46_dlnorm_deg_value"
   ],
   "note": "not true of the code as stated, settled by a counterexample: refuted for dlogis, dcauchy, plaplace, plogis, pcauchy, dlnorm; proved for the others"
  },
  {
   "property": "C47",
   "status": "partial",
   "theorems": [
    "C47_punif_partial",
    "C47_qunif_partial",
    "C47_punif_monotone_partial",
    "C47_punif_refuted",
    "C47_punif_zero_refuted",
    "C47_qunif_refuted"
   ],
   "note": "proved when b-a does not overflow; refuted otherwise (NaN from punif, infinity from qunif)"
  },
  {
   "property": "C48",
   "status": "partial",
   "theorems": [
    "C48_strict_partial",
    "C48_adjacent_refuted",
    "C48_overflow_refuted",
    "C48_libstdcxx_refuted"
   ],
   "note": "refuted for adjacent doubles, on overflow of b-a, and for the libstdc++ uniform distribution; proved from the promise of the standard for the other pairs"
  },
  {
   "property": "C49",
   "status": "partial",
   "theorems": [
    "C49_pinvgamma_refuted",
    "C49_pinvgamma_big_rate"
   ],
   "note": "not true of the code as stated, settled by a counterexample: the property is false of the code (C49_pinvgamma_refuted)"
  },
  {
   "property": "C50",
   "status": "partial",
   "theorems": [
    "C50_dnorm_nan",
    "C50_dlaplace_nan",
    "C50_dlogis_nan",
    "C50_dcauchy_nan",
    "C50_dgamma_nan",
    "C50_dchisq_nan",
    "C50_dinvgamma_nan",
    "C50_dinvgauss_nan",
    "C50_dlnorm_nan",
    "C50_dweibull_nan",
    "C50_df_nan",
    "C50_dbeta_nan",
    "C50_dexp_nan",
    "C50_dunif_nan",
    "C50_dt_nan",
    "C50_pexp_nan",
    "C50_punif_nan",
    "C50_plaplace_nan",
    "C50_plogis_nan",
    "C50_pcauchy_nan",
    "C50_pweibull_nan",
    "C50_pnorm_nan",
    "C50_plnorm_nan",
    "C50_pgamma_nan",
    "C50_pchisq_nan",
    "C50_pinvgamma_nan",
    "C50_pbeta_nan",
    "C50_pf_nan",
    "C50_pt_nan",
    "C50_pinvgauss_nan",
    "C50_qexp_nan",
    "C50_qunif_nan",
    "C50_qlaplace_nan",
    "C50_qlogis_nan",
    "C50_qcauchy_nan",
    "C50_qweibull_nan",
    "C50_qnorm_nan",
    "C50_qlnorm_nan",
    "C50_qgamma_nan",
    "C50_qchisq_nan",
    "C50_qinvgamma_nan",
    "C50_qbeta_nan",
    "C50_qf_nan",
    "C50_qinvgauss_nan",
    "C50_dbern_nan",
    "C50_dradem_nan",
    "C50_dbinom_nan",
    "C50_dpois_nan",
    "C50_pbern_nan",
    "C50_pradem_nan",
    "C50_pbinom_nan",
    "C50_ppois_nan",
    "C50_qbern_nan",
    "C50_qradem_nan",
    "C50_qbinom_nan",
    "C50_qt_1_nan",
    "C50_qt_2_nan",
    "C50_qpois_nan",
    "C50_dweibull_refuted",
    "C50_qt_small_dof_nan",
    "C50_qt_refuted"
   ],
   "note": "not true of the code as stated, settled by a counterexample: refuted for dweibull at 0 with shape 1, qt with fewer than 1/2 degrees of freedom, pinvgamma with rate>1/epsilon (C49); qt proved for 1 and 2 degrees of freedom only"
  },
  {
   "property": "C51",
   "status": "partial",
   "theorems": [
    "C51_count",
    "C51_count_refuted"
   ],
   "note": "proved when n*k<2^64; refuted for n=k=2^32 (C51_count_refuted)"
  },
  {
   "property": "C52",
   "status": "proved",
   "theorems": [
    "C52_rgamma",
    "C52_rgamma_small",
    "C52_rchisq",
    "C52_rinvgamma",
    "C52_rbeta",
    "C52_rf",
    "C52_rt",
    "C52_rinvgauss",
    "C52_rbinom"
   ],
   "note": "independence and nominal laws of the engine variates are part of the statement; each theorem gives the value returned as a function of the variates and the mass of the event that it is at most x"
  },
  {
   "property": "C53",
   "status": "partial",
   "theorems": [
    "C53_rmultinom",
    "C53_law",
    "C53_rmultinom_zero_refuted"
   ],
   "note": "proved for probability vectors whose last entry is positive; refuted (undefined behaviour) when the trailing probabilities are zero"
  },
  {
   "property": "C54",
   "status": "partial",
   "theorems": [
    "C54_pnorm_loc",
    "C54_plaplace_loc",
    "C54_plogis_loc",
    "C54_pcauchy_loc",
    "C54_dnorm_loc",
    "C54_dlaplace_loc",
    "C54_dlogis_loc",
    "C54_dcauchy_loc",
    "C54_pnorm_scale",
    "C54_plaplace_scale",
    "C54_plogis_scale",
    "C54_pcauchy_scale",
    "C54_dnorm_scale",
    "C54_dlaplace_scale",
    "C54_plnorm",
    "C54_dlnorm",
    "C54_pexp",
    "C54_dexp",
    "C54_dexp_refuted",
    "C54_dunif",
    "C54_punif",
    "C54_punif_refuted",
    "C54_pweibull_shape",
    "C54_pweibull_scale",
    "C54_dweibull_scale",
    "C54_dweibull_refuted",
    "C54_pgamma_shape",
    "C54_pgamma_scale",
    "C54_dgamma_shape",
    "C54_dgamma_scale",
    "C54_pchisq",
    "C54_dchisq",
    "C54_pinvgamma_shape",
    "C54_pinvgamma_rate",
    "C54_dinvgamma_shape",
    "C54_dinvgamma_refuted",
    "C54_dinvgamma_rate",
    "C54_pbeta",
    "C54_pbeta_diag",
    "C54_pbeta_point",
    "C54_dbeta",
    "C54_dbeta_diag",
    "C54_pinvgauss_lambda",
    "C54_pinvgauss_mu",
    "C54_pinvgauss_refuted",
    "C54_dinvgauss_lambda",
    "C54_dinvgauss_mu",
    "C54_dinvgauss_refuted",
    "C54_dpois",
    "C54_ppois",
    "C54_dt",
    "C54_pt",
    "C54_pf_df2",
    "C54_pf_df1",
    "C54_pf_both",
    "C54_df_df2",
    "C54_df_df1",
    "C54_df_both"
   ],
   "note": "proved for the families and boundaries listed; refuted for an infinite mean of the inverse Gaussian (0 instead of a positive limit), dinvgamma at shape 0, dexp at infinite rate, punif at a = -inf and dweibull at infinite scale with shape <= 1; not claimed where C46 or C49 already refute a finite value"
  },
  {
   "property": "C55",
   "status": "partial",
   "theorems": [
    "C55_accu",
    "C55_sqaccu",
    "C55_mean",
    "C55_mean_bounds",
    "C55_mean_affine",
    "C55_var",
    "C55_var_sign",
    "C55_var_affine",
    "C55_empty",
    "C55_var_backend_refuted"
   ],
   "note": "exact arithmetic, std::vector version; refuted: the Armadillo back end divides by n-1, so the back ends disagree for every vector that is not constant"
  },
  {
   "property": "C56",
   "status": "partial",
   "theorems": [
    "C56_cumsum",
    "C56_cumsum_last",
    "C56_cumsum_total",
    "C56_cumsum_step",
    "C56_rmultinom",
    "C56_sum_absdiff",
    "C56_sum_absdiff_metric",
    "C56_sum_absdiff_short",
    "C56_exp",
    "C56_log_exp",
    "C56_fill",
    "C56_resize",
    "C56_zeros",
    "C56_zeros_keeps",
    "C56_zeros_refuted",
    "C56_eye",
    "C56_repmat",
    "C56_repmat_cols",
    "C56_repmat_refuted"
   ],
   "note": "refuted for zeros on a vector that already has elements (they are kept) and for the Blaze repmat with two or more column copies (the result comes from uninitialised memory); everything else proved"
  },
  {
   "property": "C57",
   "status": "partial",
   "theorems": [
    "C57_accu",
    "C57_var_negative_refuted",
    "C57_var_nan_refuted",
    "C57_var_zero_refuted",
    "C57_mean_infinite_refuted"
   ],
   "note": "integer sums proved; the other clauses are false of the code: negative, NaN and zero variances and an infinite mean (the four _refuted theorems)"
  },
  {
   "property": "C58",
   "status": "partial",
   "theorems": [
    "C58_pnorm",
    "C58_plnorm",
    "C58_pcauchy",
    "C58_plaplace",
    "C58_plogis",
    "C58_pt_1",
    "C58_pt_inf",
    "C58_pexp",
    "C58_pweibull",
    "C58_pgamma",
    "C58_pchisq",
    "C58_pinvgamma",
    "C58_pbeta",
    "C58_punif",
    "C58_pbern",
    "C58_pradem",
    "C58_pt",
    "C58_pt_tail",
    "C58_pt_symmetric",
    "C58_pbinom",
    "C58_correctly_rounded",
    "C58_pt_2_refuted",
    "C58_pt_2_dip_refuted",
    "C58_plogis_refuted",
    "C58_pf_refuted",
    "C58_pf_dip_refuted",
    "C58_pinvgauss_refuted",
    "C58_ppois_refuted",
    "C58_pt_4_refuted",
    "C58_pbinom_refuted"
   ],
   "note": "proved for 16 functions under order hypotheses on the backend that correctly rounded functions satisfy; plogis needs 2*sigma finite, punif b-a finite, pinvgamma 1/rate between 2^-52 and the largest double; pt with other degrees of freedom is in [0,1], on its side of one half, symmetric and monotone on both tails, pbinom is never negative and monotone below n; refuted for pt with 2 degrees of freedom, pt with 4 degrees of freedom in the middle, plogis when 2*sigma overflows, pf (NaN and a decrease), pinvgauss (NaN), ppois and pbinom (value above one)"
  },
  {
   "property": "C59",
   "status": "partial",
   "theorems": [
    "C59_qnorm",
    "C59_qlnorm",
    "C59_qcauchy",
    "C59_qlaplace",
    "C59_qlogis",
    "C59_qt_1",
    "C59_qt_inf",
    "C59_qexp",
    "C59_qweibull",
    "C59_qgamma",
    "C59_qchisq",
    "C59_qinvgamma",
    "C59_qbeta",
    "C59_qf",
    "C59_qunif",
    "C59_qbern",
    "C59_qradem",
    "C59_qbinom",
    "C59_correctly_rounded",
    "C59_qt_2_refuted",
    "C59_qnorm_refuted",
    "C59_qexp_lost",
    "C59_qnorm_lost"
   ],
   "note": "proved for 18 functions under order hypotheses on the backend that correctly rounded functions satisfy; qnorm needs sqrt(2)*sigma finite, qf the ratio of the degrees of freedom representable; refuted for qt with 2 degrees of freedom and for qnorm when sqrt(2)*sigma overflows; nothing claimed for qt with other degrees of freedom and qinvgauss; qpois is C69"
  },
  {
   "property": "C60",
   "status": "proved",
   "theorems": [
    "C60_fixed_point",
    "C60_iteration",
    "C60_same_side",
    "C60_from_below",
    "C60_converges",
    "C60_from_above",
    "C60_from_far_above_refuted",
    "C60_qt_tail_side",
    "C60_qt_tail_accuracy",
    "C60_qt_middle"
   ],
   "note": "the claim that a start far above the quantile is improved is refuted (from_far_above_refuted); that Hill's starting value meets the smallness condition is a hypothesis, shown at four degrees of freedom"
  },
  {
   "property": "C61",
   "status": "partial",
   "theorems": [
    "C61_dnorm",
    "C61_dlaplace",
    "C61_dlnorm",
    "C61_dcauchy",
    "C61_dexp",
    "C61_dunif",
    "C61_dgamma",
    "C61_dchisq",
    "C61_dinvgamma",
    "C61_dbeta",
    "C61_dt",
    "C61_dlogis",
    "C61_dinvgauss",
    "C61_dweibull",
    "C61_dbern",
    "C61_dradem",
    "C61_dbinom",
    "C61_dpois",
    "C61_correctly_rounded",
    "C61_df_refuted",
    "C61_df_nan_refuted",
    "C61_dcauchy_refuted",
    "C61_dlogis_scale_refuted",
    "C61_dlogis_refuted",
    "C61_dinvgauss_refuted",
    "C61_dweibull_refuted",
    "C61_dt_refuted",
    "C61_dbeta_refuted",
    "C61_dgamma_refuted"
   ],
   "note": "proved for 11 densities on all arguments (dgamma, dinvgamma, dbeta, dchisq, dt for shapes up to 2^989 or 2^990), for dlogis, dinvgauss and dweibull on arguments whose intermediate quotient or product neither overflows nor underflows, and for the four mass functions, under hypotheses on the backend that correctly rounded functions satisfy; refuted for df (a negative value, and a NaN), dcauchy and dlogis with zero scale, dlogis and dinvgauss when an intermediate value leaves the range, dweibull at zero with shape one, and dt, dbeta, dgamma for huge parameters"
  },
  {
   "property": "C62",
   "status": "partial",
   "theorems": [
    "C62_dnorm",
    "C62_dlaplace",
    "C62_dcauchy",
    "C62_dexp",
    "C62_dexp_log_refuted"
   ],
   "note": "not true of the code as stated, settled by a counterexample: proved for dnorm, dlaplace and dcauchy in both forms and for dexp in the plain form; the log form of dexp is refuted: it returns 0 instead of minus infinity at infinity"
  },
  {
   "property": "C63",
   "status": "proved",
   "theorems": [
    "C63_pnorm",
    "C63_plogis",
    "C63_pcauchy",
    "C63_plaplace",
    "C63_pt_1",
    "C63_plnorm",
    "C63_pinvgamma",
    "C63_punif",
    "C63_pexp",
    "C63_pweibull",
    "C63_pgamma",
    "C63_pchisq",
    "C63_pbeta",
    "C63_pbern_pradem",
    "C63_ppois",
    "C63_correctly_rounded",
    "C63_pnorm_tail_refuted",
    "C63_plogis_tail_refuted",
    "C63_plaplace_tail_refuted",
    "C63_pweibull_low_refuted",
    "C63_plnorm_low_refuted",
    "C63_pgamma_low_refuted",
    "C63_pt_2",
    "C63_ppois_all",
    "C63_pt",
    "C63_pt_tail",
    "C63_pf",
    "C63_pf_low",
    "C63_pinvgauss",
    "C63_pinvgauss_refuted",
    "C63_pbinom"
   ],
   "note": "accuracy of the backend functions is a hypothesis (unit e), satisfied by correctly rounded functions with e = 2^-51; extra ranges: plogis sigma <= 2^999, pweibull shape <= 10^9, pinvgamma shape <= 10^6 and x, rate <= 2^51; pt with degrees of freedom between 10^-6 and 10^6, pf with df2 >= 2 or df1*x/df2 <= 2; pinvgauss with e*(exp(2 lambda/mu)+sqrt(lambda x)/mu) <= 1/1000; pbinom with at least two trials and 0 < p < 1; the tail and small-argument statements are refutations by example"
  },
  {
   "property": "C64",
   "status": "proved",
   "theorems": [
    "C64_dens_limits",
    "C64_prob_limits",
    "C64_quant_limits",
    "C64_dens_values",
    "C64_prob_values",
    "C64_quant_values"
   ],
   "note": "the executable backend B64Exec.v is not gcem; 41 reference-value assertions of qbeta, qchisq, qf, qgamma, qinvgamma, qinvgauss, qnorm and qpois are left out of the theorems because they take minutes to evaluate (they pass when evaluated); vector and matrix assertions are not included"
  },
  {
   "property": "C65",
   "status": "proved",
   "theorems": [
    "C65_qunif",
    "C65_qexp",
    "C65_qlogis",
    "C65_qcauchy",
    "C65_qlaplace",
    "C65_qnorm",
    "C65_qt_1",
    "C65_qt_inf",
    "C65_qt_2",
    "C65_qlnorm",
    "C65_qweibull",
    "C65_qgamma",
    "C65_qchisq",
    "C65_qinvgamma",
    "C65_qbeta",
    "C65_qf",
    "C65_qbern",
    "C65_qradem",
    "C65_correctly_rounded",
    "C65_qnorm_next",
    "C65_qlnorm_next",
    "C65_qt_inf_next",
    "C65_qlaplace_next",
    "C65_qexp_refuted",
    "C65_qnorm_refuted",
    "C65_qlaplace_refuted",
    "C65_qinvgamma_refuted",
    "C65_qbern_refuted"
   ],
   "note": "accuracy of the backend functions is a hypothesis (unit e), satisfied by correctly rounded functions with e = 2^-51; explicit parameter ranges stated with each theorem; nothing claimed for qt with other degrees of freedom, qinvgauss, qbinom and qpois; for qnorm, qlnorm, qlaplace and qt with infinite degrees of freedom the direct bound needs p at least 1/4, and for every p the value is accurate for a probability within 2^-52 (Laplace 2^-51) of p or is the lower end of the support; the loss of accuracy at small probabilities is shown by examples"
  },
  {
   "property": "C66",
   "status": "proved",
   "theorems": [
    "C66_uniform",
    "C66_seed",
    "C66_engine",
    "C66_rexp",
    "C66_rweibull",
    "C66_rlnorm",
    "C66_rnorm",
    "C66_rcauchy",
    "C66_rlaplace",
    "C66_rlogis",
    "C66_rgamma",
    "C66_rgamma_small",
    "C66_rchisq",
    "C66_rchisq_small",
    "C66_rinvgamma",
    "C66_rinvgamma_small",
    "C66_rbeta",
    "C66_rf",
    "C66_rbern",
    "C66_rradem",
    "C66_rbinom",
    "C66_few_values",
    "C66_rinvgauss_refuted",
    "C66_rgamma_refuted",
    "C66_rbeta_refuted",
    "C66_rf_refuted",
    "C66_rt_refuted",
    "C66_rt_inf_refuted",
    "C66_rinvgamma_refuted"
   ],
   "note": "monotonicity and special values of the backend functions are hypotheses, satisfied by correctly rounded functions; nothing is claimed for rt beyond the refutations, nor for rpois; that the rejection loop ends with probability one is C53's subject"
  },
  {
   "property": "C67",
   "status": "proved",
   "theorems": [
    "C67_dnorm",
    "C67_dlnorm",
    "C67_dexp",
    "C67_dlaplace",
    "C67_dlogis",
    "C67_dcauchy",
    "C67_dunif",
    "C67_dgamma",
    "C67_dinvgamma",
    "C67_dchisq",
    "C67_dbeta",
    "C67_dt",
    "C67_dweibull",
    "C67_dinvgauss",
    "C67_df",
    "C67_dpois",
    "C67_dbinom",
    "C67_dbern",
    "C67_dradem",
    "C67_correctly_rounded",
    "C67_dexp_plain",
    "C67_dlogis_refuted",
    "C67_dcauchy_refuted"
   ],
   "note": "accuracy of the backend functions is a hypothesis (unit e), satisfied by correctly rounded functions with e = 2^-51; explicit parameter ranges stated with each theorem (dbeta, dt and df require a + b, (dof + 1)/2, resp. (df1 + df2)/2 to be exact doubles; for df the bound grows with 1 + df1 x / df2, which 1 - u amplifies); the overflow in dlogis and dcauchy is shown by examples"
  },
  {
   "property": "C68",
   "status": "proved",
   "theorems": [
    "C68_norm",
    "C68_logis",
    "C68_laplace",
    "C68_cauchy",
    "C68_lnorm",
    "C68_exp",
    "C68_unif",
    "C68_t1",
    "C68_t2",
    "C68_tinf",
    "C68_invgamma",
    "C68_gamma",
    "C68_chisq",
    "C68_weibull",
    "C68_beta",
    "C68_f",
    "C68_norm_offset_refuted",
    "C68_weibull_small_refuted",
    "C68_gamma_small_refuted",
    "C68_beta_small_refuted"
   ],
   "note": "accuracy of the backend functions is a hypothesis (unit e), satisfied by correctly rounded functions with e = 2^-51; explicit parameter ranges stated with each theorem; the normal, lognormal, Laplace and infinite-dof Student cases also take the limit value of the inverse error function at -1 or of the logarithm at 0 as hypothesis; nothing claimed for inverse Gaussian, Student with other degrees of freedom and the discrete families; the cases outside the ranges in which the probability is lost are the _refuted theorems"
  },
  {
   "property": "C69",
   "status": "proved",
   "theorems": [
    "C69_small",
    "C69_small_ends",
    "C69_small_accurate",
    "C69_small_monotone",
    "C69_attained",
    "C69_large",
    "C69_large_ends",
    "C69_large_accurate",
    "C69_large_monotone"
   ],
   "note": "accuracy of the backend functions (powers, factorials, exp, incomplete gamma) is a hypothesis (unit e), satisfied by correctly rounded functions with e = 2^-51; the conversion to an integer is an arbitrary function that drops the fraction where it is defined; for rates from 11 on the start s is assumed below 2^53"
  },
  {
   "property": "C70",
   "status": "proved",
   "theorems": [
    "C70_search",
    "C70_tests",
    "C70_attained",
    "C70_accurate",
    "C70_exact",
    "C70_attained_refuted"
   ],
   "note": "accuracy of the backend functions is a hypothesis (unit e) in the accurate and exact theorems, satisfied by correctly rounded functions with e = 2^-51; the general round trip of an attained value is refuted, the one for values attained once is proved"
  }
 ]
}