(** C50: finite valid inputs never produce NaN (exact arithmetic). *)
From Coq Require Import Reals ZArith QArith Bool Lra Lia.
From Verif Require Import Num Sanity Prob Dens Quant ER ERTac Spec SpecER Witness.
From Verif Require Import ClosedElem RealElem LogForm Support Elem NormR Norm SpecSF GammaFn BetaFn FamR FamG FamB WitnessSF Discrete DiscreteQ Bound Sym Mono QtR QtBad InvGaussR InvGaussQ NotNan UnitMono.
Local Open Scope R_scope.

Theorem C50_dnorm_nan : forall (S : SF) x mu s lf,
  0 < s -> dnorm (N:=ER_Num S) (Fin x) (Fin mu) (Fin s) lf <> NaN.
Proof. exact dnorm_nan. Qed.
Print Assumptions C50_dnorm_nan.
Example C50_dnorm_nan_ex :
  dnorm (N:=ER_Num SFR) (Fin (1/2)) (Fin 1) (Fin 2) true <> NaN.
Proof. apply C50_dnorm_nan; ex_sf. Qed.

Theorem C50_dlaplace_nan : forall (S : SF) x mu s lf,
  0 < s -> dlaplace (N:=ER_Num S) (Fin x) (Fin mu) (Fin s) lf <> NaN.
Proof. exact dlaplace_nan. Qed.
Print Assumptions C50_dlaplace_nan.
Example C50_dlaplace_nan_ex :
  dlaplace (N:=ER_Num SFR) (Fin (1/2)) (Fin 1) (Fin 2) true <> NaN.
Proof. apply C50_dlaplace_nan; ex_sf. Qed.

Theorem C50_dlogis_nan : forall (S : SF) x mu s lf,
  0 < s -> dlogis (N:=ER_Num S) (Fin x) (Fin mu) (Fin s) lf <> NaN.
Proof. exact dlogis_nan. Qed.
Print Assumptions C50_dlogis_nan.
Example C50_dlogis_nan_ex :
  dlogis (N:=ER_Num SFR) (Fin (1/2)) (Fin 1) (Fin 2) true <> NaN.
Proof. apply C50_dlogis_nan; ex_sf. Qed.

Theorem C50_dcauchy_nan : forall (S : SF) x mu s lf,
  0 < s -> dcauchy (N:=ER_Num S) (Fin x) (Fin mu) (Fin s) lf <> NaN.
Proof. exact dcauchy_nan. Qed.
Print Assumptions C50_dcauchy_nan.
Example C50_dcauchy_nan_ex :
  dcauchy (N:=ER_Num SFR) (Fin (1/2)) (Fin 1) (Fin 2) true <> NaN.
Proof. apply C50_dcauchy_nan; ex_sf. Qed.

Theorem C50_dgamma_nan : forall (S : SF) x k th lf,
  lgamma_spec S -> 0 < (sf_eps S) -> 0 < k -> (sf_eps S) <= th -> dgamma (N:=ER_Num S) (Fin x)
  (Fin k) (Fin th) lf <> NaN.
Proof. exact dgamma_nan. Qed.
Print Assumptions C50_dgamma_nan.
Example C50_dgamma_nan_ex :
  dgamma (N:=ER_Num SFR) (Fin (1/2)) (Fin 2) (Fin 3) true <> NaN.
Proof. apply C50_dgamma_nan; ex_sf. Qed.

Theorem C50_dchisq_nan : forall (S : SF) x n lf,
  lgamma_spec S -> 0 < n -> dchisq (N:=ER_Num S) (Fin x) (Fin n) lf <> NaN.
Proof. exact dchisq_nan. Qed.
Print Assumptions C50_dchisq_nan.
Example C50_dchisq_nan_ex :
  dchisq (N:=ER_Num SFR) (Fin (1/2)) (Fin 5) true <> NaN.
Proof. apply C50_dchisq_nan; ex_sf. Qed.

Theorem C50_dinvgamma_nan : forall (S : SF) x a b lf,
  lgamma_spec S -> 0 < a -> 0 < b -> dinvgamma (N:=ER_Num S) (Fin x) (Fin a) (Fin b) lf <> NaN.
Proof. exact dinvgamma_nan. Qed.
Print Assumptions C50_dinvgamma_nan.
Example C50_dinvgamma_nan_ex :
  dinvgamma (N:=ER_Num SFR) (Fin (1/2)) (Fin 2) (Fin 3) true <> NaN.
Proof. apply C50_dinvgamma_nan; ex_sf. Qed.

Theorem C50_dinvgauss_nan : forall (S : SF) x mu l lf,
  0 < mu -> 0 < l -> dinvgauss (N:=ER_Num S) (Fin x) (Fin mu) (Fin l) lf <> NaN.
Proof. exact dinvgauss_nan. Qed.
Print Assumptions C50_dinvgauss_nan.
Example C50_dinvgauss_nan_ex :
  dinvgauss (N:=ER_Num SFR) (Fin (1/2)) (Fin 2) (Fin 3) true <> NaN.
Proof. apply C50_dinvgauss_nan; ex_sf. Qed.

Theorem C50_dlnorm_nan : forall (S : SF) x mu s lf,
  0 < s -> dlnorm (N:=ER_Num S) (Fin x) (Fin mu) (Fin s) lf <> NaN.
Proof. exact dlnorm_nan. Qed.
Print Assumptions C50_dlnorm_nan.
Example C50_dlnorm_nan_ex :
  dlnorm (N:=ER_Num SFR) (Fin (1/2)) (Fin 1) (Fin 2) true <> NaN.
Proof. apply C50_dlnorm_nan; ex_sf. Qed.

Theorem C50_dweibull_nan : forall (S : SF) x k th lf,
  0 < (sf_eps S) -> (sf_eps S) <= k -> (sf_eps S) <= th -> k <> 1 \/ x <> 0 -> dweibull
  (N:=ER_Num S) (Fin x) (Fin k) (Fin th) lf <> NaN.
Proof. exact dweibull_nan. Qed.
Print Assumptions C50_dweibull_nan.
Example C50_dweibull_nan_ex :
  dweibull (N:=ER_Num SFR) (Fin (1/2)) (Fin 2) (Fin 3) true <> NaN.
Proof. apply C50_dweibull_nan; ex_sf. Qed.

Theorem C50_df_nan : forall (S : SF) x d1 d2 lf,
  lgamma_spec S -> 0 < (sf_eps S) -> (sf_eps S) <= d1 -> (sf_eps S) <= d2 -> df (N:=ER_Num S)
  (Fin x) (Fin d1) (Fin d2) lf <> NaN.
Proof. exact df_nan. Qed.
Print Assumptions C50_df_nan.
Example C50_df_nan_ex :
  df (N:=ER_Num SFR) (Fin (1/2)) (Fin 4) (Fin 7) true <> NaN.
Proof. apply C50_df_nan; ex_sf. Qed.

Theorem C50_dbeta_nan : forall (S : SF) x a b lf,
  lgamma_spec S -> 0 < a -> 0 < b -> dbeta (N:=ER_Num S) (Fin x) (Fin a) (Fin b) lf <> NaN.
Proof. exact dbeta_nan. Qed.
Print Assumptions C50_dbeta_nan.
Example C50_dbeta_nan_ex :
  dbeta (N:=ER_Num SFR) (Fin (1/2)) (Fin 2) (Fin 3) true <> NaN.
Proof. apply C50_dbeta_nan; ex_sf. Qed.

Theorem C50_dexp_nan : forall (S : SF) x r lf,
  0 < r -> dexp (N:=ER_Num S) (Fin x) (Fin r) lf <> NaN.
Proof. exact dexp_nan. Qed.
Print Assumptions C50_dexp_nan.
Example C50_dexp_nan_ex :
  dexp (N:=ER_Num SFR) (Fin (1/2)) (Fin 2) true <> NaN.
Proof. apply C50_dexp_nan; ex_sf. Qed.

Theorem C50_dunif_nan : forall (S : SF) x a b lf,
  a < b -> dunif (N:=ER_Num S) (Fin x) (Fin a) (Fin b) lf <> NaN.
Proof. exact dunif_nan. Qed.
Print Assumptions C50_dunif_nan.
Example C50_dunif_nan_ex :
  dunif (N:=ER_Num SFR) (Fin (1/2)) (Fin 2) (Fin 5) true <> NaN.
Proof. apply C50_dunif_nan; ex_sf. Qed.

Theorem C50_dt_nan : forall (S : SF) x n lf,
  lgamma_spec S -> 0 < (sf_eps S) -> (sf_eps S) <= n -> dt (N:=ER_Num S) (Fin x) (Fin n) lf <>
  NaN.
Proof. exact dt_nan. Qed.
Print Assumptions C50_dt_nan.
Example C50_dt_nan_ex :
  dt (N:=ER_Num SFR) (Fin (1/2)) (Fin 5) true <> NaN.
Proof. apply C50_dt_nan; ex_sf. Qed.

Theorem C50_pexp_nan : forall (S : SF) x r lf,
  0 < r -> pexp (N:=ER_Num S) (Fin x) (Fin r) lf <> NaN.
Proof. exact pexp_nan. Qed.
Print Assumptions C50_pexp_nan.
Example C50_pexp_nan_ex :
  pexp (N:=ER_Num SFR) (Fin (1/2)) (Fin 2) true <> NaN.
Proof. apply C50_pexp_nan; ex_sf. Qed.

Theorem C50_punif_nan : forall (S : SF) x a b lf,
  a < b -> punif (N:=ER_Num S) (Fin x) (Fin a) (Fin b) lf <> NaN.
Proof. exact punif_nan. Qed.
Print Assumptions C50_punif_nan.
Example C50_punif_nan_ex :
  punif (N:=ER_Num SFR) (Fin (1/2)) (Fin 2) (Fin 5) true <> NaN.
Proof. apply C50_punif_nan; ex_sf. Qed.

Theorem C50_plaplace_nan : forall (S : SF) x mu s lf,
  0 < s -> plaplace (N:=ER_Num S) (Fin x) (Fin mu) (Fin s) lf <> NaN.
Proof. exact plaplace_nan. Qed.
Print Assumptions C50_plaplace_nan.
Example C50_plaplace_nan_ex :
  plaplace (N:=ER_Num SFR) (Fin (1/2)) (Fin 1) (Fin 2) true <> NaN.
Proof. apply C50_plaplace_nan; ex_sf. Qed.

Theorem C50_plogis_nan : forall (S : SF) x mu s lf,
  0 < s -> plogis (N:=ER_Num S) (Fin x) (Fin mu) (Fin s) lf <> NaN.
Proof. exact plogis_nan. Qed.
Print Assumptions C50_plogis_nan.
Example C50_plogis_nan_ex :
  plogis (N:=ER_Num SFR) (Fin (1/2)) (Fin 1) (Fin 2) true <> NaN.
Proof. apply C50_plogis_nan; ex_sf. Qed.

Theorem C50_pcauchy_nan : forall (S : SF) x mu s lf,
  0 < s -> pcauchy (N:=ER_Num S) (Fin x) (Fin mu) (Fin s) lf <> NaN.
Proof. exact pcauchy_nan. Qed.
Print Assumptions C50_pcauchy_nan.
Example C50_pcauchy_nan_ex :
  pcauchy (N:=ER_Num SFR) (Fin (1/2)) (Fin 1) (Fin 2) true <> NaN.
Proof. apply C50_pcauchy_nan; ex_sf. Qed.

Theorem C50_pweibull_nan : forall (S : SF) x k th lf,
  0 < (sf_eps S) -> (sf_eps S) <= k -> (sf_eps S) <= th -> pweibull (N:=ER_Num S) (Fin x) (Fin
  k) (Fin th) lf <> NaN.
Proof. exact pweibull_nan. Qed.
Print Assumptions C50_pweibull_nan.
Example C50_pweibull_nan_ex :
  pweibull (N:=ER_Num SFR) (Fin (1/2)) (Fin 2) (Fin 3) true <> NaN.
Proof. apply C50_pweibull_nan; ex_sf. Qed.

Theorem C50_pnorm_nan : forall (S : SF) x mu s lf,
  erf_spec S -> 0 < s -> pnorm (N:=ER_Num S) (Fin x) (Fin mu) (Fin s) lf <> NaN.
Proof. exact pnorm_nan. Qed.
Print Assumptions C50_pnorm_nan.
Example C50_pnorm_nan_ex :
  pnorm (N:=ER_Num SFR) (Fin (1/2)) (Fin 1) (Fin 2) true <> NaN.
Proof. apply C50_pnorm_nan; ex_sf. Qed.

Theorem C50_plnorm_nan : forall (S : SF) x mu s lf,
  erf_spec S -> 0 < (sf_eps S) -> 0 < s -> plnorm (N:=ER_Num S) (Fin x) (Fin mu) (Fin s) lf <>
  NaN.
Proof. exact plnorm_nan. Qed.
Print Assumptions C50_plnorm_nan.
Example C50_plnorm_nan_ex :
  plnorm (N:=ER_Num SFR) (Fin (1/2)) (Fin 1) (Fin 2) true <> NaN.
Proof. apply C50_plnorm_nan; ex_sf. Qed.

Theorem C50_pgamma_nan : forall (S : SF) x k th lf,
  incgamma_spec S -> 0 < (sf_eps S) -> 0 < k -> (sf_eps S) <= th -> pgamma (N:=ER_Num S) (Fin
  x) (Fin k) (Fin th) lf <> NaN.
Proof. exact pgamma_nan. Qed.
Print Assumptions C50_pgamma_nan.
Example C50_pgamma_nan_ex :
  pgamma (N:=ER_Num SFR) (Fin (1/2)) (Fin 2) (Fin 3) true <> NaN.
Proof. apply C50_pgamma_nan; ex_sf. Qed.

Theorem C50_pchisq_nan : forall (S : SF) x n lf,
  incgamma_spec S -> 0 < (sf_eps S) -> 0 < n -> pchisq (N:=ER_Num S) (Fin x) (Fin n) lf <> NaN.
Proof. exact pchisq_nan. Qed.
Print Assumptions C50_pchisq_nan.
Example C50_pchisq_nan_ex :
  pchisq (N:=ER_Num SFR) (Fin (1/2)) (Fin 5) true <> NaN.
Proof. apply C50_pchisq_nan; ex_sf. Qed.

Theorem C50_pinvgamma_nan : forall (S : SF) x a b lf,
  incgamma_spec S -> 0 < (sf_eps S) -> 0 < a -> 0 < b <= / (sf_eps S) -> pinvgamma (N:=ER_Num
  S) (Fin x) (Fin a) (Fin b) lf <> NaN.
Proof. exact pinvgamma_nan. Qed.
Print Assumptions C50_pinvgamma_nan.
Example C50_pinvgamma_nan_ex :
  pinvgamma (N:=ER_Num SFR) (Fin (1/2)) (Fin 2) (Fin 3) true <> NaN.
Proof. apply C50_pinvgamma_nan; ex_sf. Qed.

Theorem C50_pbeta_nan : forall (S : SF) x a b lf,
  incbeta_spec S -> 0 < a -> 0 < b -> pbeta (N:=ER_Num S) (Fin x) (Fin a) (Fin b) lf <> NaN.
Proof. exact pbeta_nan. Qed.
Print Assumptions C50_pbeta_nan.
Example C50_pbeta_nan_ex :
  pbeta (N:=ER_Num SFR) (Fin (1/2)) (Fin 2) (Fin 3) true <> NaN.
Proof. apply C50_pbeta_nan; ex_sf. Qed.

Theorem C50_pf_nan : forall (S : SF) x d1 d2 lf,
  incbeta_spec S -> 0 < (sf_eps S) -> (sf_eps S) <= d1 -> (sf_eps S) <= d2 -> pf (N:=ER_Num S)
  (Fin x) (Fin d1) (Fin d2) lf <> NaN.
Proof. exact pf_nan. Qed.
Print Assumptions C50_pf_nan.
Example C50_pf_nan_ex :
  pf (N:=ER_Num SFR) (Fin (1/2)) (Fin 4) (Fin 7) true <> NaN.
Proof. apply C50_pf_nan; ex_sf. Qed.

Theorem C50_pt_nan : forall (S : SF) x n lf,
  incbeta_spec S -> 0 < (sf_eps S) -> (sf_eps S) <= n -> pt (N:=ER_Num S) (Fin x) (Fin n) lf <>
  NaN.
Proof. exact pt_nan. Qed.
Print Assumptions C50_pt_nan.
Example C50_pt_nan_ex :
  pt (N:=ER_Num SFR) (Fin (1/2)) (Fin 5) true <> NaN.
Proof. apply C50_pt_nan; ex_sf. Qed.

Theorem C50_pinvgauss_nan : forall (S : SF) x mu l lf,
  erf_spec S -> 0 < mu -> 0 < l -> pinvgauss (N:=ER_Num S) (Fin x) (Fin mu) (Fin l) lf <> NaN.
Proof. exact pinvgauss_nan. Qed.
Print Assumptions C50_pinvgauss_nan.
Example C50_pinvgauss_nan_ex :
  pinvgauss (N:=ER_Num SFR) (Fin (1/2)) (Fin 2) (Fin 3) true <> NaN.
Proof. apply C50_pinvgauss_nan; ex_sf. Qed.

Theorem C50_qexp_nan : forall (S : SF) p r,
  0 < r -> 0 <= p <= 1 -> qexp (N:=ER_Num S) (Fin p) (Fin r) <> NaN.
Proof. exact qexp_nan. Qed.
Print Assumptions C50_qexp_nan.
Example C50_qexp_nan_ex :
  qexp (N:=ER_Num SFR) (Fin (1/2)) (Fin 2) <> NaN.
Proof. apply C50_qexp_nan; ex_sf. Qed.

Theorem C50_qunif_nan : forall (S : SF) p a b,
  a < b -> 0 <= p <= 1 -> qunif (N:=ER_Num S) (Fin p) (Fin a) (Fin b) <> NaN.
Proof. exact qunif_nan. Qed.
Print Assumptions C50_qunif_nan.
Example C50_qunif_nan_ex :
  qunif (N:=ER_Num SFR) (Fin (1/2)) (Fin 2) (Fin 5) <> NaN.
Proof. apply C50_qunif_nan; ex_sf. Qed.

Theorem C50_qlaplace_nan : forall (S : SF) p mu s,
  0 < s -> 0 <= p <= 1 -> qlaplace (N:=ER_Num S) (Fin p) (Fin mu) (Fin s) <> NaN.
Proof. exact qlaplace_nan. Qed.
Print Assumptions C50_qlaplace_nan.
Example C50_qlaplace_nan_ex :
  qlaplace (N:=ER_Num SFR) (Fin (1/2)) (Fin 1) (Fin 2) <> NaN.
Proof. apply C50_qlaplace_nan; ex_sf. Qed.

Theorem C50_qlogis_nan : forall (S : SF) p mu s,
  0 < s -> 0 <= p <= 1 -> qlogis (N:=ER_Num S) (Fin p) (Fin mu) (Fin s) <> NaN.
Proof. exact qlogis_nan. Qed.
Print Assumptions C50_qlogis_nan.
Example C50_qlogis_nan_ex :
  qlogis (N:=ER_Num SFR) (Fin (1/2)) (Fin 1) (Fin 2) <> NaN.
Proof. apply C50_qlogis_nan; ex_sf. Qed.

Theorem C50_qcauchy_nan : forall (S : SF) p mu s,
  0 < s -> 0 <= p <= 1 -> qcauchy (N:=ER_Num S) (Fin p) (Fin mu) (Fin s) <> NaN.
Proof. exact qcauchy_nan. Qed.
Print Assumptions C50_qcauchy_nan.
Example C50_qcauchy_nan_ex :
  qcauchy (N:=ER_Num SFR) (Fin (1/2)) (Fin 1) (Fin 2) <> NaN.
Proof. apply C50_qcauchy_nan; ex_sf. Qed.

Theorem C50_qweibull_nan : forall (S : SF) p k th,
  0 < (sf_eps S) -> (sf_eps S) <= k -> (sf_eps S) <= th -> 0 <= p <= 1 -> qweibull (N:=ER_Num
  S) (Fin p) (Fin k) (Fin th) <> NaN.
Proof. exact qweibull_nan. Qed.
Print Assumptions C50_qweibull_nan.
Example C50_qweibull_nan_ex :
  qweibull (N:=ER_Num SFR) (Fin (1/2)) (Fin 2) (Fin 3) <> NaN.
Proof. apply C50_qweibull_nan; ex_sf. Qed.

Theorem C50_qnorm_nan : forall (S : SF) p mu s,
  erf_inv_spec S -> 0 < s -> 0 <= p <= 1 -> qnorm (N:=ER_Num S) (Fin p) (Fin mu) (Fin s) <> NaN.
Proof. exact qnorm_nan. Qed.
Print Assumptions C50_qnorm_nan.
Example C50_qnorm_nan_ex :
  qnorm (N:=ER_Num SFR) (Fin (1/2)) (Fin 1) (Fin 2) <> NaN.
Proof. apply C50_qnorm_nan; ex_sf. Qed.

Theorem C50_qlnorm_nan : forall (S : SF) p mu s,
  erf_inv_spec S -> 0 < s -> 0 <= p <= 1 -> qlnorm (N:=ER_Num S) (Fin p) (Fin mu) (Fin s) <>
  NaN.
Proof. exact qlnorm_nan. Qed.
Print Assumptions C50_qlnorm_nan.
Example C50_qlnorm_nan_ex :
  qlnorm (N:=ER_Num SFR) (Fin (1/2)) (Fin 1) (Fin 2) <> NaN.
Proof. apply C50_qlnorm_nan; ex_sf. Qed.

Theorem C50_qgamma_nan : forall (S : SF) p k th,
  incgamma_inv_spec S -> 0 < (sf_eps S) -> 0 < k -> (sf_eps S) <= th -> 0 <= p <= 1 -> qgamma
  (N:=ER_Num S) (Fin p) (Fin k) (Fin th) <> NaN.
Proof. exact qgamma_nan. Qed.
Print Assumptions C50_qgamma_nan.
Example C50_qgamma_nan_ex :
  qgamma (N:=ER_Num SFR) (Fin (1/2)) (Fin 2) (Fin 3) <> NaN.
Proof. apply C50_qgamma_nan; ex_sf. Qed.

Theorem C50_qchisq_nan : forall (S : SF) p n,
  incgamma_inv_spec S -> 0 < n -> 0 <= p <= 1 -> qchisq (N:=ER_Num S) (Fin p) (Fin n) <> NaN.
Proof. exact qchisq_nan. Qed.
Print Assumptions C50_qchisq_nan.
Example C50_qchisq_nan_ex :
  qchisq (N:=ER_Num SFR) (Fin (1/2)) (Fin 5) <> NaN.
Proof. apply C50_qchisq_nan; ex_sf. Qed.

Theorem C50_qinvgamma_nan : forall (S : SF) p a b,
  incgamma_inv_spec S -> 0 < a -> 0 < b -> 0 <= p <= 1 -> qinvgamma (N:=ER_Num S) (Fin p) (Fin
  a) (Fin b) <> NaN.
Proof. exact qinvgamma_nan. Qed.
Print Assumptions C50_qinvgamma_nan.
Example C50_qinvgamma_nan_ex :
  qinvgamma (N:=ER_Num SFR) (Fin (1/2)) (Fin 2) (Fin 3) <> NaN.
Proof. apply C50_qinvgamma_nan; ex_sf. Qed.

Theorem C50_qbeta_nan : forall (S : SF) p a b,
  incbeta_inv_spec S -> 0 < a -> 0 < b -> 0 <= p <= 1 -> qbeta (N:=ER_Num S) (Fin p) (Fin a)
  (Fin b) <> NaN.
Proof. exact qbeta_nan. Qed.
Print Assumptions C50_qbeta_nan.
Example C50_qbeta_nan_ex :
  qbeta (N:=ER_Num SFR) (Fin (1/2)) (Fin 2) (Fin 3) <> NaN.
Proof. apply C50_qbeta_nan; ex_sf. Qed.

Theorem C50_qf_nan : forall (S : SF) p d1 d2,
  incbeta_inv_spec S -> 0 < (sf_eps S) -> (sf_eps S) <= d1 -> (sf_eps S) <= d2 -> 0 <= p <= 1
  -> qf (N:=ER_Num S) (Fin p) (Fin d1) (Fin d2) <> NaN.
Proof. exact qf_nan. Qed.
Print Assumptions C50_qf_nan.
Example C50_qf_nan_ex :
  qf (N:=ER_Num SFR) (Fin (1/2)) (Fin 4) (Fin 7) <> NaN.
Proof. apply C50_qf_nan; ex_sf. Qed.

Theorem C50_qinvgauss_nan : forall (S : SF) p mu l,
  erf_spec S -> 0 < mu -> 0 < l -> 0 <= p <= 1 -> qinvgauss (N:=ER_Num S) (Fin p) (Fin mu) (Fin
  l) <> NaN.
Proof. exact qinvgauss_nan. Qed.
Print Assumptions C50_qinvgauss_nan.
Example C50_qinvgauss_nan_ex :
  qinvgauss (N:=ER_Num SFR) (Fin (1/2)) (Fin 2) (Fin 3) <> NaN.
Proof. apply C50_qinvgauss_nan; ex_sf. Qed.

Theorem C50_dbern_nan : forall (S : SF) x p lf,
  0 <= p <= 1 -> dbern (N:=ER_Num S) x (Fin p) lf <> NaN.
Proof. exact dbern_nan. Qed.
Print Assumptions C50_dbern_nan.
Example C50_dbern_nan_ex :
  dbern (N:=ER_Num SFR) 1%Z (Fin (1/3)) true <> NaN.
Proof. apply C50_dbern_nan; ex_sf. Qed.

Theorem C50_dradem_nan : forall (S : SF) x p lf,
  0 <= p <= 1 -> dradem (N:=ER_Num S) x (Fin p) lf <> NaN.
Proof. exact dradem_nan. Qed.
Print Assumptions C50_dradem_nan.
Example C50_dradem_nan_ex :
  dradem (N:=ER_Num SFR) 1%Z (Fin (1/3)) true <> NaN.
Proof. apply C50_dradem_nan; ex_sf. Qed.

Theorem C50_dbinom_nan : forall (S : SF) x n p lf,
  (0 <= n)%Z -> 0 <= p <= 1 -> dbinom (N:=ER_Num S) x n (Fin p) lf <> NaN.
Proof. exact dbinom_nan. Qed.
Print Assumptions C50_dbinom_nan.
Example C50_dbinom_nan_ex :
  dbinom (N:=ER_Num SFR) 3%Z 7%Z (Fin (1/3)) true <> NaN.
Proof. apply C50_dbinom_nan; ex_sf. Qed.

Theorem C50_dpois_nan : forall (S : SF) x r lf,
  lgamma_spec S -> 0 <= r -> dpois (N:=ER_Num S) x (Fin r) lf <> NaN.
Proof. exact dpois_nan. Qed.
Print Assumptions C50_dpois_nan.
Example C50_dpois_nan_ex :
  dpois (N:=ER_Num SFR) 3%Z (Fin (5/2)) true <> NaN.
Proof. apply C50_dpois_nan; ex_sf. Qed.

Theorem C50_pbern_nan : forall (S : SF) x p lf,
  0 <= p <= 1 -> pbern (N:=ER_Num S) x (Fin p) lf <> NaN.
Proof. exact pbern_nan. Qed.
Print Assumptions C50_pbern_nan.
Example C50_pbern_nan_ex :
  pbern (N:=ER_Num SFR) 1%Z (Fin (1/3)) true <> NaN.
Proof. apply C50_pbern_nan; ex_sf. Qed.

Theorem C50_pradem_nan : forall (S : SF) x p lf,
  0 <= p <= 1 -> pradem (N:=ER_Num S) x (Fin p) lf <> NaN.
Proof. exact pradem_nan. Qed.
Print Assumptions C50_pradem_nan.
Example C50_pradem_nan_ex :
  pradem (N:=ER_Num SFR) 1%Z (Fin (1/3)) true <> NaN.
Proof. apply C50_pradem_nan; ex_sf. Qed.

Theorem C50_pbinom_nan : forall (S : SF) x n p lf,
  (0 <= n)%Z -> 0 <= p <= 1 -> pbinom (N:=ER_Num S) x n (Fin p) lf <> NaN.
Proof. exact pbinom_nan. Qed.
Print Assumptions C50_pbinom_nan.
Example C50_pbinom_nan_ex :
  pbinom (N:=ER_Num SFR) 3%Z 7%Z (Fin (1/3)) true <> NaN.
Proof. apply C50_pbinom_nan; ex_sf. Qed.

Theorem C50_ppois_nan : forall (S : SF) x r lf,
  incgamma_spec S -> 0 <= r -> ppois (N:=ER_Num S) x (Fin r) lf <> NaN.
Proof. exact ppois_nan. Qed.
Print Assumptions C50_ppois_nan.
Example C50_ppois_nan_ex :
  ppois (N:=ER_Num SFR) 3%Z (Fin (5/2)) true <> NaN.
Proof. apply C50_ppois_nan; ex_sf. Qed.

Theorem C50_qbern_nan : forall (S : SF) p pr,
  0 <= p <= 1 -> 0 <= pr <= 1 -> qbern (N:=ER_Num S) (Fin p) (Fin pr) <> NaN.
Proof. exact qbern_nan. Qed.
Print Assumptions C50_qbern_nan.
Example C50_qbern_nan_ex :
  qbern (N:=ER_Num SFR) (Fin (1/2)) (Fin (1/3)) <> NaN.
Proof. apply C50_qbern_nan; ex_sf. Qed.

Theorem C50_qradem_nan : forall (S : SF) p pr,
  0 <= p <= 1 -> 0 <= pr <= 1 -> qradem (N:=ER_Num S) (Fin p) (Fin pr) <> NaN.
Proof. exact qradem_nan. Qed.
Print Assumptions C50_qradem_nan.
Example C50_qradem_nan_ex :
  qradem (N:=ER_Num SFR) (Fin (1/2)) (Fin (1/3)) <> NaN.
Proof. apply C50_qradem_nan; ex_sf. Qed.

Theorem C50_qbinom_nan : forall (S : SF) p n pr,
  (0 <= n)%Z -> 0 <= p <= 1 -> 0 <= pr <= 1 -> qbinom (N:=ER_Num S) (Fin p) n (Fin pr) <> NaN.
Proof. exact qbinom_nan. Qed.
Print Assumptions C50_qbinom_nan.
Example C50_qbinom_nan_ex :
  qbinom (N:=ER_Num SFR) (Fin (1/2)) 7%Z (Fin (1/3)) <> NaN.
Proof. apply C50_qbinom_nan; ex_sf. Qed.

Theorem C50_qt_1_nan : forall (S : SF) p,
  incbeta_spec S -> 0 < (sf_eps S) <= 1 -> 0 <= p <= 1 -> qt (N:=ER_Num S) (Fin p) (Fin 1) <>
  NaN.
Proof. exact qt_1_nan. Qed.
Print Assumptions C50_qt_1_nan.
Example C50_qt_1_nan_ex :
  qt (N:=ER_Num SFR) (Fin (1/2)) (Fin 1) <> NaN.
Proof. apply C50_qt_1_nan; ex_sf. Qed.

Theorem C50_qt_2_nan : forall (S : SF) p,
  0 < (sf_eps S) <= 1 -> 0 <= p <= 1 -> qt (N:=ER_Num S) (Fin p) (Fin 2) <> NaN.
Proof. exact qt_2_nan. Qed.
Print Assumptions C50_qt_2_nan.
Example C50_qt_2_nan_ex :
  qt (N:=ER_Num SFR) (Fin (1/2)) (Fin 2) <> NaN.
Proof. apply C50_qt_2_nan; ex_sf. Qed.

Theorem C50_qpois_nan : forall (S : SF) tr fuel p r res,
  0 <= p <= 1 -> 0 <= r -> qpois_run (N:=ER_Num S) tr fuel (Fin p) (Fin r) = Some res -> res <>
  NaN.
Proof. exact qpois_nan. Qed.
Print Assumptions C50_qpois_nan.

(** false clauses: dweibull at 0 with shape 1, qt with fewer than 1/2 degrees of freedom, pinvgamma with rate above
    1/epsilon (C49) *)

Theorem C50_dweibull_refuted :
  exists (S : SF) th lf, 0 < sf_eps S /\ sf_eps S <= 1 /\ sf_eps S <= th /\ dweibull (N:=ER_Num
  S) (Fin 0) (Fin 1) (Fin th) lf = NaN.
Proof. exact dweibull_nan_refuted. Qed.
Print Assumptions C50_dweibull_refuted.

Theorem C50_qt_small_dof_nan : forall (S : SF) p dof,
  0 < (sf_eps S) -> (sf_eps S) <= dof < 1 / 2 -> 0 < p < 1 -> qt (N:=ER_Num S) (Fin p) (Fin
  dof) = NaN.
Proof. exact qt_small_dof. Qed.
Print Assumptions C50_qt_small_dof_nan.
Example C50_qt_small_dof_nan_ex :
  qt (N:=ER_Num SFR) (Fin (1/3)) (Fin (1/4)) = NaN.
Proof. apply C50_qt_small_dof_nan; ex_sf. Qed.

Theorem C50_qt_refuted :
  exists (S : SF) p dof, 0 < sf_eps S /\ 0 < p < 1 /\ sf_eps S <= dof /\ qt (N:=ER_Num S) (Fin
  p) (Fin dof) = NaN.
Proof. exact qt_nan_refuted. Qed.
Print Assumptions C50_qt_refuted.
