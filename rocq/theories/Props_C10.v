(** C10: continuous densities equal their documented formula inside the support, and the limit of
    the formula at the boundary points (exact arithmetic).  [ev lf v] and [val lf r] are the value in normal or log form. *)
From Coq Require Import Reals ZArith QArith Bool Lra Lia.
From Verif Require Import Num Sanity Prob Dens Quant ER ERTac Spec SpecER Witness.
From Verif Require Import ClosedElem RealElem LogForm Support Elem NormR Norm SpecSF GammaFn BetaFn FamR FamG FamB WitnessSF Discrete DiscreteQ Bound Sym Mono QtR QtBad InvGaussR InvGaussQ NotNan UnitMono.
Local Open Scope R_scope.

Theorem C10_dexp_val : forall (S : SF) x rate lf,
  0 < rate -> 0 <= x -> dexp (N:=ER_Num S) (Fin x) (Fin rate) lf = val lf (exp_pdf rate x).
Proof. exact dexp_val. Qed.
Print Assumptions C10_dexp_val.
Example C10_dexp_val_ex :
  dexp (N:=ER_Num SFR) (Fin 5) (Fin 2) true = val true (exp_pdf 2 5).
Proof. apply C10_dexp_val; ex_sf. Qed.

Theorem C10_dunif_val : forall (S : SF) x a b lf,
  a < b -> a <= x <= b -> dunif (N:=ER_Num S) (Fin x) (Fin a) (Fin b) lf = val lf (unif_pdf a
  b).
Proof. exact dunif_val. Qed.
Print Assumptions C10_dunif_val.
Example C10_dunif_val_ex :
  dunif (N:=ER_Num SFR) (Fin 3) (Fin 2) (Fin 4) true = val true (unif_pdf 2 4).
Proof. apply C10_dunif_val; ex_sf. Qed.

Theorem C10_dlaplace_val : forall (S : SF) x mu sigma lf,
  0 < sigma -> dlaplace (N:=ER_Num S) (Fin x) (Fin mu) (Fin sigma) lf = val lf (laplace_pdf mu
  sigma x).
Proof. exact dlaplace_val. Qed.
Print Assumptions C10_dlaplace_val.
Example C10_dlaplace_val_ex :
  dlaplace (N:=ER_Num SFR) (Fin 5) (Fin 1) (Fin 2) true = val true (laplace_pdf 1 2 5).
Proof. apply C10_dlaplace_val; ex_sf. Qed.

Theorem C10_dlogis_val : forall (S : SF) x mu sigma lf,
  0 < sigma -> dlogis (N:=ER_Num S) (Fin x) (Fin mu) (Fin sigma) lf = val lf (logis_pdf mu
  sigma x).
Proof. exact dlogis_val. Qed.
Print Assumptions C10_dlogis_val.
Example C10_dlogis_val_ex :
  dlogis (N:=ER_Num SFR) (Fin 5) (Fin 1) (Fin 2) true = val true (logis_pdf 1 2 5).
Proof. apply C10_dlogis_val; ex_sf. Qed.

Theorem C10_dcauchy_val : forall (S : SF) x mu sigma lf,
  0 < sigma -> dcauchy (N:=ER_Num S) (Fin x) (Fin mu) (Fin sigma) lf = val lf (cauchy_pdf mu
  sigma x).
Proof. exact dcauchy_val. Qed.
Print Assumptions C10_dcauchy_val.
Example C10_dcauchy_val_ex :
  dcauchy (N:=ER_Num SFR) (Fin 5) (Fin 1) (Fin 2) true = val true (cauchy_pdf 1 2 5).
Proof. apply C10_dcauchy_val; ex_sf. Qed.

Theorem C10_dnorm_val : forall (S : SF) x mu sigma lf,
  0 < sigma -> dnorm (N:=ER_Num S) (Fin x) (Fin mu) (Fin sigma) lf = val lf (norm_pdf mu sigma
  x).
Proof. exact dnorm_val. Qed.
Print Assumptions C10_dnorm_val.
Example C10_dnorm_val_ex :
  dnorm (N:=ER_Num SFR) (Fin 5) (Fin 1) (Fin 2) true = val true (norm_pdf 1 2 5).
Proof. apply C10_dnorm_val; ex_sf. Qed.

Theorem C10_dweibull_val : forall (S : SF) x k th lf,
  0 < (sf_eps S) -> (sf_eps S) <= k -> (sf_eps S) <= th -> 0 < x -> dweibull (N:=ER_Num S) (Fin
  x) (Fin k) (Fin th) lf = val lf (weibull_pdf k th x).
Proof. exact dweibull_val. Qed.
Print Assumptions C10_dweibull_val.
Example C10_dweibull_val_ex :
  dweibull (N:=ER_Num SFR) (Fin 5) (Fin 2) (Fin 3) true = val true (weibull_pdf 2 3 5).
Proof. apply C10_dweibull_val; ex_sf. Qed.

Theorem C10_dlnorm_val : forall (S : SF) x mu sigma lf,
  0 < sigma -> 0 < x -> dlnorm (N:=ER_Num S) (Fin x) (Fin mu) (Fin sigma) lf = val lf
  (lnorm_pdf mu sigma x).
Proof. exact dlnorm_val. Qed.
Print Assumptions C10_dlnorm_val.
Example C10_dlnorm_val_ex :
  dlnorm (N:=ER_Num SFR) (Fin 5) (Fin 1) (Fin 2) false = val false (lnorm_pdf 1 2 5).
Proof. apply C10_dlnorm_val; ex_sf. Qed.

Theorem C10_dinvgauss_val : forall (S : SF) x mu lambda lf,
  0 < mu -> 0 < lambda -> 0 < x -> dinvgauss (N:=ER_Num S) (Fin x) (Fin mu) (Fin lambda) lf =
  val lf (invgauss_pdf mu lambda x).
Proof. exact dinvgauss_val. Qed.
Print Assumptions C10_dinvgauss_val.
Example C10_dinvgauss_val_ex :
  dinvgauss (N:=ER_Num SFR) (Fin 5) (Fin 1) (Fin 2) true = val true (invgauss_pdf 1 2 5).
Proof. apply C10_dinvgauss_val; ex_sf. Qed.

Theorem C10_dgamma_val : forall (S : SF) x k th lf,
  lgamma_spec S -> 0 < (sf_eps S) -> 0 < k -> (sf_eps S) <= th -> 0 < x -> dgamma (N:=ER_Num S)
  (Fin x) (Fin k) (Fin th) lf = val lf (gamma_pdf k th x).
Proof. exact dgamma_val. Qed.
Print Assumptions C10_dgamma_val.
Example C10_dgamma_val_ex :
  dgamma (N:=ER_Num SFR) (Fin 5) (Fin 2) (Fin 3) true = val true (gamma_pdf 2 3 5).
Proof. apply C10_dgamma_val; ex_sf. Qed.

Theorem C10_dchisq_val : forall (S : SF) x n lf,
  lgamma_spec S -> 0 < n -> 0 < x -> dchisq (N:=ER_Num S) (Fin x) (Fin n) lf = val lf
  (chisq_pdf n x).
Proof. exact dchisq_val. Qed.
Print Assumptions C10_dchisq_val.
Example C10_dchisq_val_ex :
  dchisq (N:=ER_Num SFR) (Fin 5) (Fin 3) true = val true (chisq_pdf 3 5).
Proof. apply C10_dchisq_val; ex_sf. Qed.

Theorem C10_dinvgamma_val : forall (S : SF) x a b lf,
  lgamma_spec S -> 0 < a -> 0 < b -> 0 < x -> dinvgamma (N:=ER_Num S) (Fin x) (Fin a) (Fin b)
  lf = val lf (invgamma_pdf a b x).
Proof. exact dinvgamma_val. Qed.
Print Assumptions C10_dinvgamma_val.
Example C10_dinvgamma_val_ex :
  dinvgamma (N:=ER_Num SFR) (Fin 5) (Fin 2) (Fin 3) true = val true (invgamma_pdf 2 3 5).
Proof. apply C10_dinvgamma_val; ex_sf. Qed.

Theorem C10_dbeta_val : forall (S : SF) x a b lf,
  lgamma_spec S -> 0 < a -> 0 < b -> 0 < x < 1 -> dbeta (N:=ER_Num S) (Fin x) (Fin a) (Fin b)
  lf = val lf (beta_pdf a b x).
Proof. exact dbeta_val. Qed.
Print Assumptions C10_dbeta_val.
Example C10_dbeta_val_ex :
  dbeta (N:=ER_Num SFR) (Fin (1/3)) (Fin 2) (Fin 3) true = val true (beta_pdf 2 3 (1/3)).
Proof. apply C10_dbeta_val; ex_sf. Qed.

Theorem C10_df_val : forall (S : SF) x d1 d2 lf,
  lgamma_spec S -> 0 < (sf_eps S) -> (sf_eps S) <= d1 -> (sf_eps S) <= d2 -> 0 < x -> df
  (N:=ER_Num S) (Fin x) (Fin d1) (Fin d2) lf = val lf (f_pdf d1 d2 x).
Proof. exact df_val. Qed.
Print Assumptions C10_df_val.
Example C10_df_val_ex :
  df (N:=ER_Num SFR) (Fin 5) (Fin 2) (Fin 3) true = val true (f_pdf 2 3 5).
Proof. apply C10_df_val; ex_sf. Qed.

Theorem C10_dt_val : forall (S : SF) x n lf,
  lgamma_spec S -> 0 < (sf_eps S) -> (sf_eps S) <= n -> dt (N:=ER_Num S) (Fin x) (Fin n) lf =
  val lf (t_pdf n x).
Proof. exact dt_val. Qed.
Print Assumptions C10_dt_val.
Example C10_dt_val_ex :
  dt (N:=ER_Num SFR) (Fin (-1)) (Fin 3) true = val true (t_pdf 3 (-1)).
Proof. apply C10_dt_val; ex_sf. Qed.

(** boundary points *)

Theorem C10_dgamma_at0 : forall (S : SF) k th lf,
  0 < (sf_eps S) -> 0 < k -> (sf_eps S) <= th -> exists v, dgamma (N:=ER_Num S) (Fin 0) (Fin k)
  (Fin th) lf = ev lf v /\ limit_right (gamma_pdf k th) 0 v.
Proof. exact dgamma_at0. Qed.
Print Assumptions C10_dgamma_at0.
Example C10_dgamma_at0_ex :
  exists v, dgamma (N:=ER_Num SFR) (Fin 0) (Fin (1/2)) (Fin 3) true = ev true v /\ limit_right
  (gamma_pdf (1/2) 3) 0 v.
Proof. apply C10_dgamma_at0; ex_sf. Qed.

Theorem C10_dchisq_at0 : forall (S : SF) n lf,
  0 < n -> exists v, dchisq (N:=ER_Num S) (Fin 0) (Fin n) lf = ev lf v /\ limit_right
  (chisq_pdf n) 0 v.
Proof. exact dchisq_at0. Qed.
Print Assumptions C10_dchisq_at0.
Example C10_dchisq_at0_ex :
  exists v, dchisq (N:=ER_Num SFR) (Fin 0) (Fin 2) true = ev true v /\ limit_right (chisq_pdf
  2) 0 v.
Proof. apply C10_dchisq_at0; ex_sf. Qed.

Theorem C10_dbeta_at0 : forall (S : SF) a b lf,
  0 < a -> 0 < b -> exists v, dbeta (N:=ER_Num S) (Fin 0) (Fin a) (Fin b) lf = ev lf v /\
  limit_right (beta_pdf a b) 0 v.
Proof. exact dbeta_at0. Qed.
Print Assumptions C10_dbeta_at0.
Example C10_dbeta_at0_ex :
  exists v, dbeta (N:=ER_Num SFR) (Fin 0) (Fin (1/2)) (Fin 1) true = ev true v /\ limit_right
  (beta_pdf (1/2) 1) 0 v.
Proof. apply C10_dbeta_at0; ex_sf. Qed.

Theorem C10_df_at0 : forall (S : SF) d1 d2 lf,
  0 < (sf_eps S) -> (sf_eps S) <= d1 -> (sf_eps S) <= d2 -> exists v, df (N:=ER_Num S) (Fin 0)
  (Fin d1) (Fin d2) lf = ev lf v /\ limit_right (f_pdf d1 d2) 0 v.
Proof. exact df_at0. Qed.
Print Assumptions C10_df_at0.
Example C10_df_at0_ex :
  exists v, df (N:=ER_Num SFR) (Fin 0) (Fin 2) (Fin 5) true = ev true v /\ limit_right (f_pdf 2
  5) 0 v.
Proof. apply C10_df_at0; ex_sf. Qed.

Theorem C10_dinvgamma_at0 : forall (S : SF) a b lf,
  0 < a -> 0 < b -> exists v, dinvgamma (N:=ER_Num S) (Fin 0) (Fin a) (Fin b) lf = ev lf v /\
  limit_right (invgamma_pdf a b) 0 v.
Proof. exact dinvgamma_at0. Qed.
Print Assumptions C10_dinvgamma_at0.
Example C10_dinvgamma_at0_ex :
  exists v, dinvgamma (N:=ER_Num SFR) (Fin 0) (Fin 1) (Fin 2) true = ev true v /\ limit_right
  (invgamma_pdf 1 2) 0 v.
Proof. apply C10_dinvgamma_at0; ex_sf. Qed.

Theorem C10_dinvgauss_at0 : forall (S : SF) mu l lf,
  0 < mu -> 0 < l -> exists v, dinvgauss (N:=ER_Num S) (Fin 0) (Fin mu) (Fin l) lf = ev lf v /\
  limit_right (invgauss_pdf mu l) 0 v.
Proof. exact dinvgauss_at0. Qed.
Print Assumptions C10_dinvgauss_at0.
Example C10_dinvgauss_at0_ex :
  exists v, dinvgauss (N:=ER_Num SFR) (Fin 0) (Fin 1) (Fin 2) true = ev true v /\ limit_right
  (invgauss_pdf 1 2) 0 v.
Proof. apply C10_dinvgauss_at0; ex_sf. Qed.

Theorem C10_dlnorm_at0 : forall (S : SF) mu s lf,
  0 < s -> exists v, dlnorm (N:=ER_Num S) (Fin 0) (Fin mu) (Fin s) lf = ev lf v /\ limit_right
  (lnorm_pdf mu s) 0 v.
Proof. exact dlnorm_at0. Qed.
Print Assumptions C10_dlnorm_at0.
Example C10_dlnorm_at0_ex :
  exists v, dlnorm (N:=ER_Num SFR) (Fin 0) (Fin 1) (Fin 2) true = ev true v /\ limit_right
  (lnorm_pdf 1 2) 0 v.
Proof. apply C10_dlnorm_at0; ex_sf. Qed.

Theorem C10_dweibull_at0 : forall (S : SF) k th lf,
  0 < (sf_eps S) -> (sf_eps S) <= k -> (sf_eps S) <= th -> k <> 1 -> exists v, dweibull
  (N:=ER_Num S) (Fin 0) (Fin k) (Fin th) lf = ev lf v /\ limit_right (weibull_pdf k th) 0 v.
Proof. exact dweibull_at0. Qed.
Print Assumptions C10_dweibull_at0.
Example C10_dweibull_at0_ex :
  exists v, dweibull (N:=ER_Num SFR) (Fin 0) (Fin 2) (Fin 3) true = ev true v /\ limit_right
  (weibull_pdf 2 3) 0 v.
Proof. apply C10_dweibull_at0; ex_sf. Qed.

Theorem C10_dexp_at0 : forall (S : SF) r lf,
  0 < r -> dexp (N:=ER_Num S) (Fin 0) (Fin r) lf = val lf r /\ limit_right (exp_pdf r) 0 (Fin
  r).
Proof. exact dexp_at0. Qed.
Print Assumptions C10_dexp_at0.
Example C10_dexp_at0_ex :
  dexp (N:=ER_Num SFR) (Fin 0) (Fin 2) true = val true 2 /\ limit_right (exp_pdf 2) 0 (Fin 2).
Proof. apply C10_dexp_at0; ex_sf. Qed.

Theorem C10_dbeta_at1 : forall (S : SF) a b lf,
  0 < a -> 0 < b -> exists v, dbeta (N:=ER_Num S) (Fin 1) (Fin a) (Fin b) lf = ev lf v /\
  limit_left (beta_pdf a b) 1 v.
Proof. exact dbeta_at1. Qed.
Print Assumptions C10_dbeta_at1.
Example C10_dbeta_at1_ex :
  exists v, dbeta (N:=ER_Num SFR) (Fin 1) (Fin 2) (Fin 1) false = ev false v /\ limit_left
  (beta_pdf 2 1) 1 v.
Proof. apply C10_dbeta_at1; ex_sf. Qed.

(** the Weibull density with shape 1 is NaN at 0, where its formula tends to 1/scale *)

Theorem C10_dweibull_at0_shape1 : forall (S : SF) th lf,
  0 < (sf_eps S) <= 1 -> (sf_eps S) <= th -> dweibull (N:=ER_Num S) (Fin 0) (Fin 1) (Fin th) lf
  = NaN /\ limit_right (weibull_pdf 1 th) 0 (Fin (1 / th)).
Proof. exact dweibull_at0_1. Qed.
Print Assumptions C10_dweibull_at0_shape1.
Example C10_dweibull_at0_shape1_ex :
  dweibull (N:=ER_Num SFR) (Fin 0) (Fin 1) (Fin 3) false = NaN /\ limit_right (weibull_pdf 1 3)
  0 (Fin (1 / 3)).
Proof. apply C10_dweibull_at0_shape1; ex_sf. Qed.

Theorem C10_dweibull_refuted :
  exists (S : SF) th lf v, 0 < sf_eps S /\ sf_eps S <= 1 /\ sf_eps S <= th /\ limit_right
  (weibull_pdf 1 th) 0 v /\ dweibull (N:=ER_Num S) (Fin 0) (Fin 1) (Fin th) lf <> ev lf v.
Proof. exact dweibull_at0_refuted. Qed.
Print Assumptions C10_dweibull_refuted.
