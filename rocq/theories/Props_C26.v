(** C26: family identities (exact arithmetic). *)
From Coq Require Import Reals ZArith QArith Bool Lra Lia.
From Verif Require Import Num Sanity Prob Dens Quant ER ERTac Spec SpecER Witness.
From Verif Require Import ClosedElem RealElem LogForm Support Elem NormR Norm SpecSF GammaFn BetaFn FamR FamG FamB WitnessSF Discrete DiscreteQ Bound Sym Mono QtR QtBad InvGaussR InvGaussQ NotNan UnitMono.
Local Open Scope R_scope.

Theorem C26_dchisq_gamma : forall (S : SF) x n lf,
  0 < (sf_eps S) <= 2 -> 0 < n -> dchisq (N:=ER_Num S) (Fin x) (Fin n) lf = dgamma (N:=ER_Num
  S) (Fin x) (Fin (n / 2)) (Fin 2) lf.
Proof. exact dchisq_gamma. Qed.
Print Assumptions C26_dchisq_gamma.
Example C26_dchisq_gamma_ex :
  dchisq (N:=ER_Num SFR) (Fin 3) (Fin 5) true = dgamma (N:=ER_Num SFR) (Fin 3) (Fin (5 / 2))
  (Fin 2) true.
Proof. apply C26_dchisq_gamma; ex_sf. Qed.

Theorem C26_pchisq_gamma : forall (S : SF) x n lf,
  0 < (sf_eps S) <= 2 -> 0 < n -> pchisq (N:=ER_Num S) (Fin x) (Fin n) lf = pgamma (N:=ER_Num
  S) (Fin x) (Fin (n / 2)) (Fin 2) lf.
Proof. exact pchisq_gamma. Qed.
Print Assumptions C26_pchisq_gamma.
Example C26_pchisq_gamma_ex :
  pchisq (N:=ER_Num SFR) (Fin 3) (Fin 5) true = pgamma (N:=ER_Num SFR) (Fin 3) (Fin (5 / 2))
  (Fin 2) true.
Proof. apply C26_pchisq_gamma; ex_sf. Qed.

Theorem C26_qchisq_gamma : forall (S : SF) p n,
  0 < (sf_eps S) <= 2 -> 0 < n -> qchisq (N:=ER_Num S) (Fin p) (Fin n) = qgamma (N:=ER_Num S)
  (Fin p) (Fin (n / 2)) (Fin 2).
Proof. exact qchisq_gamma. Qed.
Print Assumptions C26_qchisq_gamma.
Example C26_qchisq_gamma_ex :
  qchisq (N:=ER_Num SFR) (Fin (1/3)) (Fin 5) = qgamma (N:=ER_Num SFR) (Fin (1/3)) (Fin (5 / 2))
  (Fin 2).
Proof. apply C26_qchisq_gamma; ex_sf. Qed.

Theorem C26_dexp_weibull : forall (S : SF) x r lf,
  0 < (sf_eps S) <= 1 -> 0 < r <= / (sf_eps S) -> 0 < x -> dexp (N:=ER_Num S) (Fin x) (Fin r)
  lf = dweibull (N:=ER_Num S) (Fin x) (Fin 1) (Fin (1 / r)) lf.
Proof. exact dexp_weibull. Qed.
Print Assumptions C26_dexp_weibull.
Example C26_dexp_weibull_ex :
  dexp (N:=ER_Num SFR) (Fin 3) (Fin 5) true = dweibull (N:=ER_Num SFR) (Fin 3) (Fin 1) (Fin (1
  / 5)) true.
Proof. apply C26_dexp_weibull; ex_sf. Qed.

Theorem C26_pexp_weibull : forall (S : SF) x r lf,
  0 < (sf_eps S) <= 1 -> 0 < r <= / (sf_eps S) -> x <= 0 \/ (sf_eps S) <= x -> pexp (N:=ER_Num
  S) (Fin x) (Fin r) lf = pweibull (N:=ER_Num S) (Fin x) (Fin 1) (Fin (1 / r)) lf.
Proof. exact pexp_weibull. Qed.
Print Assumptions C26_pexp_weibull.
Example C26_pexp_weibull_ex :
  pexp (N:=ER_Num SFR) (Fin 3) (Fin 5) true = pweibull (N:=ER_Num SFR) (Fin 3) (Fin 1) (Fin (1
  / 5)) true.
Proof. apply C26_pexp_weibull; ex_sf. Qed.

Theorem C26_qexp_weibull : forall (S : SF) p r,
  0 < (sf_eps S) <= 1 -> 0 < r <= / (sf_eps S) -> 0 <= p <= 1 -> qexp (N:=ER_Num S) (Fin p)
  (Fin r) = qweibull (N:=ER_Num S) (Fin p) (Fin 1) (Fin (1 / r)).
Proof. exact qexp_weibull. Qed.
Print Assumptions C26_qexp_weibull.
Example C26_qexp_weibull_ex :
  qexp (N:=ER_Num SFR) (Fin (1/3)) (Fin 5) = qweibull (N:=ER_Num SFR) (Fin (1/3)) (Fin 1) (Fin
  (1 / 5)).
Proof. apply C26_qexp_weibull; ex_sf. Qed.

Theorem C26_dexp_gamma : forall (S : SF) x r lf,
  lgamma_spec S -> 0 < (sf_eps S) <= 1 -> 0 < r <= / (sf_eps S) -> 0 < x -> dexp (N:=ER_Num S)
  (Fin x) (Fin r) lf = dgamma (N:=ER_Num S) (Fin x) (Fin 1) (Fin (1 / r)) lf.
Proof. exact dexp_gamma. Qed.
Print Assumptions C26_dexp_gamma.
Example C26_dexp_gamma_ex :
  dexp (N:=ER_Num SFR) (Fin 3) (Fin 5) true = dgamma (N:=ER_Num SFR) (Fin 3) (Fin 1) (Fin (1 /
  5)) true.
Proof. apply C26_dexp_gamma; ex_sf. Qed.

Theorem C26_pexp_gamma : forall (S : SF) x r lf,
  incgamma_spec S -> 0 < (sf_eps S) <= 1 -> 0 < r <= / (sf_eps S) -> x <= 0 \/ (sf_eps S) <= x
  -> pexp (N:=ER_Num S) (Fin x) (Fin r) lf = pgamma (N:=ER_Num S) (Fin x) (Fin 1) (Fin (1 / r))
  lf.
Proof. exact pexp_gamma. Qed.
Print Assumptions C26_pexp_gamma.
Example C26_pexp_gamma_ex :
  pexp (N:=ER_Num SFR) (Fin 3) (Fin 5) true = pgamma (N:=ER_Num SFR) (Fin 3) (Fin 1) (Fin (1 /
  5)) true.
Proof. apply C26_pexp_gamma; ex_sf. Qed.

Theorem C26_dt_1_cauchy : forall (S : SF) x lf,
  lgamma_spec S -> 0 < (sf_eps S) <= 1 -> dt (N:=ER_Num S) (Fin x) (Fin 1) lf = dcauchy
  (N:=ER_Num S) (Fin x) (Fin 0) (Fin 1) lf.
Proof. exact dt_1_cauchy. Qed.
Print Assumptions C26_dt_1_cauchy.
Example C26_dt_1_cauchy_ex :
  dt (N:=ER_Num SFR) (Fin 3) (Fin 1) true = dcauchy (N:=ER_Num SFR) (Fin 3) (Fin 0) (Fin 1)
  true.
Proof. apply C26_dt_1_cauchy; ex_sf. Qed.

Theorem C26_pt_1_cauchy : forall (S : SF) x lf,
  0 < (sf_eps S) <= 1 -> pt (N:=ER_Num S) (Fin x) (Fin 1) lf = pcauchy (N:=ER_Num S) (Fin x)
  (Fin 0) (Fin 1) lf.
Proof. exact pt_1_cauchy. Qed.
Print Assumptions C26_pt_1_cauchy.
Example C26_pt_1_cauchy_ex :
  pt (N:=ER_Num SFR) (Fin 3) (Fin 1) true = pcauchy (N:=ER_Num SFR) (Fin 3) (Fin 0) (Fin 1)
  true.
Proof. apply C26_pt_1_cauchy; ex_sf. Qed.

Theorem C26_qt_1_cauchy : forall (S : SF) p,
  0 < (sf_eps S) <= 1 -> 0 <= p <= 1 -> qt (N:=ER_Num S) (Fin p) (Fin 1) = qcauchy (N:=ER_Num
  S) (Fin p) (Fin 0) (Fin 1).
Proof. exact qt_1_cauchy. Qed.
Print Assumptions C26_qt_1_cauchy.
Example C26_qt_1_cauchy_ex :
  qt (N:=ER_Num SFR) (Fin (1/3)) (Fin 1) = qcauchy (N:=ER_Num SFR) (Fin (1/3)) (Fin 0) (Fin 1).
Proof. apply C26_qt_1_cauchy; ex_sf. Qed.

Theorem C26_dt_inf_norm : forall (S : SF) x lf,
  dt (N:=ER_Num S) (Fin x) PInf lf = dnorm (N:=ER_Num S) (Fin x) (Fin 0) (Fin 1) lf.
Proof. exact dt_inf_norm. Qed.
Print Assumptions C26_dt_inf_norm.
Example C26_dt_inf_norm_ex :
  dt (N:=ER_Num SFR) (Fin 3) PInf true = dnorm (N:=ER_Num SFR) (Fin 3) (Fin 0) (Fin 1) true.
Proof. apply C26_dt_inf_norm; ex_sf. Qed.

Theorem C26_pt_inf_norm : forall (S : SF) x lf,
  pt (N:=ER_Num S) (Fin x) PInf lf = pnorm (N:=ER_Num S) (Fin x) (Fin 0) (Fin 1) lf.
Proof. exact pt_inf_norm. Qed.
Print Assumptions C26_pt_inf_norm.
Example C26_pt_inf_norm_ex :
  pt (N:=ER_Num SFR) (Fin 3) PInf true = pnorm (N:=ER_Num SFR) (Fin 3) (Fin 0) (Fin 1) true.
Proof. apply C26_pt_inf_norm; ex_sf. Qed.

Theorem C26_qt_inf_norm : forall (S : SF) p,
  qt (N:=ER_Num S) p PInf = qnorm (N:=ER_Num S) p (Fin 0) (Fin 1).
Proof. exact qt_inf_norm. Qed.
Print Assumptions C26_qt_inf_norm.
Example C26_qt_inf_norm_ex :
  qt (N:=ER_Num SFR) (Fin (1/3)) PInf = qnorm (N:=ER_Num SFR) (Fin (1/3)) (Fin 0) (Fin 1).
Proof. apply C26_qt_inf_norm; ex_sf. Qed.

Theorem C26_dbinom_1_bern : forall (S : SF) x p lf,
  0 <= p <= 1 -> dbinom (N:=ER_Num S) x 1 (Fin p) lf = dbern (N:=ER_Num S) x (Fin p) lf.
Proof. exact dbinom_1_bern. Qed.
Print Assumptions C26_dbinom_1_bern.
Example C26_dbinom_1_bern_ex :
  dbinom (N:=ER_Num SFR) 1%Z 1 (Fin (1/3)) true = dbern (N:=ER_Num SFR) 1%Z (Fin (1/3)) true.
Proof. apply C26_dbinom_1_bern; ex_sf. Qed.

Theorem C26_pbinom_1_bern : forall (S : SF) x p lf,
  0 <= p <= 1 -> pbinom (N:=ER_Num S) x 1 (Fin p) lf = pbern (N:=ER_Num S) x (Fin p) lf.
Proof. exact pbinom_1_bern. Qed.
Print Assumptions C26_pbinom_1_bern.
Example C26_pbinom_1_bern_ex :
  pbinom (N:=ER_Num SFR) 0%Z 1 (Fin (1/3)) true = pbern (N:=ER_Num SFR) 0%Z (Fin (1/3)) true.
Proof. apply C26_pbinom_1_bern; ex_sf. Qed.

Theorem C26_qbinom_1_bern : forall (S : SF) p prob,
  0 <= prob <= 1 -> 0 <= p <= 1 -> p < 1 \/ 0 < prob -> qbinom (N:=ER_Num S) (Fin p) 1 (Fin
  prob) = qbern (N:=ER_Num S) (Fin p) (Fin prob).
Proof. exact qbinom_1_bern. Qed.
Print Assumptions C26_qbinom_1_bern.
Example C26_qbinom_1_bern_ex :
  qbinom (N:=ER_Num SFR) (Fin (1/2)) 1 (Fin (1/3)) = qbern (N:=ER_Num SFR) (Fin (1/2)) (Fin
  (1/3)).
Proof. apply C26_qbinom_1_bern; ex_sf. Qed.

(** false clauses: the two exponential CDFs differ between 0 and epsilon; the quantiles at p = 1 with success probability 0 *)

Theorem C26_pexp_weibull_refuted :
  exists (S : SF) r x, 0 < sf_eps S /\ 0 < r <= / sf_eps S /\ 0 < x /\ pexp (N:=ER_Num S) (Fin
  x) (Fin r) false <> pweibull (N:=ER_Num S) (Fin x) (Fin 1) (Fin (1 / r)) false.
Proof. exact exp_weibull_refuted. Qed.
Print Assumptions C26_pexp_weibull_refuted.

Theorem C26_qbinom_1_bern_refuted :
  exists S : SF, qbinom (N:=ER_Num S) (Fin 1) 1 (Fin 0) <> qbern (N:=ER_Num S) (Fin 1) (Fin 0).
Proof. exact qbinom_1_refuted. Qed.
Print Assumptions C26_qbinom_1_bern_refuted.
