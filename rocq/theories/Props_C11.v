(** C11: elementary CDFs equal their documented formula (exact arithmetic). *)
From Coq Require Import Reals ZArith QArith Bool Lra Lia.
From Verif Require Import Num Sanity Prob Dens Quant ER ERTac Spec SpecER Witness.
From Verif Require Import ClosedElem RealElem LogForm Support Elem NormR Norm SpecSF GammaFn BetaFn FamR FamG FamB WitnessSF Discrete DiscreteQ Bound Sym Mono QtR QtBad InvGaussR InvGaussQ NotNan UnitMono.
Local Open Scope R_scope.

Theorem C11_pexp_val : forall (S : SF) x rate lf,
  0 <= rate -> 0 < x -> pexp (N:=ER_Num S) (Fin x) (Fin rate) lf = val lf (exp_cdf rate x).
Proof. exact pexp_val. Qed.
Print Assumptions C11_pexp_val.
Example C11_pexp_val_ex :
  pexp (N:=ER_Num SFR) (Fin 5) (Fin 2) true = val true (exp_cdf 2 5).
Proof. apply C11_pexp_val; ex_sf. Qed.

Theorem C11_pexp_low : forall (S : SF) x rate lf,
  0 <= rate -> x <= 0 -> pexp (N:=ER_Num S) (Fin x) (Fin rate) lf = val lf 0.
Proof. exact pexp_low. Qed.
Print Assumptions C11_pexp_low.
Example C11_pexp_low_ex :
  pexp (N:=ER_Num SFR) (Fin (-5)) (Fin 2) true = val true 0.
Proof. apply C11_pexp_low; ex_sf. Qed.

Theorem C11_punif_val : forall (S : SF) x a b lf,
  a < b -> a < x < b -> punif (N:=ER_Num S) (Fin x) (Fin a) (Fin b) lf = val lf (unif_cdf a b
  x).
Proof. exact punif_val. Qed.
Print Assumptions C11_punif_val.
Example C11_punif_val_ex :
  punif (N:=ER_Num SFR) (Fin 3) (Fin 2) (Fin 4) true = val true (unif_cdf 2 4 3).
Proof. apply C11_punif_val; ex_sf. Qed.

Theorem C11_punif_low : forall (S : SF) x a b lf,
  a < b -> x <= a -> punif (N:=ER_Num S) (Fin x) (Fin a) (Fin b) lf = val lf 0.
Proof. exact punif_low. Qed.
Print Assumptions C11_punif_low.
Example C11_punif_low_ex :
  punif (N:=ER_Num SFR) (Fin 1) (Fin 2) (Fin 4) true = val true 0.
Proof. apply C11_punif_low; ex_sf. Qed.

Theorem C11_punif_high : forall (S : SF) x a b lf,
  a < b -> b <= x -> punif (N:=ER_Num S) (Fin x) (Fin a) (Fin b) lf = val lf 1.
Proof. exact punif_high. Qed.
Print Assumptions C11_punif_high.
Example C11_punif_high_ex :
  punif (N:=ER_Num SFR) (Fin 7) (Fin 2) (Fin 4) true = val true 1.
Proof. apply C11_punif_high; ex_sf. Qed.

Theorem C11_plaplace_val : forall (S : SF) x mu sigma lf,
  0 < sigma -> plaplace (N:=ER_Num S) (Fin x) (Fin mu) (Fin sigma) lf = val lf (laplace_cdf mu
  sigma x).
Proof. exact plaplace_val. Qed.
Print Assumptions C11_plaplace_val.
Example C11_plaplace_val_ex :
  plaplace (N:=ER_Num SFR) (Fin 5) (Fin 1) (Fin 2) true = val true (laplace_cdf 1 2 5).
Proof. apply C11_plaplace_val; ex_sf. Qed.

Theorem C11_plogis_val : forall (S : SF) x mu sigma lf,
  0 < sigma -> plogis (N:=ER_Num S) (Fin x) (Fin mu) (Fin sigma) lf = val lf (logis_cdf mu
  sigma x).
Proof. exact plogis_val. Qed.
Print Assumptions C11_plogis_val.
Example C11_plogis_val_ex :
  plogis (N:=ER_Num SFR) (Fin 5) (Fin 1) (Fin 2) true = val true (logis_cdf 1 2 5).
Proof. apply C11_plogis_val; ex_sf. Qed.

Theorem C11_pcauchy_val : forall (S : SF) x mu sigma lf,
  0 < sigma -> pcauchy (N:=ER_Num S) (Fin x) (Fin mu) (Fin sigma) lf = val lf (cauchy_cdf mu
  sigma x).
Proof. exact pcauchy_val. Qed.
Print Assumptions C11_pcauchy_val.
Example C11_pcauchy_val_ex :
  pcauchy (N:=ER_Num SFR) (Fin 5) (Fin 1) (Fin 2) true = val true (cauchy_cdf 1 2 5).
Proof. apply C11_pcauchy_val; ex_sf. Qed.

Theorem C11_pnorm_val : forall (S : SF) x mu s lf,
  erf_spec S -> 0 < s -> pnorm (N:=ER_Num S) (Fin x) (Fin mu) (Fin s) lf = val lf (norm_cdf mu
  s x).
Proof. exact pnorm_val. Qed.
Print Assumptions C11_pnorm_val.
Example C11_pnorm_val_ex :
  pnorm (N:=ER_Num SFR) (Fin 5) (Fin 1) (Fin 2) true = val true (norm_cdf 1 2 5).
Proof. apply C11_pnorm_val; ex_sf. Qed.

Theorem C11_plnorm_val : forall (S : SF) x mu s lf,
  erf_spec S -> 0 < (sf_eps S) -> 0 < s -> (sf_eps S) <= x -> plnorm (N:=ER_Num S) (Fin x) (Fin
  mu) (Fin s) lf = val lf (lnorm_cdf mu s x).
Proof. exact plnorm_val. Qed.
Print Assumptions C11_plnorm_val.
Example C11_plnorm_val_ex :
  plnorm (N:=ER_Num SFR) (Fin 5) (Fin 1) (Fin 2) true = val true (lnorm_cdf 1 2 5).
Proof. apply C11_plnorm_val; ex_sf. Qed.

Theorem C11_plnorm_low : forall (S : SF) x mu s lf,
  0 <= s -> x < (sf_eps S) -> plnorm (N:=ER_Num S) (Fin x) (Fin mu) (Fin s) lf = val lf 0.
Proof. exact plnorm_low. Qed.
Print Assumptions C11_plnorm_low.
Example C11_plnorm_low_ex :
  plnorm (N:=ER_Num SFR) (Fin (-1)) (Fin 1) (Fin 2) true = val true 0.
Proof. apply C11_plnorm_low; ex_sf. Qed.

Theorem C11_pweibull_val : forall (S : SF) x k th lf,
  0 < (sf_eps S) -> (sf_eps S) <= k -> (sf_eps S) <= th -> (sf_eps S) <= x -> pweibull
  (N:=ER_Num S) (Fin x) (Fin k) (Fin th) lf = val lf (weibull_cdf k th x).
Proof. exact pweibull_val. Qed.
Print Assumptions C11_pweibull_val.
Example C11_pweibull_val_ex :
  pweibull (N:=ER_Num SFR) (Fin 5) (Fin 2) (Fin 3) true = val true (weibull_cdf 2 3 5).
Proof. apply C11_pweibull_val; ex_sf. Qed.

Theorem C11_pweibull_low : forall (S : SF) x k th lf,
  0 < (sf_eps S) -> (sf_eps S) <= k -> (sf_eps S) <= th -> x < (sf_eps S) -> pweibull
  (N:=ER_Num S) (Fin x) (Fin k) (Fin th) lf = val lf 0.
Proof. exact pweibull_low. Qed.
Print Assumptions C11_pweibull_low.
Example C11_pweibull_low_ex :
  pweibull (N:=ER_Num SFR) (Fin (-5)) (Fin 2) (Fin 3) true = val true 0.
Proof. apply C11_pweibull_low; ex_sf. Qed.

(** the CDFs calling an incomplete gamma or beta function *)

Theorem C11_pgamma_val : forall (S : SF) x k th lf,
  incgamma_spec S -> 0 < (sf_eps S) -> 0 < k -> (sf_eps S) <= th -> (sf_eps S) <= x -> pgamma
  (N:=ER_Num S) (Fin x) (Fin k) (Fin th) lf = val lf (gamma_cdf k th x).
Proof. exact pgamma_val. Qed.
Print Assumptions C11_pgamma_val.
Example C11_pgamma_val_ex :
  pgamma (N:=ER_Num SFR) (Fin 5) (Fin 2) (Fin 3) true = val true (gamma_cdf 2 3 5).
Proof. apply C11_pgamma_val; ex_sf. Qed.

Theorem C11_pchisq_val : forall (S : SF) x n lf,
  incgamma_spec S -> 0 < (sf_eps S) -> 0 < n -> (sf_eps S) <= x -> pchisq (N:=ER_Num S) (Fin x)
  (Fin n) lf = val lf (chisq_cdf n x).
Proof. exact pchisq_val. Qed.
Print Assumptions C11_pchisq_val.
Example C11_pchisq_val_ex :
  pchisq (N:=ER_Num SFR) (Fin 5) (Fin 3) true = val true (chisq_cdf 3 5).
Proof. apply C11_pchisq_val; ex_sf. Qed.

Theorem C11_pinvgamma_val : forall (S : SF) x a b lf,
  incgamma_spec S -> 0 < (sf_eps S) -> 0 < a -> 0 < b <= / (sf_eps S) -> 0 < x <= / (sf_eps S)
  -> pinvgamma (N:=ER_Num S) (Fin x) (Fin a) (Fin b) lf = val lf (invgamma_cdf a b x).
Proof. exact pinvgamma_val. Qed.
Print Assumptions C11_pinvgamma_val.
Example C11_pinvgamma_val_ex :
  pinvgamma (N:=ER_Num SFR) (Fin 5) (Fin 2) (Fin 3) true = val true (invgamma_cdf 2 3 5).
Proof. apply C11_pinvgamma_val; ex_sf. Qed.

Theorem C11_pbeta_val : forall (S : SF) x a b lf,
  incbeta_spec S -> 0 < a -> 0 < b -> 0 < x < 1 -> pbeta (N:=ER_Num S) (Fin x) (Fin a) (Fin b)
  lf = val lf (beta_cdf a b x).
Proof. exact pbeta_val. Qed.
Print Assumptions C11_pbeta_val.
Example C11_pbeta_val_ex :
  pbeta (N:=ER_Num SFR) (Fin (1/2)) (Fin 2) (Fin 3) true = val true (beta_cdf 2 3 (1/2)).
Proof. apply C11_pbeta_val; ex_sf. Qed.

Theorem C11_pf_val : forall (S : SF) x d1 d2 lf,
  incbeta_spec S -> 0 < (sf_eps S) -> (sf_eps S) <= d1 -> (sf_eps S) <= d2 -> (sf_eps S) <= x
  -> pf (N:=ER_Num S) (Fin x) (Fin d1) (Fin d2) lf = val lf (f_cdf d1 d2 x).
Proof. exact pf_val. Qed.
Print Assumptions C11_pf_val.
Example C11_pf_val_ex :
  pf (N:=ER_Num SFR) (Fin 5) (Fin 2) (Fin 3) true = val true (f_cdf 2 3 5).
Proof. apply C11_pf_val; ex_sf. Qed.

Theorem C11_pt_val : forall (S : SF) x n lf,
  incbeta_spec S -> 0 < (sf_eps S) -> (sf_eps S) <= n -> pt (N:=ER_Num S) (Fin x) (Fin n) lf =
  val lf (t_cdf n x).
Proof. exact pt_val. Qed.
Print Assumptions C11_pt_val.
Example C11_pt_val_ex :
  pt (N:=ER_Num SFR) (Fin 5) (Fin 3) true = val true (t_cdf 3 5).
Proof. apply C11_pt_val; ex_sf. Qed.

Theorem C11_pinvgauss_val : forall (S : SF) x mu l lf,
  erf_spec S -> 0 < mu -> 0 < l -> 0 < x -> pinvgauss (N:=ER_Num S) (Fin x) (Fin mu) (Fin l) lf
  = val lf (invgauss_cdf mu l x).
Proof. exact pinvgauss_val. Qed.
Print Assumptions C11_pinvgauss_val.
Example C11_pinvgauss_val_ex :
  pinvgauss (N:=ER_Num SFR) (Fin 5) (Fin 2) (Fin 3) true = val true (invgauss_cdf 2 3 5).
Proof. apply C11_pinvgauss_val; ex_sf. Qed.

(** refuted between 0 and epsilon: the code returns 0 where the formula is positive *)

Theorem C11_pweibull_refuted :
  exists (S : SF) k th x, 0 < sf_eps S /\ sf_eps S <= k /\ sf_eps S <= th /\ 0 < x /\ pweibull
  (N:=ER_Num S) (Fin x) (Fin k) (Fin th) false <> Fin (weibull_cdf k th x).
Proof. exact pweibull_val_refuted. Qed.
Print Assumptions C11_pweibull_refuted.

Theorem C11_plnorm_refuted :
  exists (S : SF) mu s x, 0 < sf_eps S /\ 0 < s /\ 0 < x /\ plnorm (N:=ER_Num S) (Fin x) (Fin
  mu) (Fin s) false <> Fin (lnorm_cdf mu s x).
Proof. exact plnorm_val_refuted. Qed.
Print Assumptions C11_plnorm_refuted.
