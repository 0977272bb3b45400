(** C06: the log form is the logarithm of the normal form, for every argument including
    infinities and NaN (exact arithmetic). *)
From Coq Require Import Reals ZArith QArith Bool Lra Lia.
From Verif Require Import Num Sanity Prob Dens Quant ER ERTac Spec SpecER Witness.
From Verif Require Import ClosedElem LogForm Support NonNeg Degenerate Refute.
Local Open Scope R_scope.

Theorem C06_dnorm_log : forall (S : SF) (x : ER) mu sigma,
  dnorm (N:=ER_Num S) x mu sigma true = elog (dnorm (N:=ER_Num S) x mu sigma false).
Proof. exact dnorm_log. Qed.
Print Assumptions C06_dnorm_log.
Example C06_dnorm_log_ex :
  dnorm (N:=ER_Num SF0) (Fin 5) (Fin 2) (Fin 3) true = elog (dnorm (N:=ER_Num SF0) (Fin 5) (Fin
  2) (Fin 3) false).
Proof. apply C06_dnorm_log; ex_side. Qed.

Theorem C06_dcauchy_log : forall (S : SF) (x : ER) mu sigma,
  dcauchy (N:=ER_Num S) x mu sigma true = elog (dcauchy (N:=ER_Num S) x mu sigma false).
Proof. exact dcauchy_log. Qed.
Print Assumptions C06_dcauchy_log.
Example C06_dcauchy_log_ex :
  dcauchy (N:=ER_Num SF0) (Fin 5) (Fin 2) (Fin 3) true = elog (dcauchy (N:=ER_Num SF0) (Fin 5)
  (Fin 2) (Fin 3) false).
Proof. apply C06_dcauchy_log; ex_side. Qed.

Theorem C06_dlaplace_log : forall (S : SF) (x : ER) mu sigma,
  dlaplace (N:=ER_Num S) x mu sigma true = elog (dlaplace (N:=ER_Num S) x mu sigma false).
Proof. exact dlaplace_log. Qed.
Print Assumptions C06_dlaplace_log.
Example C06_dlaplace_log_ex :
  dlaplace (N:=ER_Num SF0) (Fin 5) (Fin 2) (Fin 3) true = elog (dlaplace (N:=ER_Num SF0) (Fin
  5) (Fin 2) (Fin 3) false).
Proof. apply C06_dlaplace_log; ex_side. Qed.

Theorem C06_dlogis_log : forall (S : SF) (x : ER) mu sigma,
  dlogis (N:=ER_Num S) x mu sigma true = elog (dlogis (N:=ER_Num S) x mu sigma false).
Proof. exact dlogis_log. Qed.
Print Assumptions C06_dlogis_log.
Example C06_dlogis_log_ex :
  dlogis (N:=ER_Num SF0) (Fin 5) (Fin 2) (Fin 3) true = elog (dlogis (N:=ER_Num SF0) (Fin 5)
  (Fin 2) (Fin 3) false).
Proof. apply C06_dlogis_log; ex_side. Qed.

Theorem C06_dlnorm_log : forall (S : SF) (x : ER) mu sigma,
  dlnorm (N:=ER_Num S) x mu sigma true = elog (dlnorm (N:=ER_Num S) x mu sigma false).
Proof. exact dlnorm_log. Qed.
Print Assumptions C06_dlnorm_log.
Example C06_dlnorm_log_ex :
  dlnorm (N:=ER_Num SF0) (Fin 5) (Fin 2) (Fin 3) true = elog (dlnorm (N:=ER_Num SF0) (Fin 5)
  (Fin 2) (Fin 3) false).
Proof. apply C06_dlnorm_log; ex_side. Qed.

Theorem C06_dinvgauss_log : forall (S : SF) (x : ER) mu l,
  dinvgauss (N:=ER_Num S) x mu l true = elog (dinvgauss (N:=ER_Num S) x mu l false).
Proof. exact dinvgauss_log. Qed.
Print Assumptions C06_dinvgauss_log.
Example C06_dinvgauss_log_ex :
  dinvgauss (N:=ER_Num SF0) (Fin 5) (Fin 2) (Fin 3) true = elog (dinvgauss (N:=ER_Num SF0) (Fin
  5) (Fin 2) (Fin 3) false).
Proof. apply C06_dinvgauss_log; ex_side. Qed.

Theorem C06_dgamma_log : forall (S : SF) (x : ER) k th,
  dgamma (N:=ER_Num S) x k th true = elog (dgamma (N:=ER_Num S) x k th false).
Proof. exact dgamma_log. Qed.
Print Assumptions C06_dgamma_log.
Example C06_dgamma_log_ex :
  dgamma (N:=ER_Num SF0) (Fin 5) (Fin 2) (Fin 3) true = elog (dgamma (N:=ER_Num SF0) (Fin 5)
  (Fin 2) (Fin 3) false).
Proof. apply C06_dgamma_log; ex_side. Qed.

Theorem C06_dinvgamma_log : forall (S : SF) (x : ER) k th,
  dinvgamma (N:=ER_Num S) x k th true = elog (dinvgamma (N:=ER_Num S) x k th false).
Proof. exact dinvgamma_log. Qed.
Print Assumptions C06_dinvgamma_log.
Example C06_dinvgamma_log_ex :
  dinvgamma (N:=ER_Num SF0) (Fin 5) (Fin 2) (Fin 3) true = elog (dinvgamma (N:=ER_Num SF0) (Fin
  5) (Fin 2) (Fin 3) false).
Proof. apply C06_dinvgamma_log; ex_side. Qed.

Theorem C06_dweibull_log : forall (S : SF) (x : ER) k th,
  dweibull (N:=ER_Num S) x k th true = elog (dweibull (N:=ER_Num S) x k th false).
Proof. exact dweibull_log. Qed.
Print Assumptions C06_dweibull_log.
Example C06_dweibull_log_ex :
  dweibull (N:=ER_Num SF0) (Fin 5) (Fin 2) (Fin 3) true = elog (dweibull (N:=ER_Num SF0) (Fin
  5) (Fin 2) (Fin 3) false).
Proof. apply C06_dweibull_log; ex_side. Qed.

Theorem C06_dbeta_log : forall (S : SF) (x : ER) a b,
  dbeta (N:=ER_Num S) x a b true = elog (dbeta (N:=ER_Num S) x a b false).
Proof. exact dbeta_log. Qed.
Print Assumptions C06_dbeta_log.
Example C06_dbeta_log_ex :
  dbeta (N:=ER_Num SF0) (Fin 5) (Fin 2) (Fin 3) true = elog (dbeta (N:=ER_Num SF0) (Fin 5) (Fin
  2) (Fin 3) false).
Proof. apply C06_dbeta_log; ex_side. Qed.

Theorem C06_pnorm_log : forall (S : SF) (x : ER) mu sigma,
  pnorm (N:=ER_Num S) x mu sigma true = elog (pnorm (N:=ER_Num S) x mu sigma false).
Proof. exact pnorm_log. Qed.
Print Assumptions C06_pnorm_log.
Example C06_pnorm_log_ex :
  pnorm (N:=ER_Num SF0) (Fin 5) (Fin 2) (Fin 3) true = elog (pnorm (N:=ER_Num SF0) (Fin 5) (Fin
  2) (Fin 3) false).
Proof. apply C06_pnorm_log; ex_side. Qed.

Theorem C06_pcauchy_log : forall (S : SF) (x : ER) mu sigma,
  pcauchy (N:=ER_Num S) x mu sigma true = elog (pcauchy (N:=ER_Num S) x mu sigma false).
Proof. exact pcauchy_log. Qed.
Print Assumptions C06_pcauchy_log.
Example C06_pcauchy_log_ex :
  pcauchy (N:=ER_Num SF0) (Fin 5) (Fin 2) (Fin 3) true = elog (pcauchy (N:=ER_Num SF0) (Fin 5)
  (Fin 2) (Fin 3) false).
Proof. apply C06_pcauchy_log; ex_side. Qed.

Theorem C06_plaplace_log : forall (S : SF) (x : ER) mu sigma,
  plaplace (N:=ER_Num S) x mu sigma true = elog (plaplace (N:=ER_Num S) x mu sigma false).
Proof. exact plaplace_log. Qed.
Print Assumptions C06_plaplace_log.
Example C06_plaplace_log_ex :
  plaplace (N:=ER_Num SF0) (Fin 5) (Fin 2) (Fin 3) true = elog (plaplace (N:=ER_Num SF0) (Fin
  5) (Fin 2) (Fin 3) false).
Proof. apply C06_plaplace_log; ex_side. Qed.

Theorem C06_plogis_log : forall (S : SF) (x : ER) mu sigma,
  plogis (N:=ER_Num S) x mu sigma true = elog (plogis (N:=ER_Num S) x mu sigma false).
Proof. exact plogis_log. Qed.
Print Assumptions C06_plogis_log.
Example C06_plogis_log_ex :
  plogis (N:=ER_Num SF0) (Fin 5) (Fin 2) (Fin 3) true = elog (plogis (N:=ER_Num SF0) (Fin 5)
  (Fin 2) (Fin 3) false).
Proof. apply C06_plogis_log; ex_side. Qed.

Theorem C06_plnorm_log : forall (S : SF) (x : ER) mu sigma,
  plnorm (N:=ER_Num S) x mu sigma true = elog (plnorm (N:=ER_Num S) x mu sigma false).
Proof. exact plnorm_log. Qed.
Print Assumptions C06_plnorm_log.
Example C06_plnorm_log_ex :
  plnorm (N:=ER_Num SF0) (Fin 5) (Fin 2) (Fin 3) true = elog (plnorm (N:=ER_Num SF0) (Fin 5)
  (Fin 2) (Fin 3) false).
Proof. apply C06_plnorm_log; ex_side. Qed.

Theorem C06_pinvgauss_log : forall (S : SF) (x : ER) mu l,
  pinvgauss (N:=ER_Num S) x mu l true = elog (pinvgauss (N:=ER_Num S) x mu l false).
Proof. exact pinvgauss_log. Qed.
Print Assumptions C06_pinvgauss_log.
Example C06_pinvgauss_log_ex :
  pinvgauss (N:=ER_Num SF0) (Fin 5) (Fin 2) (Fin 3) true = elog (pinvgauss (N:=ER_Num SF0) (Fin
  5) (Fin 2) (Fin 3) false).
Proof. apply C06_pinvgauss_log; ex_side. Qed.

Theorem C06_pgamma_log : forall (S : SF) (x : ER) k th,
  pgamma (N:=ER_Num S) x k th true = elog (pgamma (N:=ER_Num S) x k th false).
Proof. exact pgamma_log. Qed.
Print Assumptions C06_pgamma_log.
Example C06_pgamma_log_ex :
  pgamma (N:=ER_Num SF0) (Fin 5) (Fin 2) (Fin 3) true = elog (pgamma (N:=ER_Num SF0) (Fin 5)
  (Fin 2) (Fin 3) false).
Proof. apply C06_pgamma_log; ex_side. Qed.

Theorem C06_pinvgamma_log : forall (S : SF) (x : ER) k th,
  pinvgamma (N:=ER_Num S) x k th true = elog (pinvgamma (N:=ER_Num S) x k th false).
Proof. exact pinvgamma_log. Qed.
Print Assumptions C06_pinvgamma_log.
Example C06_pinvgamma_log_ex :
  pinvgamma (N:=ER_Num SF0) (Fin 5) (Fin 2) (Fin 3) true = elog (pinvgamma (N:=ER_Num SF0) (Fin
  5) (Fin 2) (Fin 3) false).
Proof. apply C06_pinvgamma_log; ex_side. Qed.

Theorem C06_pweibull_log : forall (S : SF) (x : ER) k th,
  pweibull (N:=ER_Num S) x k th true = elog (pweibull (N:=ER_Num S) x k th false).
Proof. exact pweibull_log. Qed.
Print Assumptions C06_pweibull_log.
Example C06_pweibull_log_ex :
  pweibull (N:=ER_Num SF0) (Fin 5) (Fin 2) (Fin 3) true = elog (pweibull (N:=ER_Num SF0) (Fin
  5) (Fin 2) (Fin 3) false).
Proof. apply C06_pweibull_log; ex_side. Qed.

Theorem C06_pbeta_log : forall (S : SF) (x : ER) a b,
  pbeta (N:=ER_Num S) x a b true = elog (pbeta (N:=ER_Num S) x a b false).
Proof. exact pbeta_log. Qed.
Print Assumptions C06_pbeta_log.
Example C06_pbeta_log_ex :
  pbeta (N:=ER_Num SF0) (Fin 5) (Fin 2) (Fin 3) true = elog (pbeta (N:=ER_Num SF0) (Fin 5) (Fin
  2) (Fin 3) false).
Proof. apply C06_pbeta_log; ex_side. Qed.

Theorem C06_punif_log : forall (S : SF) (x : ER) a b,
  punif (N:=ER_Num S) x a b true = elog (punif (N:=ER_Num S) x a b false).
Proof. exact punif_log. Qed.
Print Assumptions C06_punif_log.
Example C06_punif_log_ex :
  punif (N:=ER_Num SF0) (Fin 5) (Fin 2) (Fin 3) true = elog (punif (N:=ER_Num SF0) (Fin 5) (Fin
  2) (Fin 3) false).
Proof. apply C06_punif_log; ex_side. Qed.

Theorem C06_dchisq_log : forall (S : SF) (x : ER) dof,
  dchisq (N:=ER_Num S) x dof true = elog (dchisq (N:=ER_Num S) x dof false).
Proof. exact dchisq_log. Qed.
Print Assumptions C06_dchisq_log.
Example C06_dchisq_log_ex :
  dchisq (N:=ER_Num SF0) (Fin 5) (Fin 2) true = elog (dchisq (N:=ER_Num SF0) (Fin 5) (Fin 2)
  false).
Proof. apply C06_dchisq_log; ex_side. Qed.

Theorem C06_pchisq_log : forall (S : SF) (x : ER) dof,
  pchisq (N:=ER_Num S) x dof true = elog (pchisq (N:=ER_Num S) x dof false).
Proof. exact pchisq_log. Qed.
Print Assumptions C06_pchisq_log.
Example C06_pchisq_log_ex :
  pchisq (N:=ER_Num SF0) (Fin 5) (Fin 2) true = elog (pchisq (N:=ER_Num SF0) (Fin 5) (Fin 2)
  false).
Proof. apply C06_pchisq_log; ex_side. Qed.

Theorem C06_pexp_log : forall (S : SF) (x : ER) rate,
  pexp (N:=ER_Num S) x rate true = elog (pexp (N:=ER_Num S) x rate false).
Proof. exact pexp_log. Qed.
Print Assumptions C06_pexp_log.
Example C06_pexp_log_ex :
  pexp (N:=ER_Num SF0) (Fin 5) (Fin 2) true = elog (pexp (N:=ER_Num SF0) (Fin 5) (Fin 2) false).
Proof. apply C06_pexp_log; ex_side. Qed.

Theorem C06_dt_log : forall (S : SF) (x : ER) dof,
  dt (N:=ER_Num S) x dof true = elog (dt (N:=ER_Num S) x dof false).
Proof. exact dt_log. Qed.
Print Assumptions C06_dt_log.
Example C06_dt_log_ex :
  dt (N:=ER_Num SF0) (Fin 5) (Fin 2) true = elog (dt (N:=ER_Num SF0) (Fin 5) (Fin 2) false).
Proof. apply C06_dt_log; ex_side. Qed.

Theorem C06_pt_log : forall (S : SF) (x : ER) dof,
  pt (N:=ER_Num S) x dof true = elog (pt (N:=ER_Num S) x dof false).
Proof. exact pt_log. Qed.
Print Assumptions C06_pt_log.
Example C06_pt_log_ex :
  pt (N:=ER_Num SF0) (Fin 5) (Fin 2) true = elog (pt (N:=ER_Num SF0) (Fin 5) (Fin 2) false).
Proof. apply C06_pt_log; ex_side. Qed.

Theorem C06_dbern_log : forall (S : SF) (x : Z) pr,
  dbern (N:=ER_Num S) x pr true = elog (dbern (N:=ER_Num S) x pr false).
Proof. exact dbern_log. Qed.
Print Assumptions C06_dbern_log.
Example C06_dbern_log_ex :
  dbern (N:=ER_Num SF0) 1%Z (Fin (1/4)) true = elog (dbern (N:=ER_Num SF0) 1%Z (Fin (1/4))
  false).
Proof. apply C06_dbern_log; ex_side. Qed.

Theorem C06_pbern_log : forall (S : SF) (x : Z) pr,
  pbern (N:=ER_Num S) x pr true = elog (pbern (N:=ER_Num S) x pr false).
Proof. exact pbern_log. Qed.
Print Assumptions C06_pbern_log.
Example C06_pbern_log_ex :
  pbern (N:=ER_Num SF0) 1%Z (Fin (1/4)) true = elog (pbern (N:=ER_Num SF0) 1%Z (Fin (1/4))
  false).
Proof. apply C06_pbern_log; ex_side. Qed.

Theorem C06_dradem_log : forall (S : SF) (x : Z) pr,
  dradem (N:=ER_Num S) x pr true = elog (dradem (N:=ER_Num S) x pr false).
Proof. exact dradem_log. Qed.
Print Assumptions C06_dradem_log.
Example C06_dradem_log_ex :
  dradem (N:=ER_Num SF0) 1%Z (Fin (1/4)) true = elog (dradem (N:=ER_Num SF0) 1%Z (Fin (1/4))
  false).
Proof. apply C06_dradem_log; ex_side. Qed.

Theorem C06_pradem_log : forall (S : SF) (x : Z) pr,
  pradem (N:=ER_Num S) x pr true = elog (pradem (N:=ER_Num S) x pr false).
Proof. exact pradem_log. Qed.
Print Assumptions C06_pradem_log.
Example C06_pradem_log_ex :
  pradem (N:=ER_Num SF0) 1%Z (Fin (1/4)) true = elog (pradem (N:=ER_Num SF0) 1%Z (Fin (1/4))
  false).
Proof. apply C06_pradem_log; ex_side. Qed.

Theorem C06_dpois_log : forall (S : SF) (x : Z) rate,
  dpois (N:=ER_Num S) x rate true = elog (dpois (N:=ER_Num S) x rate false).
Proof. exact dpois_log. Qed.
Print Assumptions C06_dpois_log.
Example C06_dpois_log_ex :
  dpois (N:=ER_Num SF0) 1%Z (Fin 4) true = elog (dpois (N:=ER_Num SF0) 1%Z (Fin 4) false).
Proof. apply C06_dpois_log; ex_side. Qed.

Theorem C06_ppois_log : forall (S : SF) (x : Z) rate,
  ppois (N:=ER_Num S) x rate true = elog (ppois (N:=ER_Num S) x rate false).
Proof. exact ppois_log. Qed.
Print Assumptions C06_ppois_log.
Example C06_ppois_log_ex :
  ppois (N:=ER_Num SF0) 1%Z (Fin 4) true = elog (ppois (N:=ER_Num SF0) 1%Z (Fin 4) false).
Proof. apply C06_ppois_log; ex_side. Qed.

Theorem C06_dbinom_log : forall (S : SF) (x : Z) n pr,
  dbinom (N:=ER_Num S) x n pr true = elog (dbinom (N:=ER_Num S) x n pr false).
Proof. exact dbinom_log. Qed.
Print Assumptions C06_dbinom_log.
Example C06_dbinom_log_ex :
  dbinom (N:=ER_Num SF0) 2%Z 5%Z (Fin (1/4)) true = elog (dbinom (N:=ER_Num SF0) 2%Z 5%Z (Fin
  (1/4)) false).
Proof. apply C06_dbinom_log; ex_side. Qed.

Theorem C06_pbinom_log : forall (S : SF) (x : Z) n pr,
  pbinom (N:=ER_Num S) x n pr true = elog (pbinom (N:=ER_Num S) x n pr false).
Proof. exact pbinom_log. Qed.
Print Assumptions C06_pbinom_log.
Example C06_pbinom_log_ex :
  pbinom (N:=ER_Num SF0) 2%Z 5%Z (Fin (1/4)) true = elog (pbinom (N:=ER_Num SF0) 2%Z 5%Z (Fin
  (1/4)) false).
Proof. apply C06_pbinom_log; ex_side. Qed.

Theorem C06_dexp_log : forall (S : SF) (x : ER) rate,
  x <> PInf -> dexp (N:=ER_Num S) x rate true = elog (dexp (N:=ER_Num S) x rate false).
Proof. exact dexp_log. Qed.
Print Assumptions C06_dexp_log.
Example C06_dexp_log_ex :
  dexp (N:=ER_Num SF0) (Fin 5) (Fin 2) true = elog (dexp (N:=ER_Num SF0) (Fin 5) (Fin 2) false).
Proof. apply C06_dexp_log; ex_side. Qed.

Theorem C06_dunif_log : forall (S : SF) (x : ER) (a : R) (b : R),
  dunif (N:=ER_Num S) x (Fin a) (Fin b) true = elog (dunif (N:=ER_Num S) x (Fin a) (Fin b)
  false).
Proof. exact dunif_log. Qed.
Print Assumptions C06_dunif_log.
Example C06_dunif_log_ex :
  dunif (N:=ER_Num SF0) (Fin 5) (Fin 2) (Fin 7) true = elog (dunif (N:=ER_Num SF0) (Fin 5) (Fin
  2) (Fin 7) false).
Proof. apply C06_dunif_log; ex_side. Qed.

Theorem C06_df_log : forall (S : SF) (x : ER) d1 d2,
  0 < sf_eps S -> df (N:=ER_Num S) x d1 d2 true = elog (df (N:=ER_Num S) x d1 d2 false).
Proof. exact df_log. Qed.
Print Assumptions C06_df_log.
Example C06_df_log_ex :
  df (N:=ER_Num SF0) (Fin 5) (Fin 2) (Fin 2) true = elog (df (N:=ER_Num SF0) (Fin 5) (Fin 2)
  (Fin 2) false).
Proof. apply C06_df_log; ex_side. Qed.

Theorem C06_pf_log : forall (S : SF) (x : ER) d1 d2,
  d1 <> PInf \/ d2 = PInf -> pf (N:=ER_Num S) x d1 d2 true = elog (pf (N:=ER_Num S) x d1 d2
  false).
Proof. exact pf_log. Qed.
Print Assumptions C06_pf_log.
Example C06_pf_log_ex :
  pf (N:=ER_Num SF0) (Fin 5) (Fin 2) PInf true = elog (pf (N:=ER_Num SF0) (Fin 5) (Fin 2) PInf
  false).
Proof. apply C06_pf_log; ex_side. Qed.

(** where it fails: dexp at +inf, dunif with an infinite bound, pf with df1 = +inf *)

Theorem C06_dexp_refuted :
  exists (S : SF) x rate, 0 < rate /\ dexp (N:=ER_Num S) x (Fin rate) true <> elog (dexp
  (N:=ER_Num S) x (Fin rate) false).
Proof. exact dexp_log_refuted. Qed.
Print Assumptions C06_dexp_refuted.

Theorem C06_dunif_refuted :
  exists (S : SF) x a b, dunif (N:=ER_Num S) (Fin x) a b true <> elog (dunif (N:=ER_Num S) (Fin
  x) a b false).
Proof. exact dunif_log_refuted. Qed.
Print Assumptions C06_dunif_refuted.

Theorem C06_pf_refuted :
  exists (S : SF) x d1 d2, pf (N:=ER_Num S) x d1 d2 true <> elog (pf (N:=ER_Num S) x d1 d2
  false).
Proof. exact pf_log_refuted. Qed.
Print Assumptions C06_pf_refuted.
