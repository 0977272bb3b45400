(** C14: CDF of quantile is the identity (exact arithmetic). *)
From Coq Require Import Reals ZArith QArith Bool Lra Lia.
From Verif Require Import FInf.
From Verif Require Import Num Sanity Prob Dens Quant ER ERTac Spec SpecER Witness.
From Verif Require Import ClosedElem RealElem LogForm Support Elem NormR Norm SpecSF GammaFn BetaFn FamR FamG FamB WitnessSF Discrete DiscreteQ Bound Sym Mono QtR QtBad InvGaussR InvGaussQ NotNan UnitMono.
Local Open Scope R_scope.

Theorem C14_pexp_qexp : forall (S : SF) r p,
  0 < r -> 0 < p < 1 -> pexp (N:=ER_Num S) (qexp (N:=ER_Num S) (Fin p) (Fin r)) (Fin r) false =
  Fin p.
Proof. exact pexp_qexp. Qed.
Print Assumptions C14_pexp_qexp.
Example C14_pexp_qexp_ex :
  pexp (N:=ER_Num SFR) (qexp (N:=ER_Num SFR) (Fin (1/3)) (Fin 2)) (Fin 2) false = Fin (1/3).
Proof. apply C14_pexp_qexp; ex_sf. Qed.

Theorem C14_punif_qunif : forall (S : SF) a b p,
  a < b -> 0 < p < 1 -> punif (N:=ER_Num S) (qunif (N:=ER_Num S) (Fin p) (Fin a) (Fin b)) (Fin
  a) (Fin b) false = Fin p.
Proof. exact punif_qunif. Qed.
Print Assumptions C14_punif_qunif.
Example C14_punif_qunif_ex :
  punif (N:=ER_Num SFR) (qunif (N:=ER_Num SFR) (Fin (1/3)) (Fin 2) (Fin 5)) (Fin 2) (Fin 5)
  false = Fin (1/3).
Proof. apply C14_punif_qunif; ex_sf. Qed.

Theorem C14_plaplace_qlaplace : forall (S : SF) mu s p,
  0 < s -> 0 < p < 1 -> plaplace (N:=ER_Num S) (qlaplace (N:=ER_Num S) (Fin p) (Fin mu) (Fin
  s)) (Fin mu) (Fin s) false = Fin p.
Proof. exact plaplace_qlaplace. Qed.
Print Assumptions C14_plaplace_qlaplace.
Example C14_plaplace_qlaplace_ex :
  plaplace (N:=ER_Num SFR) (qlaplace (N:=ER_Num SFR) (Fin (1/3)) (Fin 1) (Fin 2)) (Fin 1) (Fin
  2) false = Fin (1/3).
Proof. apply C14_plaplace_qlaplace; ex_sf. Qed.

Theorem C14_plogis_qlogis : forall (S : SF) mu s p,
  0 < s -> 0 < p < 1 -> plogis (N:=ER_Num S) (qlogis (N:=ER_Num S) (Fin p) (Fin mu) (Fin s))
  (Fin mu) (Fin s) false = Fin p.
Proof. exact plogis_qlogis. Qed.
Print Assumptions C14_plogis_qlogis.
Example C14_plogis_qlogis_ex :
  plogis (N:=ER_Num SFR) (qlogis (N:=ER_Num SFR) (Fin (1/3)) (Fin 1) (Fin 2)) (Fin 1) (Fin 2)
  false = Fin (1/3).
Proof. apply C14_plogis_qlogis; ex_sf. Qed.

Theorem C14_pcauchy_qcauchy : forall (S : SF) mu s p,
  0 < s -> 0 < p < 1 -> pcauchy (N:=ER_Num S) (qcauchy (N:=ER_Num S) (Fin p) (Fin mu) (Fin s))
  (Fin mu) (Fin s) false = Fin p.
Proof. exact pcauchy_qcauchy. Qed.
Print Assumptions C14_pcauchy_qcauchy.
Example C14_pcauchy_qcauchy_ex :
  pcauchy (N:=ER_Num SFR) (qcauchy (N:=ER_Num SFR) (Fin (1/3)) (Fin 1) (Fin 2)) (Fin 1) (Fin 2)
  false = Fin (1/3).
Proof. apply C14_pcauchy_qcauchy; ex_sf. Qed.

Theorem C14_pnorm_qnorm : forall (S : SF) mu s p,
  erf_spec S -> erf_inv_spec S -> 0 < s -> 0 < p < 1 -> pnorm (N:=ER_Num S) (qnorm (N:=ER_Num
  S) (Fin p) (Fin mu) (Fin s)) (Fin mu) (Fin s) false = Fin p.
Proof. exact pnorm_qnorm. Qed.
Print Assumptions C14_pnorm_qnorm.
Example C14_pnorm_qnorm_ex :
  pnorm (N:=ER_Num SFR) (qnorm (N:=ER_Num SFR) (Fin (1/3)) (Fin 1) (Fin 2)) (Fin 1) (Fin 2)
  false = Fin (1/3).
Proof. apply C14_pnorm_qnorm; ex_sf. Qed.

Theorem C14_pbeta_qbeta : forall (S : SF) a b p,
  incbeta_spec S -> incbeta_inv_spec S -> 0 < a -> 0 < b -> 0 < p < 1 -> pbeta (N:=ER_Num S)
  (qbeta (N:=ER_Num S) (Fin p) (Fin a) (Fin b)) (Fin a) (Fin b) false = Fin p.
Proof. exact pbeta_qbeta. Qed.
Print Assumptions C14_pbeta_qbeta.
Example C14_pbeta_qbeta_ex :
  pbeta (N:=ER_Num SFR) (qbeta (N:=ER_Num SFR) (Fin (1/3)) (Fin 2) (Fin 3)) (Fin 2) (Fin 3)
  false = Fin (1/3).
Proof. apply C14_pbeta_qbeta; ex_sf. Qed.

Theorem C14_pt_qt_1 : forall (S : SF) p,
  incbeta_spec S -> 0 < (sf_eps S) <= 1 -> 0 < p < 1 -> pt (N:=ER_Num S) (qt (N:=ER_Num S) (Fin
  p) (Fin 1)) (Fin 1) false = Fin p.
Proof. exact pt_qt_1. Qed.
Print Assumptions C14_pt_qt_1.
Example C14_pt_qt_1_ex :
  pt (N:=ER_Num SFR) (qt (N:=ER_Num SFR) (Fin (1/3)) (Fin 1)) (Fin 1) false = Fin (1/3).
Proof. apply C14_pt_qt_1; ex_sf. Qed.

Theorem C14_pt_qt_2 : forall (S : SF) p,
  incbeta_spec S -> 0 < (sf_eps S) <= 1 -> 0 < p < 1 -> pt (N:=ER_Num S) (qt (N:=ER_Num S) (Fin
  p) (Fin 2)) (Fin 2) false = Fin p.
Proof. exact pt_qt_2. Qed.
Print Assumptions C14_pt_qt_2.
Example C14_pt_qt_2_ex :
  pt (N:=ER_Num SFR) (qt (N:=ER_Num SFR) (Fin (1/3)) (Fin 2)) (Fin 2) false = Fin (1/3).
Proof. apply C14_pt_qt_2; ex_sf. Qed.

(** families whose CDF is cut to 0 below epsilon: the identity from the CDF value at epsilon on *)

Theorem C14_pweibull_qweibull : forall (S : SF) k th p,
  0 < (sf_eps S) -> (sf_eps S) <= k -> (sf_eps S) <= th -> weibull_cdf k th (sf_eps S) <= p < 1
  -> pweibull (N:=ER_Num S) (qweibull (N:=ER_Num S) (Fin p) (Fin k) (Fin th)) (Fin k) (Fin th)
  false = Fin p.
Proof. exact pweibull_inv. Qed.
Print Assumptions C14_pweibull_qweibull.
Example C14_pweibull_qweibull_ex :
  pweibull (N:=ER_Num SFR) (qweibull (N:=ER_Num SFR) (Fin (weibull_cdf 2 3 5)) (Fin 2) (Fin 3))
  (Fin 2) (Fin 3) false = Fin (weibull_cdf 2 3 5).
Proof. apply C14_pweibull_qweibull; first [ex_sf | split; [left; apply weibull_cdf_slt; ex_sf | apply weibull_cdf_range]]. Qed.

Theorem C14_plnorm_qlnorm : forall (S : SF) mu s p,
  erf_spec S -> erf_inv_spec S -> 0 < (sf_eps S) -> 0 < s -> lnorm_cdf mu s (sf_eps S) <= p < 1
  -> plnorm (N:=ER_Num S) (qlnorm (N:=ER_Num S) (Fin p) (Fin mu) (Fin s)) (Fin mu) (Fin s)
  false = Fin p.
Proof. exact plnorm_inv. Qed.
Print Assumptions C14_plnorm_qlnorm.
Example C14_plnorm_qlnorm_ex :
  plnorm (N:=ER_Num SFR) (qlnorm (N:=ER_Num SFR) (Fin (lnorm_cdf 1 2 5)) (Fin 1) (Fin 2)) (Fin
  1) (Fin 2) false = Fin (lnorm_cdf 1 2 5).
Proof. apply C14_plnorm_qlnorm; first [ex_sf | split; [left; apply norm_cdf_smono; [lra|apply ln_increasing; ex_sf] | apply norm_cdf_range]]. Qed.

Theorem C14_pgamma_qgamma : forall (S : SF) k th p,
  incgamma_spec S -> incgamma_inv_spec S -> 0 < (sf_eps S) -> 0 < k -> (sf_eps S) <= th ->
  gamma_cdf k th (sf_eps S) <= p < 1 -> pgamma (N:=ER_Num S) (qgamma (N:=ER_Num S) (Fin p) (Fin
  k) (Fin th)) (Fin k) (Fin th) false = Fin p.
Proof. exact pgamma_inv. Qed.
Print Assumptions C14_pgamma_qgamma.
Example C14_pgamma_qgamma_ex :
  pgamma (N:=ER_Num SFR) (qgamma (N:=ER_Num SFR) (Fin (gamma_cdf 2 3 5)) (Fin 2) (Fin 3)) (Fin
  2) (Fin 3) false = Fin (gamma_cdf 2 3 5).
Proof. apply C14_pgamma_qgamma; first [ex_sf | split; [left; apply gamma_cdf_slt; ex_sf | apply gamma_cdf_pos; ex_sf]]. Qed.

Theorem C14_pchisq_qchisq : forall (S : SF) n p,
  incgamma_spec S -> incgamma_inv_spec S -> 0 < (sf_eps S) -> 0 < n -> chisq_cdf n (sf_eps S)
  <= p < 1 -> pchisq (N:=ER_Num S) (qchisq (N:=ER_Num S) (Fin p) (Fin n)) (Fin n) false = Fin p.
Proof. exact pchisq_inv. Qed.
Print Assumptions C14_pchisq_qchisq.
Example C14_pchisq_qchisq_ex :
  pchisq (N:=ER_Num SFR) (qchisq (N:=ER_Num SFR) (Fin (chisq_cdf 5 5)) (Fin 5)) (Fin 5) false =
  Fin (chisq_cdf 5 5).
Proof. apply C14_pchisq_qchisq; first [ex_sf | split; [left; apply (gamma_cdf_slt (5 / 2) 2); ex_sf | apply (gamma_cdf_pos (5 / 2) 2); ex_sf]]. Qed.

Theorem C14_pf_qf : forall (S : SF) d1 d2 p,
  incbeta_spec S -> incbeta_inv_spec S -> 0 < (sf_eps S) -> (sf_eps S) <= d1 -> (sf_eps S) <=
  d2 -> f_cdf d1 d2 (sf_eps S) <= p < 1 -> pf (N:=ER_Num S) (qf (N:=ER_Num S) (Fin p) (Fin d1)
  (Fin d2)) (Fin d1) (Fin d2) false = Fin p.
Proof. exact pf_inv. Qed.
Print Assumptions C14_pf_qf.
Example C14_pf_qf_ex :
  pf (N:=ER_Num SFR) (qf (N:=ER_Num SFR) (Fin (f_cdf 4 7 5)) (Fin 4) (Fin 7)) (Fin 4) (Fin 7)
  false = Fin (f_cdf 4 7 5).
Proof. apply C14_pf_qf; first [ex_sf | split; [left; apply f_cdf_slt; ex_sf | apply f_cdf_pos; ex_sf]]. Qed.

Theorem C14_pinvgamma_qinvgamma : forall (S : SF) a b p,
  incgamma_spec S -> incgamma_inv_spec S -> 0 < (sf_eps S) -> 0 < a -> 0 < b <= / (sf_eps S) ->
  0 < p <= invgamma_cdf a b (/ (sf_eps S)) -> pinvgamma (N:=ER_Num S) (qinvgamma (N:=ER_Num S)
  (Fin p) (Fin a) (Fin b)) (Fin a) (Fin b) false = Fin p.
Proof. exact pinvgamma_inv. Qed.
Print Assumptions C14_pinvgamma_qinvgamma.
Example C14_pinvgamma_qinvgamma_ex :
  pinvgamma (N:=ER_Num SFR) (qinvgamma (N:=ER_Num SFR) (Fin (invgamma_cdf 2 3 5)) (Fin 2) (Fin
  3)) (Fin 2) (Fin 3) false = Fin (invgamma_cdf 2 3 5).
Proof. apply C14_pinvgamma_qinvgamma; first [ex_sf | split; [apply invgamma_cdf_pos; ex_sf | left; apply invgamma_cdf_slt; ex_sf]]. Qed.

(** below it the composition is 0 *)

Theorem C14_pweibull_qweibull_cutoff : forall (S : SF) k th p,
  0 < (sf_eps S) -> (sf_eps S) <= k -> (sf_eps S) <= th -> 0 < p < weibull_cdf k th (sf_eps S)
  -> pweibull (N:=ER_Num S) (qweibull (N:=ER_Num S) (Fin p) (Fin k) (Fin th)) (Fin k) (Fin th)
  false = Fin 0.
Proof. exact pweibull_inv_bad. Qed.
Print Assumptions C14_pweibull_qweibull_cutoff.
Example C14_pweibull_qweibull_cutoff_ex :
  pweibull (N:=ER_Num SFR) (qweibull (N:=ER_Num SFR) (Fin (weibull_cdf 1 1 (/
  9007199254740992))) (Fin 1) (Fin 1)) (Fin 1) (Fin 1) false = Fin 0.
Proof. apply C14_pweibull_qweibull_cutoff; first [ex_sf | split; [apply weibull_cdf_range | apply weibull_cdf_slt; ex_sf]]. Qed.

Theorem C14_pweibull_refuted :
  exists (S : SF) k th p, 0 < sf_eps S /\ sf_eps S <= k /\ sf_eps S <= th /\ 0 < p < 1 /\
  pweibull (N:=ER_Num S) (qweibull (N:=ER_Num S) (Fin p) (Fin k) (Fin th)) (Fin k) (Fin th)
  false <> Fin p.
Proof. exact weibull_inv_refuted. Qed.
Print Assumptions C14_pweibull_refuted.

(** qinvgauss iterates: the CDF error of its answer is bounded *)

Theorem C14_qinvgauss_error_partial : forall (S : SF) p mu l,
  erf_spec S -> 0 < mu -> 0 < l -> 0 < p < 1 -> exists q s, qinvgauss (N:=ER_Num S) (Fin p)
  (Fin mu) (Fin l) = Fin q /\ 0 < q /\ 0 < s /\ pinvgauss (N:=ER_Num S) (Fin s) (Fin mu) (Fin
  l) false = Fin p /\ (s <= q <= ig_mode mu l \/ ig_mode mu l <= q <= s) /\ (Rabs (p -
  invgauss_cdf mu l q) < sf_tmin S \/ 100 * Rabs (p - invgauss_cdf mu l q) <= invgauss_pdf mu l
  (ig_mode mu l) * Rabs (s - ig_mode mu l)).
Proof. exact qinvgauss_val. Qed.
Print Assumptions C14_qinvgauss_error_partial.
Example C14_qinvgauss_error_partial_ex :
  exists q s, qinvgauss (N:=ER_Num SFR) (Fin (1/3)) (Fin 2) (Fin 3) = Fin q /\ 0 < q /\ 0 < s
  /\ pinvgauss (N:=ER_Num SFR) (Fin s) (Fin 2) (Fin 3) false = Fin (1/3) /\ (s <= q <= ig_mode
  2 3 \/ ig_mode 2 3 <= q <= s) /\ (Rabs ((1/3) - invgauss_cdf 2 3 q) < sf_tmin SFR \/ 100 *
  Rabs ((1/3) - invgauss_cdf 2 3 q) <= invgauss_pdf 2 3 (ig_mode 2 3) * Rabs (s - ig_mode 2 3)).
Proof. apply C14_qinvgauss_error_partial; ex_sf. Qed.

(** infinitely many degrees of freedom: the quotient of the mean of a chi-squared variable and that variable *)
Theorem C14_pf_qf_inf1 : forall (S : SF) p d2,
  incgamma_spec S -> incgamma_inv_spec S -> 0 < sf_eps S -> sf_eps S <= d2 -> 0 < p < 1 ->
  exists q, qf (N:=ER_Num S) (Fin p) PInf (Fin d2) = Fin q /\ 0 < q /\ 1 - chisq_cdf d2 (d2 / q) = p /\
    (sf_eps S <= q -> sf_eps S <= d2 / q -> pf (N:=ER_Num S) (Fin q) PInf (Fin d2) false = Fin p).
Proof. exact qf_first. Qed.
Print Assumptions C14_pf_qf_inf1.
Example C14_pf_qf_inf1_ex : exists q, qf (N:=ER_Num SFR) (Fin (1 / 3)) PInf (Fin 5) = Fin q /\ 1 - chisq_cdf 5 (5 / q) = 1 / 3.
Proof. destruct (C14_pf_qf_inf1 SFR (1 / 3) 5) as (q & A & _ & B & _); first [ex_sf | lra | idtac]. now exists q. Qed.

Theorem C14_pf_qf_inf2 : forall (S : SF) p d1,
  incgamma_spec S -> incgamma_inv_spec S -> 0 < sf_eps S -> sf_eps S <= d1 -> 0 < p < 1 ->
  exists q, qf (N:=ER_Num S) (Fin p) (Fin d1) PInf = Fin q /\ 0 < q /\ chisq_cdf d1 (q * d1) = p /\
    (sf_eps S <= q -> sf_eps S <= q * d1 -> pf (N:=ER_Num S) (Fin q) (Fin d1) PInf false = Fin p).
Proof. exact qf_second. Qed.
Print Assumptions C14_pf_qf_inf2.
Example C14_pf_qf_inf2_ex : exists q, qf (N:=ER_Num SFR) (Fin (1 / 3)) (Fin 5) PInf = Fin q /\ chisq_cdf 5 (q * 5) = 1 / 3.
Proof. destruct (C14_pf_qf_inf2 SFR (1 / 3) 5) as (q & A & _ & B & _); first [ex_sf | lra | idtac]. now exists q. Qed.

Theorem C14_pf_qf_inf : forall (S : SF) p, 0 < p < 1 -> qf (N:=ER_Num S) (Fin p) PInf PInf = Fin 1.
Proof. exact qf_both. Qed.
Print Assumptions C14_pf_qf_inf.
Example C14_pf_qf_inf_ex : qf (N:=ER_Num SFR) (Fin (1 / 3)) PInf PInf = Fin 1.
Proof. apply C14_pf_qf_inf. lra. Qed.
