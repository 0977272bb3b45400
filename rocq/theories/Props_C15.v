(** C15: quantile of CDF is the identity inside the support (exact arithmetic). *)
From Coq Require Import Reals ZArith QArith Bool Lra Lia.
From Verif Require Import Num Sanity Prob Dens Quant ER ERTac Spec SpecER Witness.
From Verif Require Import ClosedElem RealElem LogForm Support Elem NormR Norm SpecSF GammaFn BetaFn FamR FamG FamB WitnessSF Discrete DiscreteQ Bound Sym Mono QtR QtBad InvGaussR InvGaussQ NotNan UnitMono.
Local Open Scope R_scope.

Theorem C15_qexp_pexp : forall (S : SF) r x,
  0 < r -> 0 < x -> qexp (N:=ER_Num S) (pexp (N:=ER_Num S) (Fin x) (Fin r) false) (Fin r) = Fin
  x.
Proof. exact qexp_pexp. Qed.
Print Assumptions C15_qexp_pexp.
Example C15_qexp_pexp_ex :
  qexp (N:=ER_Num SFR) (pexp (N:=ER_Num SFR) (Fin 5) (Fin 2) false) (Fin 2) = Fin 5.
Proof. apply C15_qexp_pexp; ex_sf. Qed.

Theorem C15_qunif_punif : forall (S : SF) a b x,
  a < x < b -> qunif (N:=ER_Num S) (punif (N:=ER_Num S) (Fin x) (Fin a) (Fin b) false) (Fin a)
  (Fin b) = Fin x.
Proof. exact qunif_punif. Qed.
Print Assumptions C15_qunif_punif.
Example C15_qunif_punif_ex :
  qunif (N:=ER_Num SFR) (punif (N:=ER_Num SFR) (Fin 4) (Fin 2) (Fin 5) false) (Fin 2) (Fin 5) =
  Fin 4.
Proof. apply C15_qunif_punif; ex_sf. Qed.

Theorem C15_qlaplace_plaplace : forall (S : SF) mu s x,
  0 < s -> qlaplace (N:=ER_Num S) (plaplace (N:=ER_Num S) (Fin x) (Fin mu) (Fin s) false) (Fin
  mu) (Fin s) = Fin x.
Proof. exact qlaplace_plaplace. Qed.
Print Assumptions C15_qlaplace_plaplace.
Example C15_qlaplace_plaplace_ex :
  qlaplace (N:=ER_Num SFR) (plaplace (N:=ER_Num SFR) (Fin 5) (Fin 1) (Fin 2) false) (Fin 1)
  (Fin 2) = Fin 5.
Proof. apply C15_qlaplace_plaplace; ex_sf. Qed.

Theorem C15_qlogis_plogis : forall (S : SF) mu s x,
  0 < s -> qlogis (N:=ER_Num S) (plogis (N:=ER_Num S) (Fin x) (Fin mu) (Fin s) false) (Fin mu)
  (Fin s) = Fin x.
Proof. exact qlogis_plogis. Qed.
Print Assumptions C15_qlogis_plogis.
Example C15_qlogis_plogis_ex :
  qlogis (N:=ER_Num SFR) (plogis (N:=ER_Num SFR) (Fin 5) (Fin 1) (Fin 2) false) (Fin 1) (Fin 2)
  = Fin 5.
Proof. apply C15_qlogis_plogis; ex_sf. Qed.

Theorem C15_qcauchy_pcauchy : forall (S : SF) mu s x,
  0 < s -> qcauchy (N:=ER_Num S) (pcauchy (N:=ER_Num S) (Fin x) (Fin mu) (Fin s) false) (Fin
  mu) (Fin s) = Fin x.
Proof. exact qcauchy_pcauchy. Qed.
Print Assumptions C15_qcauchy_pcauchy.
Example C15_qcauchy_pcauchy_ex :
  qcauchy (N:=ER_Num SFR) (pcauchy (N:=ER_Num SFR) (Fin 5) (Fin 1) (Fin 2) false) (Fin 1) (Fin
  2) = Fin 5.
Proof. apply C15_qcauchy_pcauchy; ex_sf. Qed.

Theorem C15_qweibull_pweibull : forall (S : SF) k th x,
  0 < (sf_eps S) -> (sf_eps S) <= k -> (sf_eps S) <= th -> (sf_eps S) <= x -> qweibull
  (N:=ER_Num S) (pweibull (N:=ER_Num S) (Fin x) (Fin k) (Fin th) false) (Fin k) (Fin th) = Fin
  x.
Proof. exact qweibull_pweibull. Qed.
Print Assumptions C15_qweibull_pweibull.
Example C15_qweibull_pweibull_ex :
  qweibull (N:=ER_Num SFR) (pweibull (N:=ER_Num SFR) (Fin 5) (Fin 2) (Fin 3) false) (Fin 2)
  (Fin 3) = Fin 5.
Proof. apply C15_qweibull_pweibull; ex_sf. Qed.

Theorem C15_qnorm_pnorm : forall (S : SF) mu s x,
  erf_spec S -> erf_inv_spec S -> 0 < s -> qnorm (N:=ER_Num S) (pnorm (N:=ER_Num S) (Fin x)
  (Fin mu) (Fin s) false) (Fin mu) (Fin s) = Fin x.
Proof. exact qnorm_pnorm. Qed.
Print Assumptions C15_qnorm_pnorm.
Example C15_qnorm_pnorm_ex :
  qnorm (N:=ER_Num SFR) (pnorm (N:=ER_Num SFR) (Fin 5) (Fin 1) (Fin 2) false) (Fin 1) (Fin 2) =
  Fin 5.
Proof. apply C15_qnorm_pnorm; ex_sf. Qed.

Theorem C15_qlnorm_plnorm : forall (S : SF) mu s x,
  erf_spec S -> erf_inv_spec S -> 0 < (sf_eps S) -> 0 < s -> (sf_eps S) <= x -> qlnorm
  (N:=ER_Num S) (plnorm (N:=ER_Num S) (Fin x) (Fin mu) (Fin s) false) (Fin mu) (Fin s) = Fin x.
Proof. exact qlnorm_plnorm. Qed.
Print Assumptions C15_qlnorm_plnorm.
Example C15_qlnorm_plnorm_ex :
  qlnorm (N:=ER_Num SFR) (plnorm (N:=ER_Num SFR) (Fin 5) (Fin 1) (Fin 2) false) (Fin 1) (Fin 2)
  = Fin 5.
Proof. apply C15_qlnorm_plnorm; ex_sf. Qed.

Theorem C15_qgamma_pgamma : forall (S : SF) k th x,
  incgamma_spec S -> incgamma_inv_spec S -> 0 < (sf_eps S) -> 0 < k -> (sf_eps S) <= th ->
  (sf_eps S) <= x -> qgamma (N:=ER_Num S) (pgamma (N:=ER_Num S) (Fin x) (Fin k) (Fin th) false)
  (Fin k) (Fin th) = Fin x.
Proof. exact qgamma_pgamma. Qed.
Print Assumptions C15_qgamma_pgamma.
Example C15_qgamma_pgamma_ex :
  qgamma (N:=ER_Num SFR) (pgamma (N:=ER_Num SFR) (Fin 5) (Fin 2) (Fin 3) false) (Fin 2) (Fin 3)
  = Fin 5.
Proof. apply C15_qgamma_pgamma; ex_sf. Qed.

Theorem C15_qchisq_pchisq : forall (S : SF) n x,
  incgamma_spec S -> incgamma_inv_spec S -> 0 < (sf_eps S) -> 0 < n -> (sf_eps S) <= x ->
  qchisq (N:=ER_Num S) (pchisq (N:=ER_Num S) (Fin x) (Fin n) false) (Fin n) = Fin x.
Proof. exact qchisq_pchisq. Qed.
Print Assumptions C15_qchisq_pchisq.
Example C15_qchisq_pchisq_ex :
  qchisq (N:=ER_Num SFR) (pchisq (N:=ER_Num SFR) (Fin 5) (Fin 5) false) (Fin 5) = Fin 5.
Proof. apply C15_qchisq_pchisq; ex_sf. Qed.

Theorem C15_qinvgamma_pinvgamma : forall (S : SF) a b x,
  incgamma_spec S -> incgamma_inv_spec S -> 0 < (sf_eps S) -> 0 < a -> 0 < b <= / (sf_eps S) ->
  0 < x <= / (sf_eps S) -> qinvgamma (N:=ER_Num S) (pinvgamma (N:=ER_Num S) (Fin x) (Fin a)
  (Fin b) false) (Fin a) (Fin b) = Fin x.
Proof. exact qinvgamma_pinvgamma. Qed.
Print Assumptions C15_qinvgamma_pinvgamma.
Example C15_qinvgamma_pinvgamma_ex :
  qinvgamma (N:=ER_Num SFR) (pinvgamma (N:=ER_Num SFR) (Fin 5) (Fin 2) (Fin 3) false) (Fin 2)
  (Fin 3) = Fin 5.
Proof. apply C15_qinvgamma_pinvgamma; ex_sf. Qed.

Theorem C15_qbeta_pbeta : forall (S : SF) a b x,
  incbeta_spec S -> incbeta_inv_spec S -> 0 < a -> 0 < b -> 0 < x < 1 -> qbeta (N:=ER_Num S)
  (pbeta (N:=ER_Num S) (Fin x) (Fin a) (Fin b) false) (Fin a) (Fin b) = Fin x.
Proof. exact qbeta_pbeta. Qed.
Print Assumptions C15_qbeta_pbeta.
Example C15_qbeta_pbeta_ex :
  qbeta (N:=ER_Num SFR) (pbeta (N:=ER_Num SFR) (Fin (1/3)) (Fin 2) (Fin 3) false) (Fin 2) (Fin
  3) = Fin (1/3).
Proof. apply C15_qbeta_pbeta; ex_sf. Qed.

Theorem C15_qf_pf : forall (S : SF) d1 d2 x,
  incbeta_spec S -> incbeta_inv_spec S -> 0 < (sf_eps S) -> (sf_eps S) <= d1 -> (sf_eps S) <=
  d2 -> (sf_eps S) <= x -> qf (N:=ER_Num S) (pf (N:=ER_Num S) (Fin x) (Fin d1) (Fin d2) false)
  (Fin d1) (Fin d2) = Fin x.
Proof. exact qf_pf. Qed.
Print Assumptions C15_qf_pf.
Example C15_qf_pf_ex :
  qf (N:=ER_Num SFR) (pf (N:=ER_Num SFR) (Fin 5) (Fin 4) (Fin 7) false) (Fin 4) (Fin 7) = Fin 5.
Proof. apply C15_qf_pf; ex_sf. Qed.

Theorem C15_qt_pt_1 : forall (S : SF) x,
  incbeta_spec S -> 0 < (sf_eps S) <= 1 -> qt (N:=ER_Num S) (pt (N:=ER_Num S) (Fin x) (Fin 1)
  false) (Fin 1) = Fin x.
Proof. exact qt_pt_1. Qed.
Print Assumptions C15_qt_pt_1.
Example C15_qt_pt_1_ex :
  qt (N:=ER_Num SFR) (pt (N:=ER_Num SFR) (Fin (-5)) (Fin 1) false) (Fin 1) = Fin (-5).
Proof. apply C15_qt_pt_1; ex_sf. Qed.

Theorem C15_qt_pt_2 : forall (S : SF) x,
  incbeta_spec S -> 0 < (sf_eps S) <= 1 -> qt (N:=ER_Num S) (pt (N:=ER_Num S) (Fin x) (Fin 2)
  false) (Fin 2) = Fin x.
Proof. exact qt_pt_2. Qed.
Print Assumptions C15_qt_pt_2.
Example C15_qt_pt_2_ex :
  qt (N:=ER_Num SFR) (pt (N:=ER_Num SFR) (Fin (-5)) (Fin 2) false) (Fin 2) = Fin (-5).
Proof. apply C15_qt_pt_2; ex_sf. Qed.

(** between 0 and epsilon the composition is 0 *)

Theorem C15_qweibull_pweibull_cutoff : forall (S : SF) k th x,
  0 < (sf_eps S) -> (sf_eps S) <= k -> (sf_eps S) <= th -> 0 < x < (sf_eps S) -> qweibull
  (N:=ER_Num S) (pweibull (N:=ER_Num S) (Fin x) (Fin k) (Fin th) false) (Fin k) (Fin th) = Fin
  0.
Proof. exact qweibull_pweibull_bad. Qed.
Print Assumptions C15_qweibull_pweibull_cutoff.
Example C15_qweibull_pweibull_cutoff_ex :
  qweibull (N:=ER_Num SFR) (pweibull (N:=ER_Num SFR) (Fin (/ 9007199254740992)) (Fin 1) (Fin 1)
  false) (Fin 1) (Fin 1) = Fin 0.
Proof. apply C15_qweibull_pweibull_cutoff; ex_sf. Qed.

Theorem C15_qweibull_refuted :
  exists (S : SF) k th x, 0 < sf_eps S /\ sf_eps S <= k /\ sf_eps S <= th /\ 0 < x /\ qweibull
  (N:=ER_Num S) (pweibull (N:=ER_Num S) (Fin x) (Fin k) (Fin th) false) (Fin k) (Fin th) <> Fin
  x.
Proof. exact weibull_inv2_refuted. Qed.
Print Assumptions C15_qweibull_refuted.
