(** C09: every CDF is monotone, for valid finite parameters and all pairs of arguments (exact arithmetic). *)
From Coq Require Import Reals ZArith QArith Bool Lra Lia.
From Verif Require Import Num Sanity Prob Dens Quant ER ERTac Spec SpecER Witness.
From Verif Require Import ClosedElem RealElem LogForm Support Elem NormR Norm SpecSF GammaFn BetaFn FamR FamG FamB WitnessSF Discrete DiscreteQ Bound Sym Mono QtR QtBad InvGaussR InvGaussQ NotNan UnitMono.
Local Open Scope R_scope.

Theorem C09_pexp_mono : forall (S : SF) r,
  0 < r -> monotone (fun x => pexp (N:=ER_Num S) x (Fin r) false).
Proof. exact pexp_mono. Qed.
Print Assumptions C09_pexp_mono.
Example C09_pexp_mono_ex :
  monotone (fun x => pexp (N:=ER_Num SFR) x (Fin 2) false).
Proof. apply C09_pexp_mono; ex_sf. Qed.

Theorem C09_punif_mono : forall (S : SF) a b,
  a < b -> monotone (fun x => punif (N:=ER_Num S) x (Fin a) (Fin b) false).
Proof. exact punif_mono. Qed.
Print Assumptions C09_punif_mono.
Example C09_punif_mono_ex :
  monotone (fun x => punif (N:=ER_Num SFR) x (Fin 2) (Fin 5) false).
Proof. apply C09_punif_mono; ex_sf. Qed.

Theorem C09_plaplace_mono : forall (S : SF) mu s,
  0 < s -> monotone (fun x => plaplace (N:=ER_Num S) x (Fin mu) (Fin s) false).
Proof. exact plaplace_mono. Qed.
Print Assumptions C09_plaplace_mono.
Example C09_plaplace_mono_ex :
  monotone (fun x => plaplace (N:=ER_Num SFR) x (Fin 1) (Fin 2) false).
Proof. apply C09_plaplace_mono; ex_sf. Qed.

Theorem C09_plogis_mono : forall (S : SF) mu s,
  0 < s -> monotone (fun x => plogis (N:=ER_Num S) x (Fin mu) (Fin s) false).
Proof. exact plogis_mono. Qed.
Print Assumptions C09_plogis_mono.
Example C09_plogis_mono_ex :
  monotone (fun x => plogis (N:=ER_Num SFR) x (Fin 1) (Fin 2) false).
Proof. apply C09_plogis_mono; ex_sf. Qed.

Theorem C09_pcauchy_mono : forall (S : SF) mu s,
  0 < s -> monotone (fun x => pcauchy (N:=ER_Num S) x (Fin mu) (Fin s) false).
Proof. exact pcauchy_mono. Qed.
Print Assumptions C09_pcauchy_mono.
Example C09_pcauchy_mono_ex :
  monotone (fun x => pcauchy (N:=ER_Num SFR) x (Fin 1) (Fin 2) false).
Proof. apply C09_pcauchy_mono; ex_sf. Qed.

Theorem C09_pweibull_mono : forall (S : SF) k th,
  0 < (sf_eps S) -> (sf_eps S) <= k -> (sf_eps S) <= th -> monotone (fun x => pweibull
  (N:=ER_Num S) x (Fin k) (Fin th) false).
Proof. exact pweibull_mono. Qed.
Print Assumptions C09_pweibull_mono.
Example C09_pweibull_mono_ex :
  monotone (fun x => pweibull (N:=ER_Num SFR) x (Fin 2) (Fin 3) false).
Proof. apply C09_pweibull_mono; ex_sf. Qed.

Theorem C09_pnorm_mono : forall (S : SF) mu s,
  erf_spec S -> 0 < s -> monotone (fun x => pnorm (N:=ER_Num S) x (Fin mu) (Fin s) false).
Proof. exact pnorm_mono. Qed.
Print Assumptions C09_pnorm_mono.
Example C09_pnorm_mono_ex :
  monotone (fun x => pnorm (N:=ER_Num SFR) x (Fin 1) (Fin 2) false).
Proof. apply C09_pnorm_mono; ex_sf. Qed.

Theorem C09_plnorm_mono : forall (S : SF) mu s,
  erf_spec S -> 0 < (sf_eps S) -> 0 < s -> monotone (fun x => plnorm (N:=ER_Num S) x (Fin mu)
  (Fin s) false).
Proof. exact plnorm_mono. Qed.
Print Assumptions C09_plnorm_mono.
Example C09_plnorm_mono_ex :
  monotone (fun x => plnorm (N:=ER_Num SFR) x (Fin 1) (Fin 2) false).
Proof. apply C09_plnorm_mono; ex_sf. Qed.

Theorem C09_pgamma_mono : forall (S : SF) k th,
  incgamma_spec S -> 0 < (sf_eps S) -> 0 < k -> (sf_eps S) <= th -> monotone (fun x => pgamma
  (N:=ER_Num S) x (Fin k) (Fin th) false).
Proof. exact pgamma_mono. Qed.
Print Assumptions C09_pgamma_mono.
Example C09_pgamma_mono_ex :
  monotone (fun x => pgamma (N:=ER_Num SFR) x (Fin 2) (Fin 3) false).
Proof. apply C09_pgamma_mono; ex_sf. Qed.

Theorem C09_pchisq_mono : forall (S : SF) n,
  incgamma_spec S -> 0 < (sf_eps S) -> 0 < n -> monotone (fun x => pchisq (N:=ER_Num S) x (Fin
  n) false).
Proof. exact pchisq_mono. Qed.
Print Assumptions C09_pchisq_mono.
Example C09_pchisq_mono_ex :
  monotone (fun x => pchisq (N:=ER_Num SFR) x (Fin 5) false).
Proof. apply C09_pchisq_mono; ex_sf. Qed.

Theorem C09_pinvgamma_mono : forall (S : SF) a b,
  incgamma_spec S -> 0 < (sf_eps S) -> 0 < a -> 0 < b <= / (sf_eps S) -> monotone (fun x =>
  pinvgamma (N:=ER_Num S) x (Fin a) (Fin b) false).
Proof. exact pinvgamma_mono. Qed.
Print Assumptions C09_pinvgamma_mono.
Example C09_pinvgamma_mono_ex :
  monotone (fun x => pinvgamma (N:=ER_Num SFR) x (Fin 2) (Fin 3) false).
Proof. apply C09_pinvgamma_mono; ex_sf. Qed.

Theorem C09_pbeta_mono : forall (S : SF) a b,
  incbeta_spec S -> 0 < a -> 0 < b -> monotone (fun x => pbeta (N:=ER_Num S) x (Fin a) (Fin b)
  false).
Proof. exact pbeta_mono. Qed.
Print Assumptions C09_pbeta_mono.
Example C09_pbeta_mono_ex :
  monotone (fun x => pbeta (N:=ER_Num SFR) x (Fin 2) (Fin 3) false).
Proof. apply C09_pbeta_mono; ex_sf. Qed.

Theorem C09_pf_mono : forall (S : SF) d1 d2,
  incbeta_spec S -> 0 < (sf_eps S) -> (sf_eps S) <= d1 -> (sf_eps S) <= d2 -> monotone (fun x
  => pf (N:=ER_Num S) x (Fin d1) (Fin d2) false).
Proof. exact pf_mono. Qed.
Print Assumptions C09_pf_mono.
Example C09_pf_mono_ex :
  monotone (fun x => pf (N:=ER_Num SFR) x (Fin 4) (Fin 7) false).
Proof. apply C09_pf_mono; ex_sf. Qed.

Theorem C09_pt_mono : forall (S : SF) n,
  incbeta_spec S -> 0 < (sf_eps S) -> (sf_eps S) <= n -> monotone (fun x => pt (N:=ER_Num S) x
  (Fin n) false).
Proof. exact pt_mono. Qed.
Print Assumptions C09_pt_mono.
Example C09_pt_mono_ex :
  monotone (fun x => pt (N:=ER_Num SFR) x (Fin 5) false).
Proof. apply C09_pt_mono; ex_sf. Qed.

Theorem C09_pinvgauss_mono : forall (S : SF) mu l,
  erf_spec S -> 0 < mu -> 0 < l -> monotone (fun x => pinvgauss (N:=ER_Num S) x (Fin mu) (Fin
  l) false).
Proof. exact pinvgauss_mono. Qed.
Print Assumptions C09_pinvgauss_mono.
Example C09_pinvgauss_mono_ex :
  monotone (fun x => pinvgauss (N:=ER_Num SFR) x (Fin 2) (Fin 3) false).
Proof. apply C09_pinvgauss_mono; ex_sf. Qed.

Theorem C09_pbern_mono : forall (S : SF) p,
  0 <= p <= 1 -> monotone_Z (fun x => pbern (N:=ER_Num S) x (Fin p) false).
Proof. exact pbern_mono. Qed.
Print Assumptions C09_pbern_mono.
Example C09_pbern_mono_ex :
  monotone_Z (fun x => pbern (N:=ER_Num SFR) x (Fin (1/3)) false).
Proof. apply C09_pbern_mono; ex_sf. Qed.

Theorem C09_pradem_mono : forall (S : SF) p,
  0 <= p <= 1 -> monotone_Z (fun x => pradem (N:=ER_Num S) x (Fin p) false).
Proof. exact pradem_mono. Qed.
Print Assumptions C09_pradem_mono.
Example C09_pradem_mono_ex :
  monotone_Z (fun x => pradem (N:=ER_Num SFR) x (Fin (1/3)) false).
Proof. apply C09_pradem_mono; ex_sf. Qed.

Theorem C09_pbinom_mono : forall (S : SF) n p,
  (0 <= n)%Z -> 0 <= p <= 1 -> monotone_Z (fun x => pbinom (N:=ER_Num S) x n (Fin p) false).
Proof. exact pbinom_mono. Qed.
Print Assumptions C09_pbinom_mono.
Example C09_pbinom_mono_ex :
  monotone_Z (fun x => pbinom (N:=ER_Num SFR) x 7%Z (Fin (1/3)) false).
Proof. apply C09_pbinom_mono; ex_sf. Qed.

Theorem C09_ppois_mono : forall (S : SF) r,
  incgamma_spec S -> 0 <= r -> monotone_Z (fun x => ppois (N:=ER_Num S) x (Fin r) false).
Proof. exact ppois_mono. Qed.
Print Assumptions C09_ppois_mono.
Example C09_ppois_mono_ex :
  monotone_Z (fun x => ppois (N:=ER_Num SFR) x (Fin (5/2)) false).
Proof. apply C09_ppois_mono; ex_sf. Qed.
