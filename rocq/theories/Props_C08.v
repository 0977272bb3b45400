(** C08: every CDF returns a number in [0,1] for valid finite parameters and any argument
    other than NaN (exact arithmetic).  pinvgamma needs a rate of at most 1/epsilon, see C49. *)
From Coq Require Import Reals ZArith QArith Bool Lra Lia.
From Verif Require Import Num Sanity Prob Dens Quant ER ERTac Spec SpecER Witness.
From Verif Require Import ClosedElem RealElem LogForm Support Elem NormR Norm SpecSF GammaFn BetaFn FamR FamG FamB WitnessSF Discrete DiscreteQ Bound Sym Mono QtR QtBad InvGaussR InvGaussQ NotNan UnitMono.
Local Open Scope R_scope.

Theorem C08_pexp_unit : forall (S : SF) r,
  0 < r -> unit_valued (fun x => pexp (N:=ER_Num S) x (Fin r) false).
Proof. exact pexp_unit. Qed.
Print Assumptions C08_pexp_unit.
Example C08_pexp_unit_ex :
  unit_valued (fun x => pexp (N:=ER_Num SFR) x (Fin 2) false).
Proof. apply C08_pexp_unit; ex_sf. Qed.

Theorem C08_punif_unit : forall (S : SF) a b,
  a < b -> unit_valued (fun x => punif (N:=ER_Num S) x (Fin a) (Fin b) false).
Proof. exact punif_unit. Qed.
Print Assumptions C08_punif_unit.
Example C08_punif_unit_ex :
  unit_valued (fun x => punif (N:=ER_Num SFR) x (Fin 2) (Fin 5) false).
Proof. apply C08_punif_unit; ex_sf. Qed.

Theorem C08_plaplace_unit : forall (S : SF) mu s,
  0 < s -> unit_valued (fun x => plaplace (N:=ER_Num S) x (Fin mu) (Fin s) false).
Proof. exact plaplace_unit. Qed.
Print Assumptions C08_plaplace_unit.
Example C08_plaplace_unit_ex :
  unit_valued (fun x => plaplace (N:=ER_Num SFR) x (Fin 1) (Fin 2) false).
Proof. apply C08_plaplace_unit; ex_sf. Qed.

Theorem C08_plogis_unit : forall (S : SF) mu s,
  0 < s -> unit_valued (fun x => plogis (N:=ER_Num S) x (Fin mu) (Fin s) false).
Proof. exact plogis_unit. Qed.
Print Assumptions C08_plogis_unit.
Example C08_plogis_unit_ex :
  unit_valued (fun x => plogis (N:=ER_Num SFR) x (Fin 1) (Fin 2) false).
Proof. apply C08_plogis_unit; ex_sf. Qed.

Theorem C08_pcauchy_unit : forall (S : SF) mu s,
  0 < s -> unit_valued (fun x => pcauchy (N:=ER_Num S) x (Fin mu) (Fin s) false).
Proof. exact pcauchy_unit. Qed.
Print Assumptions C08_pcauchy_unit.
Example C08_pcauchy_unit_ex :
  unit_valued (fun x => pcauchy (N:=ER_Num SFR) x (Fin 1) (Fin 2) false).
Proof. apply C08_pcauchy_unit; ex_sf. Qed.

Theorem C08_pweibull_unit : forall (S : SF) k th,
  0 < (sf_eps S) -> (sf_eps S) <= k -> (sf_eps S) <= th -> unit_valued (fun x => pweibull
  (N:=ER_Num S) x (Fin k) (Fin th) false).
Proof. exact pweibull_unit. Qed.
Print Assumptions C08_pweibull_unit.
Example C08_pweibull_unit_ex :
  unit_valued (fun x => pweibull (N:=ER_Num SFR) x (Fin 2) (Fin 3) false).
Proof. apply C08_pweibull_unit; ex_sf. Qed.

Theorem C08_pnorm_unit : forall (S : SF) mu s,
  erf_spec S -> 0 < s -> unit_valued (fun x => pnorm (N:=ER_Num S) x (Fin mu) (Fin s) false).
Proof. exact pnorm_unit. Qed.
Print Assumptions C08_pnorm_unit.
Example C08_pnorm_unit_ex :
  unit_valued (fun x => pnorm (N:=ER_Num SFR) x (Fin 1) (Fin 2) false).
Proof. apply C08_pnorm_unit; ex_sf. Qed.

Theorem C08_plnorm_unit : forall (S : SF) mu s,
  erf_spec S -> 0 < (sf_eps S) -> 0 < s -> unit_valued (fun x => plnorm (N:=ER_Num S) x (Fin
  mu) (Fin s) false).
Proof. exact plnorm_unit. Qed.
Print Assumptions C08_plnorm_unit.
Example C08_plnorm_unit_ex :
  unit_valued (fun x => plnorm (N:=ER_Num SFR) x (Fin 1) (Fin 2) false).
Proof. apply C08_plnorm_unit; ex_sf. Qed.

Theorem C08_pgamma_unit : forall (S : SF) k th,
  incgamma_spec S -> 0 < (sf_eps S) -> 0 < k -> (sf_eps S) <= th -> unit_valued (fun x =>
  pgamma (N:=ER_Num S) x (Fin k) (Fin th) false).
Proof. exact pgamma_unit. Qed.
Print Assumptions C08_pgamma_unit.
Example C08_pgamma_unit_ex :
  unit_valued (fun x => pgamma (N:=ER_Num SFR) x (Fin 2) (Fin 3) false).
Proof. apply C08_pgamma_unit; ex_sf. Qed.

Theorem C08_pchisq_unit : forall (S : SF) n,
  incgamma_spec S -> 0 < (sf_eps S) -> 0 < n -> unit_valued (fun x => pchisq (N:=ER_Num S) x
  (Fin n) false).
Proof. exact pchisq_unit. Qed.
Print Assumptions C08_pchisq_unit.
Example C08_pchisq_unit_ex :
  unit_valued (fun x => pchisq (N:=ER_Num SFR) x (Fin 5) false).
Proof. apply C08_pchisq_unit; ex_sf. Qed.

Theorem C08_pinvgamma_unit : forall (S : SF) a b,
  incgamma_spec S -> 0 < (sf_eps S) -> 0 < a -> 0 < b <= / (sf_eps S) -> unit_valued (fun x =>
  pinvgamma (N:=ER_Num S) x (Fin a) (Fin b) false).
Proof. exact pinvgamma_unit. Qed.
Print Assumptions C08_pinvgamma_unit.
Example C08_pinvgamma_unit_ex :
  unit_valued (fun x => pinvgamma (N:=ER_Num SFR) x (Fin 2) (Fin 3) false).
Proof. apply C08_pinvgamma_unit; ex_sf. Qed.

Theorem C08_pbeta_unit : forall (S : SF) a b,
  incbeta_spec S -> 0 < a -> 0 < b -> unit_valued (fun x => pbeta (N:=ER_Num S) x (Fin a) (Fin
  b) false).
Proof. exact pbeta_unitv. Qed.
Print Assumptions C08_pbeta_unit.
Example C08_pbeta_unit_ex :
  unit_valued (fun x => pbeta (N:=ER_Num SFR) x (Fin 2) (Fin 3) false).
Proof. apply C08_pbeta_unit; ex_sf. Qed.

Theorem C08_pf_unit : forall (S : SF) d1 d2,
  incbeta_spec S -> 0 < (sf_eps S) -> (sf_eps S) <= d1 -> (sf_eps S) <= d2 -> unit_valued (fun
  x => pf (N:=ER_Num S) x (Fin d1) (Fin d2) false).
Proof. exact pf_unit. Qed.
Print Assumptions C08_pf_unit.
Example C08_pf_unit_ex :
  unit_valued (fun x => pf (N:=ER_Num SFR) x (Fin 4) (Fin 7) false).
Proof. apply C08_pf_unit; ex_sf. Qed.

Theorem C08_pt_unit : forall (S : SF) n,
  incbeta_spec S -> 0 < (sf_eps S) -> (sf_eps S) <= n -> unit_valued (fun x => pt (N:=ER_Num S)
  x (Fin n) false).
Proof. exact pt_unit. Qed.
Print Assumptions C08_pt_unit.
Example C08_pt_unit_ex :
  unit_valued (fun x => pt (N:=ER_Num SFR) x (Fin 5) false).
Proof. apply C08_pt_unit; ex_sf. Qed.

Theorem C08_pinvgauss_unit : forall (S : SF) mu l,
  erf_spec S -> 0 < mu -> 0 < l -> unit_valued (fun x => pinvgauss (N:=ER_Num S) x (Fin mu)
  (Fin l) false).
Proof. exact pinvgauss_unit. Qed.
Print Assumptions C08_pinvgauss_unit.
Example C08_pinvgauss_unit_ex :
  unit_valued (fun x => pinvgauss (N:=ER_Num SFR) x (Fin 2) (Fin 3) false).
Proof. apply C08_pinvgauss_unit; ex_sf. Qed.

Theorem C08_pbern_unit : forall (S : SF) p,
  0 <= p <= 1 -> unit_valued_Z (fun x => pbern (N:=ER_Num S) x (Fin p) false).
Proof. exact pbern_unit. Qed.
Print Assumptions C08_pbern_unit.
Example C08_pbern_unit_ex :
  unit_valued_Z (fun x => pbern (N:=ER_Num SFR) x (Fin (1/3)) false).
Proof. apply C08_pbern_unit; ex_sf. Qed.

Theorem C08_pradem_unit : forall (S : SF) p,
  0 <= p <= 1 -> unit_valued_Z (fun x => pradem (N:=ER_Num S) x (Fin p) false).
Proof. exact pradem_unit. Qed.
Print Assumptions C08_pradem_unit.
Example C08_pradem_unit_ex :
  unit_valued_Z (fun x => pradem (N:=ER_Num SFR) x (Fin (1/3)) false).
Proof. apply C08_pradem_unit; ex_sf. Qed.

Theorem C08_pbinom_unit : forall (S : SF) n p,
  (0 <= n)%Z -> 0 <= p <= 1 -> unit_valued_Z (fun x => pbinom (N:=ER_Num S) x n (Fin p) false).
Proof. exact pbinom_unit. Qed.
Print Assumptions C08_pbinom_unit.
Example C08_pbinom_unit_ex :
  unit_valued_Z (fun x => pbinom (N:=ER_Num SFR) x 7%Z (Fin (1/3)) false).
Proof. apply C08_pbinom_unit; ex_sf. Qed.

Theorem C08_ppois_unit : forall (S : SF) r,
  incgamma_spec S -> 0 <= r -> unit_valued_Z (fun x => ppois (N:=ER_Num S) x (Fin r) false).
Proof. exact ppois_unit. Qed.
Print Assumptions C08_ppois_unit.
Example C08_ppois_unit_ex :
  unit_valued_Z (fun x => ppois (N:=ER_Num SFR) x (Fin (5/2)) false).
Proof. apply C08_ppois_unit; ex_sf. Qed.
