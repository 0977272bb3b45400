(** C13: the density is the derivative of the CDF: distributions using special functions (exact
    arithmetic).  Each special function is assumed to be the function it names. *)
From Coq Require Import Reals ZArith QArith Bool Lra Lia.
From Verif Require Import Num Sanity Prob Dens Quant ER ERTac Spec SpecER Witness.
From Verif Require Import ClosedElem RealElem LogForm Support Elem NormR Norm SpecSF GammaFn BetaFn FamR FamG FamB WitnessSF Discrete DiscreteQ Bound Sym Mono QtR QtBad InvGaussR InvGaussQ NotNan UnitMono.
Local Open Scope R_scope.

Theorem C13_pnorm_density : forall (S : SF) mu s x,
  erf_spec S -> 0 < s -> density_of (fun y => pnorm (N:=ER_Num S) y (Fin mu) (Fin s) false)
  (fun y => dnorm (N:=ER_Num S) y (Fin mu) (Fin s) false) x.
Proof. exact pnorm_density. Qed.
Print Assumptions C13_pnorm_density.
Example C13_pnorm_density_ex :
  density_of (fun y => pnorm (N:=ER_Num SFR) y (Fin 1) (Fin 2) false) (fun y => dnorm
  (N:=ER_Num SFR) y (Fin 1) (Fin 2) false) 3.
Proof. apply C13_pnorm_density; ex_sf. Qed.

Theorem C13_plnorm_density : forall (S : SF) mu s x,
  erf_spec S -> 0 < (sf_eps S) -> 0 < s -> (sf_eps S) < x -> density_of (fun y => plnorm
  (N:=ER_Num S) y (Fin mu) (Fin s) false) (fun y => dlnorm (N:=ER_Num S) y (Fin mu) (Fin s)
  false) x.
Proof. exact plnorm_density. Qed.
Print Assumptions C13_plnorm_density.
Example C13_plnorm_density_ex :
  density_of (fun y => plnorm (N:=ER_Num SFR) y (Fin 1) (Fin 2) false) (fun y => dlnorm
  (N:=ER_Num SFR) y (Fin 1) (Fin 2) false) 3.
Proof. apply C13_plnorm_density; ex_sf. Qed.

Theorem C13_pgamma_density : forall (S : SF) k th x,
  lgamma_spec S -> incgamma_spec S -> 0 < (sf_eps S) -> 0 < k -> (sf_eps S) <= th -> (sf_eps S)
  < x -> density_of (fun y => pgamma (N:=ER_Num S) y (Fin k) (Fin th) false) (fun y => dgamma
  (N:=ER_Num S) y (Fin k) (Fin th) false) x.
Proof. exact pgamma_density. Qed.
Print Assumptions C13_pgamma_density.
Example C13_pgamma_density_ex :
  density_of (fun y => pgamma (N:=ER_Num SFR) y (Fin 2) (Fin 3) false) (fun y => dgamma
  (N:=ER_Num SFR) y (Fin 2) (Fin 3) false) 3.
Proof. apply C13_pgamma_density; ex_sf. Qed.

Theorem C13_pchisq_density : forall (S : SF) n x,
  lgamma_spec S -> incgamma_spec S -> 0 < (sf_eps S) -> 0 < n -> (sf_eps S) < x -> density_of
  (fun y => pchisq (N:=ER_Num S) y (Fin n) false) (fun y => dchisq (N:=ER_Num S) y (Fin n)
  false) x.
Proof. exact pchisq_density. Qed.
Print Assumptions C13_pchisq_density.
Example C13_pchisq_density_ex :
  density_of (fun y => pchisq (N:=ER_Num SFR) y (Fin 5) false) (fun y => dchisq (N:=ER_Num SFR)
  y (Fin 5) false) 3.
Proof. apply C13_pchisq_density; ex_sf. Qed.

Theorem C13_pinvgamma_density : forall (S : SF) a b x,
  lgamma_spec S -> incgamma_spec S -> 0 < (sf_eps S) -> 0 < a -> 0 < b <= / (sf_eps S) -> 0 < x
  < / (sf_eps S) -> density_of (fun y => pinvgamma (N:=ER_Num S) y (Fin a) (Fin b) false) (fun
  y => dinvgamma (N:=ER_Num S) y (Fin a) (Fin b) false) x.
Proof. exact pinvgamma_density. Qed.
Print Assumptions C13_pinvgamma_density.
Example C13_pinvgamma_density_ex :
  density_of (fun y => pinvgamma (N:=ER_Num SFR) y (Fin 2) (Fin 3) false) (fun y => dinvgamma
  (N:=ER_Num SFR) y (Fin 2) (Fin 3) false) 3.
Proof. apply C13_pinvgamma_density; ex_sf. Qed.

Theorem C13_pbeta_density : forall (S : SF) a b x,
  lgamma_spec S -> incbeta_spec S -> 0 < a -> 0 < b -> 0 < x < 1 -> density_of (fun y => pbeta
  (N:=ER_Num S) y (Fin a) (Fin b) false) (fun y => dbeta (N:=ER_Num S) y (Fin a) (Fin b) false)
  x.
Proof. exact pbeta_density. Qed.
Print Assumptions C13_pbeta_density.
Example C13_pbeta_density_ex :
  density_of (fun y => pbeta (N:=ER_Num SFR) y (Fin 2) (Fin 3) false) (fun y => dbeta
  (N:=ER_Num SFR) y (Fin 2) (Fin 3) false) (1/3).
Proof. apply C13_pbeta_density; ex_sf. Qed.

Theorem C13_pf_density : forall (S : SF) d1 d2 x,
  lgamma_spec S -> incbeta_spec S -> 0 < (sf_eps S) -> (sf_eps S) <= d1 -> (sf_eps S) <= d2 ->
  (sf_eps S) < x -> density_of (fun y => pf (N:=ER_Num S) y (Fin d1) (Fin d2) false) (fun y =>
  df (N:=ER_Num S) y (Fin d1) (Fin d2) false) x.
Proof. exact pf_density. Qed.
Print Assumptions C13_pf_density.
Example C13_pf_density_ex :
  density_of (fun y => pf (N:=ER_Num SFR) y (Fin 4) (Fin 7) false) (fun y => df (N:=ER_Num SFR)
  y (Fin 4) (Fin 7) false) 3.
Proof. apply C13_pf_density; ex_sf. Qed.

Theorem C13_pt_density : forall (S : SF) n x,
  lgamma_spec S -> incbeta_spec S -> 0 < (sf_eps S) -> (sf_eps S) <= n -> density_of (fun y =>
  pt (N:=ER_Num S) y (Fin n) false) (fun y => dt (N:=ER_Num S) y (Fin n) false) x.
Proof. exact pt_density. Qed.
Print Assumptions C13_pt_density.
Example C13_pt_density_ex :
  density_of (fun y => pt (N:=ER_Num SFR) y (Fin 5) false) (fun y => dt (N:=ER_Num SFR) y (Fin
  5) false) 3.
Proof. apply C13_pt_density; ex_sf. Qed.

Theorem C13_pinvgauss_density : forall (S : SF) mu l x,
  erf_spec S -> 0 < mu -> 0 < l -> 0 < x -> density_of (fun y => pinvgauss (N:=ER_Num S) y (Fin
  mu) (Fin l) false) (fun y => dinvgauss (N:=ER_Num S) y (Fin mu) (Fin l) false) x.
Proof. exact pinvgauss_density. Qed.
Print Assumptions C13_pinvgauss_density.
Example C13_pinvgauss_density_ex :
  density_of (fun y => pinvgauss (N:=ER_Num SFR) y (Fin 2) (Fin 3) false) (fun y => dinvgauss
  (N:=ER_Num SFR) y (Fin 2) (Fin 3) false) 3.
Proof. apply C13_pinvgauss_density; ex_sf. Qed.

(** false where the CDF is cut: below epsilon, and above 1/epsilon for the inverse gamma *)

Theorem C13_plnorm_cutoff : forall (S : SF) mu s x,
  0 < (sf_eps S) -> 0 < s -> 0 < x < (sf_eps S) -> ~ density_of (fun y => plnorm (N:=ER_Num S)
  y (Fin mu) (Fin s) false) (fun y => dlnorm (N:=ER_Num S) y (Fin mu) (Fin s) false) x.
Proof. exact plnorm_density_bad. Qed.
Print Assumptions C13_plnorm_cutoff.
Example C13_plnorm_cutoff_ex :
  ~ density_of (fun y => plnorm (N:=ER_Num SFR) y (Fin 1) (Fin 2) false) (fun y => dlnorm
  (N:=ER_Num SFR) y (Fin 1) (Fin 2) false) (/ 9007199254740992).
Proof. apply C13_plnorm_cutoff; ex_sf. Qed.

Theorem C13_pgamma_cutoff : forall (S : SF) k th x,
  lgamma_spec S -> 0 < (sf_eps S) -> 0 < k -> (sf_eps S) <= th -> 0 < x < (sf_eps S) -> ~
  density_of (fun y => pgamma (N:=ER_Num S) y (Fin k) (Fin th) false) (fun y => dgamma
  (N:=ER_Num S) y (Fin k) (Fin th) false) x.
Proof. exact pgamma_density_bad. Qed.
Print Assumptions C13_pgamma_cutoff.
Example C13_pgamma_cutoff_ex :
  ~ density_of (fun y => pgamma (N:=ER_Num SFR) y (Fin 2) (Fin 3) false) (fun y => dgamma
  (N:=ER_Num SFR) y (Fin 2) (Fin 3) false) (/ 9007199254740992).
Proof. apply C13_pgamma_cutoff; ex_sf. Qed.

Theorem C13_pchisq_cutoff : forall (S : SF) n x,
  lgamma_spec S -> 0 < (sf_eps S) -> 0 < n -> 0 < x < (sf_eps S) -> ~ density_of (fun y =>
  pchisq (N:=ER_Num S) y (Fin n) false) (fun y => dchisq (N:=ER_Num S) y (Fin n) false) x.
Proof. exact pchisq_density_bad. Qed.
Print Assumptions C13_pchisq_cutoff.
Example C13_pchisq_cutoff_ex :
  ~ density_of (fun y => pchisq (N:=ER_Num SFR) y (Fin 5) false) (fun y => dchisq (N:=ER_Num
  SFR) y (Fin 5) false) (/ 9007199254740992).
Proof. apply C13_pchisq_cutoff; ex_sf. Qed.

Theorem C13_pf_cutoff : forall (S : SF) d1 d2 x,
  lgamma_spec S -> 0 < (sf_eps S) -> (sf_eps S) <= d1 -> (sf_eps S) <= d2 -> 0 < x < (sf_eps S)
  -> ~ density_of (fun y => pf (N:=ER_Num S) y (Fin d1) (Fin d2) false) (fun y => df (N:=ER_Num
  S) y (Fin d1) (Fin d2) false) x.
Proof. exact pf_density_bad. Qed.
Print Assumptions C13_pf_cutoff.
Example C13_pf_cutoff_ex :
  ~ density_of (fun y => pf (N:=ER_Num SFR) y (Fin 4) (Fin 7) false) (fun y => df (N:=ER_Num
  SFR) y (Fin 4) (Fin 7) false) (/ 9007199254740992).
Proof. apply C13_pf_cutoff; ex_sf. Qed.

Theorem C13_pinvgamma_cutoff : forall (S : SF) a b x,
  lgamma_spec S -> 0 < (sf_eps S) -> 0 < a -> 0 < b <= / (sf_eps S) -> / (sf_eps S) < x -> ~
  density_of (fun y => pinvgamma (N:=ER_Num S) y (Fin a) (Fin b) false) (fun y => dinvgamma
  (N:=ER_Num S) y (Fin a) (Fin b) false) x.
Proof. exact pinvgamma_density_bad. Qed.
Print Assumptions C13_pinvgamma_cutoff.
Example C13_pinvgamma_cutoff_ex :
  ~ density_of (fun y => pinvgamma (N:=ER_Num SFR) y (Fin 2) (Fin 3) false) (fun y => dinvgamma
  (N:=ER_Num SFR) y (Fin 2) (Fin 3) false) 9007199254740992.
Proof. apply C13_pinvgamma_cutoff; ex_sf. Qed.

Theorem C13_pgamma_refuted :
  exists (S : SF) k th x, lgamma_spec S /\ incgamma_spec S /\ 0 < sf_eps S /\ 0 < k /\ sf_eps S
  <= th /\ 0 < x /\ ~ density_of (fun y => pgamma (N:=ER_Num S) y (Fin k) (Fin th) false) (fun
  y => dgamma (N:=ER_Num S) y (Fin k) (Fin th) false) x.
Proof. exact gamma_density_refuted. Qed.
Print Assumptions C13_pgamma_refuted.
