(** C12: the density is the derivative of the CDF: elementary distributions (exact arithmetic). *)
From Coq Require Import Reals ZArith QArith Bool Lra Lia.
From Verif Require Import Num Sanity Prob Dens Quant ER ERTac Spec SpecER Witness.
From Verif Require Import ClosedElem RealElem LogForm Support Elem NormR Norm SpecSF GammaFn BetaFn FamR FamG FamB WitnessSF Discrete DiscreteQ Bound Sym Mono QtR QtBad InvGaussR InvGaussQ NotNan UnitMono.
Local Open Scope R_scope.

Theorem C12_pexp_density : forall (S : SF) r x,
  0 < r -> 0 < x -> density_of (fun y => pexp (N:=ER_Num S) y (Fin r) false) (fun y => dexp
  (N:=ER_Num S) y (Fin r) false) x.
Proof. exact pexp_density. Qed.
Print Assumptions C12_pexp_density.
Example C12_pexp_density_ex :
  density_of (fun y => pexp (N:=ER_Num SFR) y (Fin 2) false) (fun y => dexp (N:=ER_Num SFR) y
  (Fin 2) false) 3.
Proof. apply C12_pexp_density; ex_sf. Qed.

Theorem C12_punif_density : forall (S : SF) a b x,
  a < x < b -> density_of (fun y => punif (N:=ER_Num S) y (Fin a) (Fin b) false) (fun y =>
  dunif (N:=ER_Num S) y (Fin a) (Fin b) false) x.
Proof. exact punif_density. Qed.
Print Assumptions C12_punif_density.
Example C12_punif_density_ex :
  density_of (fun y => punif (N:=ER_Num SFR) y (Fin 2) (Fin 5) false) (fun y => dunif
  (N:=ER_Num SFR) y (Fin 2) (Fin 5) false) 3.
Proof. apply C12_punif_density; ex_sf. Qed.

Theorem C12_plaplace_density : forall (S : SF) mu s x,
  0 < s -> x <> mu -> density_of (fun y => plaplace (N:=ER_Num S) y (Fin mu) (Fin s) false)
  (fun y => dlaplace (N:=ER_Num S) y (Fin mu) (Fin s) false) x.
Proof. exact plaplace_density. Qed.
Print Assumptions C12_plaplace_density.
Example C12_plaplace_density_ex :
  density_of (fun y => plaplace (N:=ER_Num SFR) y (Fin 1) (Fin 2) false) (fun y => dlaplace
  (N:=ER_Num SFR) y (Fin 1) (Fin 2) false) 3.
Proof. apply C12_plaplace_density; ex_sf. Qed.

Theorem C12_plogis_density : forall (S : SF) mu s x,
  0 < s -> density_of (fun y => plogis (N:=ER_Num S) y (Fin mu) (Fin s) false) (fun y => dlogis
  (N:=ER_Num S) y (Fin mu) (Fin s) false) x.
Proof. exact plogis_density. Qed.
Print Assumptions C12_plogis_density.
Example C12_plogis_density_ex :
  density_of (fun y => plogis (N:=ER_Num SFR) y (Fin 1) (Fin 2) false) (fun y => dlogis
  (N:=ER_Num SFR) y (Fin 1) (Fin 2) false) 3.
Proof. apply C12_plogis_density; ex_sf. Qed.

Theorem C12_pcauchy_density : forall (S : SF) mu s x,
  0 < s -> density_of (fun y => pcauchy (N:=ER_Num S) y (Fin mu) (Fin s) false) (fun y =>
  dcauchy (N:=ER_Num S) y (Fin mu) (Fin s) false) x.
Proof. exact pcauchy_density. Qed.
Print Assumptions C12_pcauchy_density.
Example C12_pcauchy_density_ex :
  density_of (fun y => pcauchy (N:=ER_Num SFR) y (Fin 1) (Fin 2) false) (fun y => dcauchy
  (N:=ER_Num SFR) y (Fin 1) (Fin 2) false) 3.
Proof. apply C12_pcauchy_density; ex_sf. Qed.

Theorem C12_pweibull_density : forall (S : SF) k th x,
  0 < (sf_eps S) -> (sf_eps S) <= k -> (sf_eps S) <= th -> (sf_eps S) < x -> density_of (fun y
  => pweibull (N:=ER_Num S) y (Fin k) (Fin th) false) (fun y => dweibull (N:=ER_Num S) y (Fin
  k) (Fin th) false) x.
Proof. exact pweibull_density. Qed.
Print Assumptions C12_pweibull_density.
Example C12_pweibull_density_ex :
  density_of (fun y => pweibull (N:=ER_Num SFR) y (Fin 2) (Fin 3) false) (fun y => dweibull
  (N:=ER_Num SFR) y (Fin 2) (Fin 3) false) 3.
Proof. apply C12_pweibull_density; ex_sf. Qed.

(** false for the Weibull distribution between 0 and epsilon, where the CDF is cut to 0 *)

Theorem C12_pweibull_cutoff : forall (S : SF) k th x,
  0 < (sf_eps S) -> (sf_eps S) <= k -> (sf_eps S) <= th -> 0 < x < (sf_eps S) -> ~ density_of
  (fun y => pweibull (N:=ER_Num S) y (Fin k) (Fin th) false) (fun y => dweibull (N:=ER_Num S) y
  (Fin k) (Fin th) false) x.
Proof. exact pweibull_density_bad. Qed.
Print Assumptions C12_pweibull_cutoff.
Example C12_pweibull_cutoff_ex :
  ~ density_of (fun y => pweibull (N:=ER_Num SFR) y (Fin 2) (Fin 3) false) (fun y => dweibull
  (N:=ER_Num SFR) y (Fin 2) (Fin 3) false) (/ 9007199254740992).
Proof. apply C12_pweibull_cutoff; ex_sf. Qed.

Theorem C12_pweibull_refuted :
  exists (S : SF) k th x, 0 < sf_eps S /\ sf_eps S <= k /\ sf_eps S <= th /\ 0 < x /\ ~
  density_of (fun y => pweibull (N:=ER_Num S) y (Fin k) (Fin th) false) (fun y => dweibull
  (N:=ER_Num S) y (Fin k) (Fin th) false) x.
Proof. exact weibull_density_refuted. Qed.
Print Assumptions C12_pweibull_refuted.
