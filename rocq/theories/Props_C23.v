(** C23: symmetric distributions are symmetric (exact arithmetic). *)
From Coq Require Import Reals ZArith QArith Bool Lra Lia.
From Verif Require Import Num Sanity Prob Dens Quant ER ERTac Spec SpecER Witness.
From Verif Require Import ClosedElem RealElem LogForm Support Elem NormR Norm SpecSF GammaFn BetaFn FamR FamG FamB WitnessSF Discrete DiscreteQ Bound Sym Mono QtR QtBad InvGaussR InvGaussQ NotNan UnitMono.
Local Open Scope R_scope.

Theorem C23_dnorm_sym : forall (S : SF) mu s d lf,
  0 < s -> dnorm (N:=ER_Num S) (Fin (mu - d)) (Fin mu) (Fin s) lf = dnorm (N:=ER_Num S) (Fin
  (mu + d)) (Fin mu) (Fin s) lf.
Proof. exact dnorm_sym. Qed.
Print Assumptions C23_dnorm_sym.
Example C23_dnorm_sym_ex :
  dnorm (N:=ER_Num SFR) (Fin (1 - 3)) (Fin 1) (Fin 2) true = dnorm (N:=ER_Num SFR) (Fin (1 +
  3)) (Fin 1) (Fin 2) true.
Proof. apply C23_dnorm_sym; ex_sf. Qed.

Theorem C23_pnorm_sym : forall (S : SF) mu s d,
  erf_spec S -> 0 < s -> pnorm (N:=ER_Num S) (Fin (mu - d)) (Fin mu) (Fin s) false = esub (Fin
  1) (pnorm (N:=ER_Num S) (Fin (mu + d)) (Fin mu) (Fin s) false).
Proof. exact pnorm_sym. Qed.
Print Assumptions C23_pnorm_sym.
Example C23_pnorm_sym_ex :
  pnorm (N:=ER_Num SFR) (Fin (1 - 3)) (Fin 1) (Fin 2) false = esub (Fin 1) (pnorm (N:=ER_Num
  SFR) (Fin (1 + 3)) (Fin 1) (Fin 2) false).
Proof. apply C23_pnorm_sym; ex_sf. Qed.

Theorem C23_qnorm_sym : forall (S : SF) mu s p,
  erf_inv_spec S -> 0 < s -> 0 < p < 1 -> qnorm (N:=ER_Num S) (Fin (1 - p)) (Fin mu) (Fin s) =
  esub (Fin (2 * mu)) (qnorm (N:=ER_Num S) (Fin p) (Fin mu) (Fin s)).
Proof. exact qnorm_sym. Qed.
Print Assumptions C23_qnorm_sym.
Example C23_qnorm_sym_ex :
  qnorm (N:=ER_Num SFR) (Fin (1 - (1/3))) (Fin 1) (Fin 2) = esub (Fin (2 * 1)) (qnorm
  (N:=ER_Num SFR) (Fin (1/3)) (Fin 1) (Fin 2)).
Proof. apply C23_qnorm_sym; ex_sf. Qed.

Theorem C23_dlaplace_sym : forall (S : SF) mu s d lf,
  0 < s -> dlaplace (N:=ER_Num S) (Fin (mu - d)) (Fin mu) (Fin s) lf = dlaplace (N:=ER_Num S)
  (Fin (mu + d)) (Fin mu) (Fin s) lf.
Proof. exact dlaplace_sym. Qed.
Print Assumptions C23_dlaplace_sym.
Example C23_dlaplace_sym_ex :
  dlaplace (N:=ER_Num SFR) (Fin (1 - 3)) (Fin 1) (Fin 2) true = dlaplace (N:=ER_Num SFR) (Fin
  (1 + 3)) (Fin 1) (Fin 2) true.
Proof. apply C23_dlaplace_sym; ex_sf. Qed.

Theorem C23_plaplace_sym : forall (S : SF) mu s d,
  0 < s -> plaplace (N:=ER_Num S) (Fin (mu - d)) (Fin mu) (Fin s) false = esub (Fin 1)
  (plaplace (N:=ER_Num S) (Fin (mu + d)) (Fin mu) (Fin s) false).
Proof. exact plaplace_sym. Qed.
Print Assumptions C23_plaplace_sym.
Example C23_plaplace_sym_ex :
  plaplace (N:=ER_Num SFR) (Fin (1 - 3)) (Fin 1) (Fin 2) false = esub (Fin 1) (plaplace
  (N:=ER_Num SFR) (Fin (1 + 3)) (Fin 1) (Fin 2) false).
Proof. apply C23_plaplace_sym; ex_sf. Qed.

Theorem C23_qlaplace_sym : forall (S : SF) mu s p,
  0 < s -> 0 < p < 1 -> qlaplace (N:=ER_Num S) (Fin (1 - p)) (Fin mu) (Fin s) = esub (Fin (2 *
  mu)) (qlaplace (N:=ER_Num S) (Fin p) (Fin mu) (Fin s)).
Proof. exact qlaplace_sym. Qed.
Print Assumptions C23_qlaplace_sym.
Example C23_qlaplace_sym_ex :
  qlaplace (N:=ER_Num SFR) (Fin (1 - (1/3))) (Fin 1) (Fin 2) = esub (Fin (2 * 1)) (qlaplace
  (N:=ER_Num SFR) (Fin (1/3)) (Fin 1) (Fin 2)).
Proof. apply C23_qlaplace_sym; ex_sf. Qed.

Theorem C23_dlogis_sym : forall (S : SF) mu s d lf,
  0 < s -> dlogis (N:=ER_Num S) (Fin (mu - d)) (Fin mu) (Fin s) lf = dlogis (N:=ER_Num S) (Fin
  (mu + d)) (Fin mu) (Fin s) lf.
Proof. exact dlogis_sym. Qed.
Print Assumptions C23_dlogis_sym.
Example C23_dlogis_sym_ex :
  dlogis (N:=ER_Num SFR) (Fin (1 - 3)) (Fin 1) (Fin 2) true = dlogis (N:=ER_Num SFR) (Fin (1 +
  3)) (Fin 1) (Fin 2) true.
Proof. apply C23_dlogis_sym; ex_sf. Qed.

Theorem C23_plogis_sym : forall (S : SF) mu s d,
  0 < s -> plogis (N:=ER_Num S) (Fin (mu - d)) (Fin mu) (Fin s) false = esub (Fin 1) (plogis
  (N:=ER_Num S) (Fin (mu + d)) (Fin mu) (Fin s) false).
Proof. exact plogis_sym. Qed.
Print Assumptions C23_plogis_sym.
Example C23_plogis_sym_ex :
  plogis (N:=ER_Num SFR) (Fin (1 - 3)) (Fin 1) (Fin 2) false = esub (Fin 1) (plogis (N:=ER_Num
  SFR) (Fin (1 + 3)) (Fin 1) (Fin 2) false).
Proof. apply C23_plogis_sym; ex_sf. Qed.

Theorem C23_qlogis_sym : forall (S : SF) mu s p,
  0 < s -> 0 < p < 1 -> qlogis (N:=ER_Num S) (Fin (1 - p)) (Fin mu) (Fin s) = esub (Fin (2 *
  mu)) (qlogis (N:=ER_Num S) (Fin p) (Fin mu) (Fin s)).
Proof. exact qlogis_sym. Qed.
Print Assumptions C23_qlogis_sym.
Example C23_qlogis_sym_ex :
  qlogis (N:=ER_Num SFR) (Fin (1 - (1/3))) (Fin 1) (Fin 2) = esub (Fin (2 * 1)) (qlogis
  (N:=ER_Num SFR) (Fin (1/3)) (Fin 1) (Fin 2)).
Proof. apply C23_qlogis_sym; ex_sf. Qed.

Theorem C23_dcauchy_sym : forall (S : SF) mu s d lf,
  0 < s -> dcauchy (N:=ER_Num S) (Fin (mu - d)) (Fin mu) (Fin s) lf = dcauchy (N:=ER_Num S)
  (Fin (mu + d)) (Fin mu) (Fin s) lf.
Proof. exact dcauchy_sym. Qed.
Print Assumptions C23_dcauchy_sym.
Example C23_dcauchy_sym_ex :
  dcauchy (N:=ER_Num SFR) (Fin (1 - 3)) (Fin 1) (Fin 2) true = dcauchy (N:=ER_Num SFR) (Fin (1
  + 3)) (Fin 1) (Fin 2) true.
Proof. apply C23_dcauchy_sym; ex_sf. Qed.

Theorem C23_pcauchy_sym : forall (S : SF) mu s d,
  0 < s -> pcauchy (N:=ER_Num S) (Fin (mu - d)) (Fin mu) (Fin s) false = esub (Fin 1) (pcauchy
  (N:=ER_Num S) (Fin (mu + d)) (Fin mu) (Fin s) false).
Proof. exact pcauchy_sym. Qed.
Print Assumptions C23_pcauchy_sym.
Example C23_pcauchy_sym_ex :
  pcauchy (N:=ER_Num SFR) (Fin (1 - 3)) (Fin 1) (Fin 2) false = esub (Fin 1) (pcauchy
  (N:=ER_Num SFR) (Fin (1 + 3)) (Fin 1) (Fin 2) false).
Proof. apply C23_pcauchy_sym; ex_sf. Qed.

Theorem C23_qcauchy_sym : forall (S : SF) mu s p,
  0 < s -> 0 < p < 1 -> qcauchy (N:=ER_Num S) (Fin (1 - p)) (Fin mu) (Fin s) = esub (Fin (2 *
  mu)) (qcauchy (N:=ER_Num S) (Fin p) (Fin mu) (Fin s)).
Proof. exact qcauchy_sym. Qed.
Print Assumptions C23_qcauchy_sym.
Example C23_qcauchy_sym_ex :
  qcauchy (N:=ER_Num SFR) (Fin (1 - (1/3))) (Fin 1) (Fin 2) = esub (Fin (2 * 1)) (qcauchy
  (N:=ER_Num SFR) (Fin (1/3)) (Fin 1) (Fin 2)).
Proof. apply C23_qcauchy_sym; ex_sf. Qed.

Theorem C23_dt_sym : forall (S : SF) x n lf,
  0 < (sf_eps S) -> (sf_eps S) <= n -> dt (N:=ER_Num S) (Fin (- x)) (Fin n) lf = dt (N:=ER_Num
  S) (Fin x) (Fin n) lf.
Proof. exact dt_sym. Qed.
Print Assumptions C23_dt_sym.
Example C23_dt_sym_ex :
  dt (N:=ER_Num SFR) (Fin (- 2)) (Fin 3) true = dt (N:=ER_Num SFR) (Fin 2) (Fin 3) true.
Proof. apply C23_dt_sym; ex_sf. Qed.

Theorem C23_dt_inf_sym : forall (S : SF) x lf,
  dt (N:=ER_Num S) (Fin (- x)) PInf lf = dt (N:=ER_Num S) (Fin x) PInf lf.
Proof. exact dt_inf_sym. Qed.
Print Assumptions C23_dt_inf_sym.
Example C23_dt_inf_sym_ex :
  dt (N:=ER_Num SFR) (Fin (- 2)) PInf true = dt (N:=ER_Num SFR) (Fin 2) PInf true.
Proof. apply C23_dt_inf_sym; ex_sf. Qed.

Theorem C23_pt_sym : forall (S : SF) x n,
  incbeta_spec S -> 0 < (sf_eps S) -> (sf_eps S) <= n -> pt (N:=ER_Num S) (Fin (- x)) (Fin n)
  false = esub (Fin 1) (pt (N:=ER_Num S) (Fin x) (Fin n) false).
Proof. exact pt_sym. Qed.
Print Assumptions C23_pt_sym.
Example C23_pt_sym_ex :
  pt (N:=ER_Num SFR) (Fin (- 2)) (Fin 3) false = esub (Fin 1) (pt (N:=ER_Num SFR) (Fin 2) (Fin
  3) false).
Proof. apply C23_pt_sym; ex_sf. Qed.

Theorem C23_pt_inf_sym : forall (S : SF) x,
  erf_spec S -> pt (N:=ER_Num S) (Fin (- x)) PInf false = esub (Fin 1) (pt (N:=ER_Num S) (Fin
  x) PInf false).
Proof. exact pt_inf_sym. Qed.
Print Assumptions C23_pt_inf_sym.
Example C23_pt_inf_sym_ex :
  pt (N:=ER_Num SFR) (Fin (- 2)) PInf false = esub (Fin 1) (pt (N:=ER_Num SFR) (Fin 2) PInf
  false).
Proof. apply C23_pt_inf_sym; ex_sf. Qed.
