(** C25: location-scale equivariance (exact arithmetic). *)
From Coq Require Import Reals ZArith QArith Bool Lra Lia.
From Verif Require Import Num Sanity Prob Dens Quant ER ERTac Spec SpecER Witness.
From Verif Require Import ClosedElem RealElem LogForm Support Elem NormR Norm SpecSF GammaFn BetaFn FamR FamG FamB WitnessSF Discrete DiscreteQ Bound Sym Mono QtR QtBad InvGaussR InvGaussQ NotNan UnitMono.
Local Open Scope R_scope.

Theorem C25_dnorm_ls : forall (S : SF) x mu s,
  0 < s -> dnorm (N:=ER_Num S) (Fin x) (Fin mu) (Fin s) false = ediv (dnorm (N:=ER_Num S) (Fin
  ((x - mu) / s)) (Fin 0) (Fin 1) false) (Fin s).
Proof. exact dnorm_ls. Qed.
Print Assumptions C25_dnorm_ls.
Example C25_dnorm_ls_ex :
  dnorm (N:=ER_Num SFR) (Fin 3) (Fin 1) (Fin 2) false = ediv (dnorm (N:=ER_Num SFR) (Fin ((3 -
  1) / 2)) (Fin 0) (Fin 1) false) (Fin 2).
Proof. apply C25_dnorm_ls; ex_sf. Qed.

Theorem C25_pnorm_ls : forall (S : SF) x mu s lf,
  0 < s -> pnorm (N:=ER_Num S) (Fin x) (Fin mu) (Fin s) lf = pnorm (N:=ER_Num S) (Fin ((x - mu)
  / s)) (Fin 0) (Fin 1) lf.
Proof. exact pnorm_ls. Qed.
Print Assumptions C25_pnorm_ls.
Example C25_pnorm_ls_ex :
  pnorm (N:=ER_Num SFR) (Fin 3) (Fin 1) (Fin 2) true = pnorm (N:=ER_Num SFR) (Fin ((3 - 1) /
  2)) (Fin 0) (Fin 1) true.
Proof. apply C25_pnorm_ls; ex_sf. Qed.

Theorem C25_qnorm_ls : forall (S : SF) p mu s,
  0 < s -> 0 < p < 1 -> qnorm (N:=ER_Num S) (Fin p) (Fin mu) (Fin s) = eadd (Fin mu) (emul (Fin
  s) (qnorm (N:=ER_Num S) (Fin p) (Fin 0) (Fin 1))).
Proof. exact qnorm_ls. Qed.
Print Assumptions C25_qnorm_ls.
Example C25_qnorm_ls_ex :
  qnorm (N:=ER_Num SFR) (Fin (1/3)) (Fin 1) (Fin 2) = eadd (Fin 1) (emul (Fin 2) (qnorm
  (N:=ER_Num SFR) (Fin (1/3)) (Fin 0) (Fin 1))).
Proof. apply C25_qnorm_ls; ex_sf. Qed.

Theorem C25_dlaplace_ls : forall (S : SF) x mu s,
  0 < s -> dlaplace (N:=ER_Num S) (Fin x) (Fin mu) (Fin s) false = ediv (dlaplace (N:=ER_Num S)
  (Fin ((x - mu) / s)) (Fin 0) (Fin 1) false) (Fin s).
Proof. exact dlaplace_ls. Qed.
Print Assumptions C25_dlaplace_ls.
Example C25_dlaplace_ls_ex :
  dlaplace (N:=ER_Num SFR) (Fin 3) (Fin 1) (Fin 2) false = ediv (dlaplace (N:=ER_Num SFR) (Fin
  ((3 - 1) / 2)) (Fin 0) (Fin 1) false) (Fin 2).
Proof. apply C25_dlaplace_ls; ex_sf. Qed.

Theorem C25_plaplace_ls : forall (S : SF) x mu s lf,
  0 < s -> plaplace (N:=ER_Num S) (Fin x) (Fin mu) (Fin s) lf = plaplace (N:=ER_Num S) (Fin ((x
  - mu) / s)) (Fin 0) (Fin 1) lf.
Proof. exact plaplace_ls. Qed.
Print Assumptions C25_plaplace_ls.
Example C25_plaplace_ls_ex :
  plaplace (N:=ER_Num SFR) (Fin 3) (Fin 1) (Fin 2) true = plaplace (N:=ER_Num SFR) (Fin ((3 -
  1) / 2)) (Fin 0) (Fin 1) true.
Proof. apply C25_plaplace_ls; ex_sf. Qed.

Theorem C25_qlaplace_ls : forall (S : SF) p mu s,
  0 < s -> 0 <= p <= 1 -> qlaplace (N:=ER_Num S) (Fin p) (Fin mu) (Fin s) = eadd (Fin mu) (emul
  (Fin s) (qlaplace (N:=ER_Num S) (Fin p) (Fin 0) (Fin 1))).
Proof. exact qlaplace_ls. Qed.
Print Assumptions C25_qlaplace_ls.
Example C25_qlaplace_ls_ex :
  qlaplace (N:=ER_Num SFR) (Fin (1/3)) (Fin 1) (Fin 2) = eadd (Fin 1) (emul (Fin 2) (qlaplace
  (N:=ER_Num SFR) (Fin (1/3)) (Fin 0) (Fin 1))).
Proof. apply C25_qlaplace_ls; ex_sf. Qed.

Theorem C25_dlogis_ls : forall (S : SF) x mu s,
  0 < s -> dlogis (N:=ER_Num S) (Fin x) (Fin mu) (Fin s) false = ediv (dlogis (N:=ER_Num S)
  (Fin ((x - mu) / s)) (Fin 0) (Fin 1) false) (Fin s).
Proof. exact dlogis_ls. Qed.
Print Assumptions C25_dlogis_ls.
Example C25_dlogis_ls_ex :
  dlogis (N:=ER_Num SFR) (Fin 3) (Fin 1) (Fin 2) false = ediv (dlogis (N:=ER_Num SFR) (Fin ((3
  - 1) / 2)) (Fin 0) (Fin 1) false) (Fin 2).
Proof. apply C25_dlogis_ls; ex_sf. Qed.

Theorem C25_plogis_ls : forall (S : SF) x mu s lf,
  0 < s -> plogis (N:=ER_Num S) (Fin x) (Fin mu) (Fin s) lf = plogis (N:=ER_Num S) (Fin ((x -
  mu) / s)) (Fin 0) (Fin 1) lf.
Proof. exact plogis_ls. Qed.
Print Assumptions C25_plogis_ls.
Example C25_plogis_ls_ex :
  plogis (N:=ER_Num SFR) (Fin 3) (Fin 1) (Fin 2) true = plogis (N:=ER_Num SFR) (Fin ((3 - 1) /
  2)) (Fin 0) (Fin 1) true.
Proof. apply C25_plogis_ls; ex_sf. Qed.

Theorem C25_qlogis_ls : forall (S : SF) p mu s,
  0 < s -> 0 <= p <= 1 -> qlogis (N:=ER_Num S) (Fin p) (Fin mu) (Fin s) = eadd (Fin mu) (emul
  (Fin s) (qlogis (N:=ER_Num S) (Fin p) (Fin 0) (Fin 1))).
Proof. exact qlogis_ls. Qed.
Print Assumptions C25_qlogis_ls.
Example C25_qlogis_ls_ex :
  qlogis (N:=ER_Num SFR) (Fin (1/3)) (Fin 1) (Fin 2) = eadd (Fin 1) (emul (Fin 2) (qlogis
  (N:=ER_Num SFR) (Fin (1/3)) (Fin 0) (Fin 1))).
Proof. apply C25_qlogis_ls; ex_sf. Qed.

Theorem C25_dcauchy_ls : forall (S : SF) x mu s,
  0 < s -> dcauchy (N:=ER_Num S) (Fin x) (Fin mu) (Fin s) false = ediv (dcauchy (N:=ER_Num S)
  (Fin ((x - mu) / s)) (Fin 0) (Fin 1) false) (Fin s).
Proof. exact dcauchy_ls. Qed.
Print Assumptions C25_dcauchy_ls.
Example C25_dcauchy_ls_ex :
  dcauchy (N:=ER_Num SFR) (Fin 3) (Fin 1) (Fin 2) false = ediv (dcauchy (N:=ER_Num SFR) (Fin
  ((3 - 1) / 2)) (Fin 0) (Fin 1) false) (Fin 2).
Proof. apply C25_dcauchy_ls; ex_sf. Qed.

Theorem C25_pcauchy_ls : forall (S : SF) x mu s lf,
  0 < s -> pcauchy (N:=ER_Num S) (Fin x) (Fin mu) (Fin s) lf = pcauchy (N:=ER_Num S) (Fin ((x -
  mu) / s)) (Fin 0) (Fin 1) lf.
Proof. exact pcauchy_ls. Qed.
Print Assumptions C25_pcauchy_ls.
Example C25_pcauchy_ls_ex :
  pcauchy (N:=ER_Num SFR) (Fin 3) (Fin 1) (Fin 2) true = pcauchy (N:=ER_Num SFR) (Fin ((3 - 1)
  / 2)) (Fin 0) (Fin 1) true.
Proof. apply C25_pcauchy_ls; ex_sf. Qed.

Theorem C25_qcauchy_ls : forall (S : SF) p mu s,
  0 < s -> 0 <= p <= 1 -> qcauchy (N:=ER_Num S) (Fin p) (Fin mu) (Fin s) = eadd (Fin mu) (emul
  (Fin s) (qcauchy (N:=ER_Num S) (Fin p) (Fin 0) (Fin 1))).
Proof. exact qcauchy_ls. Qed.
Print Assumptions C25_qcauchy_ls.
Example C25_qcauchy_ls_ex :
  qcauchy (N:=ER_Num SFR) (Fin (1/3)) (Fin 1) (Fin 2) = eadd (Fin 1) (emul (Fin 2) (qcauchy
  (N:=ER_Num SFR) (Fin (1/3)) (Fin 0) (Fin 1))).
Proof. apply C25_qcauchy_ls; ex_sf. Qed.

Theorem C25_dunif_ls : forall (S : SF) x a b,
  a < b -> dunif (N:=ER_Num S) (Fin x) (Fin a) (Fin b) false = ediv (dunif (N:=ER_Num S) (Fin
  ((x - a) / (b - a))) (Fin 0) (Fin 1) false) (Fin (b - a)).
Proof. exact dunif_ls. Qed.
Print Assumptions C25_dunif_ls.
Example C25_dunif_ls_ex :
  dunif (N:=ER_Num SFR) (Fin 3) (Fin 1) (Fin 4) false = ediv (dunif (N:=ER_Num SFR) (Fin ((3 -
  1) / (4 - 1))) (Fin 0) (Fin 1) false) (Fin (4 - 1)).
Proof. apply C25_dunif_ls; ex_sf. Qed.

Theorem C25_punif_ls : forall (S : SF) x a b lf,
  a < b -> punif (N:=ER_Num S) (Fin x) (Fin a) (Fin b) lf = punif (N:=ER_Num S) (Fin ((x - a) /
  (b - a))) (Fin 0) (Fin 1) lf.
Proof. exact punif_ls. Qed.
Print Assumptions C25_punif_ls.
Example C25_punif_ls_ex :
  punif (N:=ER_Num SFR) (Fin 3) (Fin 1) (Fin 4) true = punif (N:=ER_Num SFR) (Fin ((3 - 1) / (4
  - 1))) (Fin 0) (Fin 1) true.
Proof. apply C25_punif_ls; ex_sf. Qed.

Theorem C25_qunif_ls : forall (S : SF) p a b,
  a < b -> 0 <= p <= 1 -> qunif (N:=ER_Num S) (Fin p) (Fin a) (Fin b) = eadd (Fin a) (emul (Fin
  (b - a)) (qunif (N:=ER_Num S) (Fin p) (Fin 0) (Fin 1))).
Proof. exact qunif_ls. Qed.
Print Assumptions C25_qunif_ls.
Example C25_qunif_ls_ex :
  qunif (N:=ER_Num SFR) (Fin (1/3)) (Fin 1) (Fin 4) = eadd (Fin 1) (emul (Fin (4 - 1)) (qunif
  (N:=ER_Num SFR) (Fin (1/3)) (Fin 0) (Fin 1))).
Proof. apply C25_qunif_ls; ex_sf. Qed.

Theorem C25_qnorm_ls_ends : forall (S : SF) p mu s,
  0 < s -> p = 0 \/ p = 1 -> qnorm (N:=ER_Num S) (Fin p) (Fin mu) (Fin s) = eadd (Fin mu) (emul
  (Fin s) (qnorm (N:=ER_Num S) (Fin p) (Fin 0) (Fin 1))).
Proof. exact qnorm_ls_ends. Qed.
Print Assumptions C25_qnorm_ls_ends.
Example C25_qnorm_ls_ends_ex :
  qnorm (N:=ER_Num SFR) (Fin 0) (Fin 1) (Fin 2) = eadd (Fin 1) (emul (Fin 2) (qnorm (N:=ER_Num
  SFR) (Fin 0) (Fin 0) (Fin 1))).
Proof. apply C25_qnorm_ls_ends; ex_sf. Qed.
