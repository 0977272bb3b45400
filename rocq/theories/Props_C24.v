(** C24: antisymmetry of the Student-t quantile (exact arithmetic): it holds for 1, 2 and infinite
    degrees of freedom and fails for the approximation used in between. *)
From Coq Require Import Reals ZArith QArith Bool Lra Lia.
From Verif Require Import Num Sanity Prob Dens Quant ER ERTac Spec SpecER Witness.
From Verif Require Import ClosedElem RealElem LogForm Support Elem NormR Norm SpecSF GammaFn BetaFn FamR FamG FamB WitnessSF Discrete DiscreteQ Bound Sym Mono QtR QtBad InvGaussR InvGaussQ NotNan UnitMono.
Local Open Scope R_scope.

Theorem C24_qt_1_sym : forall (S : SF) p,
  0 < (sf_eps S) <= 1 -> 0 < p < 1 -> qt (N:=ER_Num S) (Fin (1 - p)) (Fin 1) = eneg (qt
  (N:=ER_Num S) (Fin p) (Fin 1)).
Proof. exact qt_1_sym. Qed.
Print Assumptions C24_qt_1_sym.
Example C24_qt_1_sym_ex :
  qt (N:=ER_Num SFR) (Fin (1 - (1/3))) (Fin 1) = eneg (qt (N:=ER_Num SFR) (Fin (1/3)) (Fin 1)).
Proof. apply C24_qt_1_sym; ex_sf. Qed.

Theorem C24_qt_2_sym : forall (S : SF) p,
  0 < (sf_eps S) <= 1 -> 0 < p < 1 -> qt (N:=ER_Num S) (Fin (1 - p)) (Fin 2) = eneg (qt
  (N:=ER_Num S) (Fin p) (Fin 2)).
Proof. exact qt_2_sym. Qed.
Print Assumptions C24_qt_2_sym.
Example C24_qt_2_sym_ex :
  qt (N:=ER_Num SFR) (Fin (1 - (1/3))) (Fin 2) = eneg (qt (N:=ER_Num SFR) (Fin (1/3)) (Fin 2)).
Proof. apply C24_qt_2_sym; ex_sf. Qed.

Theorem C24_qt_inf_sym : forall (S : SF) p,
  erf_inv_spec S -> 0 < p < 1 -> qt (N:=ER_Num S) (Fin (1 - p)) PInf = eneg (qt (N:=ER_Num S)
  (Fin p) PInf).
Proof. exact qt_inf_sym. Qed.
Print Assumptions C24_qt_inf_sym.
Example C24_qt_inf_sym_ex :
  qt (N:=ER_Num SFR) (Fin (1 - (1/3))) PInf = eneg (qt (N:=ER_Num SFR) (Fin (1/3)) PInf).
Proof. apply C24_qt_inf_sym; ex_sf. Qed.

Theorem C24_qt_3_not_sym : forall (S : SF),
  erf_inv_spec S -> 0 < (sf_eps S) <= 1 -> qt (N:=ER_Num S) (Fin (1 - norm_cdf 0 1 (- / 10)))
  (Fin 3) <> eneg (qt (N:=ER_Num S) (Fin (norm_cdf 0 1 (- / 10))) (Fin 3)).
Proof. exact qt_3_not_sym. Qed.
Print Assumptions C24_qt_3_not_sym.
Example C24_qt_3_not_sym_ex :
  qt (N:=ER_Num SFR) (Fin (1 - norm_cdf 0 1 (- / 10))) (Fin 3) <> eneg (qt (N:=ER_Num SFR) (Fin
  (norm_cdf 0 1 (- / 10))) (Fin 3)).
Proof. apply C24_qt_3_not_sym; ex_sf. Qed.

Theorem C24_qt_refuted :
  exists (S : SF) p dof, erf_inv_spec S /\ 0 < sf_eps S /\ 0 < p < 1 /\ sf_eps S <= dof /\ qt
  (N:=ER_Num S) (Fin (1 - p)) (Fin dof) <> eneg (qt (N:=ER_Num S) (Fin p) (Fin dof)).
Proof. exact qt_sym_refuted. Qed.
Print Assumptions C24_qt_refuted.
