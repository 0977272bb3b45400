(** C16: quantile functions are monotone, stay in the closed support and take its end points at
    p = 0 and p = 1 (exact arithmetic). *)
From Coq Require Import Reals ZArith QArith Bool Lra Lia.
From Verif Require Import Num Sanity Prob Dens Quant ER ERTac Spec SpecER Witness.
From Verif Require Import ClosedElem RealElem LogForm Support Elem NormR Norm SpecSF GammaFn BetaFn FamR FamG FamB WitnessSF Discrete DiscreteQ Bound Sym Mono QtR QtBad InvGaussR InvGaussQ NotNan UnitMono.
Local Open Scope R_scope.

Theorem C16_qexp_like : forall (S : SF) r,
  0 < r -> quantile_like (fun p => qexp (N:=ER_Num S) p (Fin r)) (Fin 0) PInf.
Proof. exact qexp_like. Qed.
Print Assumptions C16_qexp_like.
Example C16_qexp_like_ex :
  quantile_like (fun p => qexp (N:=ER_Num SFR) p (Fin 2)) (Fin 0) PInf.
Proof. apply C16_qexp_like; ex_sf. Qed.

Theorem C16_qunif_like : forall (S : SF) a b,
  a < b -> quantile_like (fun p => qunif (N:=ER_Num S) p (Fin a) (Fin b)) (Fin a) (Fin b).
Proof. exact qunif_like. Qed.
Print Assumptions C16_qunif_like.
Example C16_qunif_like_ex :
  quantile_like (fun p => qunif (N:=ER_Num SFR) p (Fin 2) (Fin 5)) (Fin 2) (Fin 5).
Proof. apply C16_qunif_like; ex_sf. Qed.

Theorem C16_qlaplace_like : forall (S : SF) mu s,
  0 < s -> quantile_like (fun p => qlaplace (N:=ER_Num S) p (Fin mu) (Fin s)) MInf PInf.
Proof. exact qlaplace_like. Qed.
Print Assumptions C16_qlaplace_like.
Example C16_qlaplace_like_ex :
  quantile_like (fun p => qlaplace (N:=ER_Num SFR) p (Fin 1) (Fin 2)) MInf PInf.
Proof. apply C16_qlaplace_like; ex_sf. Qed.

Theorem C16_qlogis_like : forall (S : SF) mu s,
  0 < s -> quantile_like (fun p => qlogis (N:=ER_Num S) p (Fin mu) (Fin s)) MInf PInf.
Proof. exact qlogis_like. Qed.
Print Assumptions C16_qlogis_like.
Example C16_qlogis_like_ex :
  quantile_like (fun p => qlogis (N:=ER_Num SFR) p (Fin 1) (Fin 2)) MInf PInf.
Proof. apply C16_qlogis_like; ex_sf. Qed.

Theorem C16_qcauchy_like : forall (S : SF) mu s,
  0 < s -> quantile_like (fun p => qcauchy (N:=ER_Num S) p (Fin mu) (Fin s)) MInf PInf.
Proof. exact qcauchy_like. Qed.
Print Assumptions C16_qcauchy_like.
Example C16_qcauchy_like_ex :
  quantile_like (fun p => qcauchy (N:=ER_Num SFR) p (Fin 1) (Fin 2)) MInf PInf.
Proof. apply C16_qcauchy_like; ex_sf. Qed.

Theorem C16_qweibull_like : forall (S : SF) k th,
  0 < (sf_eps S) -> (sf_eps S) <= k -> (sf_eps S) <= th -> quantile_like (fun p => qweibull
  (N:=ER_Num S) p (Fin k) (Fin th)) (Fin 0) PInf.
Proof. exact qweibull_like. Qed.
Print Assumptions C16_qweibull_like.
Example C16_qweibull_like_ex :
  quantile_like (fun p => qweibull (N:=ER_Num SFR) p (Fin 2) (Fin 3)) (Fin 0) PInf.
Proof. apply C16_qweibull_like; ex_sf. Qed.

Theorem C16_qnorm_like : forall (S : SF) mu s,
  erf_inv_spec S -> 0 < s -> quantile_like (fun p => qnorm (N:=ER_Num S) p (Fin mu) (Fin s))
  MInf PInf.
Proof. exact qnorm_like. Qed.
Print Assumptions C16_qnorm_like.
Example C16_qnorm_like_ex :
  quantile_like (fun p => qnorm (N:=ER_Num SFR) p (Fin 1) (Fin 2)) MInf PInf.
Proof. apply C16_qnorm_like; ex_sf. Qed.

Theorem C16_qlnorm_like : forall (S : SF) mu s,
  erf_inv_spec S -> 0 < s -> quantile_like (fun p => qlnorm (N:=ER_Num S) p (Fin mu) (Fin s))
  (Fin 0) PInf.
Proof. exact qlnorm_like. Qed.
Print Assumptions C16_qlnorm_like.
Example C16_qlnorm_like_ex :
  quantile_like (fun p => qlnorm (N:=ER_Num SFR) p (Fin 1) (Fin 2)) (Fin 0) PInf.
Proof. apply C16_qlnorm_like; ex_sf. Qed.

Theorem C16_qgamma_like : forall (S : SF) k th,
  incgamma_inv_spec S -> 0 < (sf_eps S) -> 0 < k -> (sf_eps S) <= th -> quantile_like (fun p =>
  qgamma (N:=ER_Num S) p (Fin k) (Fin th)) (Fin 0) PInf.
Proof. exact qgamma_like. Qed.
Print Assumptions C16_qgamma_like.
Example C16_qgamma_like_ex :
  quantile_like (fun p => qgamma (N:=ER_Num SFR) p (Fin 2) (Fin 3)) (Fin 0) PInf.
Proof. apply C16_qgamma_like; ex_sf. Qed.

Theorem C16_qchisq_like : forall (S : SF) n,
  incgamma_inv_spec S -> 0 < n -> quantile_like (fun p => qchisq (N:=ER_Num S) p (Fin n)) (Fin
  0) PInf.
Proof. exact qchisq_like. Qed.
Print Assumptions C16_qchisq_like.
Example C16_qchisq_like_ex :
  quantile_like (fun p => qchisq (N:=ER_Num SFR) p (Fin 5)) (Fin 0) PInf.
Proof. apply C16_qchisq_like; ex_sf. Qed.

Theorem C16_qinvgamma_like : forall (S : SF) a b,
  incgamma_inv_spec S -> 0 < a -> 0 < b -> quantile_like (fun p => qinvgamma (N:=ER_Num S) p
  (Fin a) (Fin b)) (Fin 0) PInf.
Proof. exact qinvgamma_like. Qed.
Print Assumptions C16_qinvgamma_like.
Example C16_qinvgamma_like_ex :
  quantile_like (fun p => qinvgamma (N:=ER_Num SFR) p (Fin 2) (Fin 3)) (Fin 0) PInf.
Proof. apply C16_qinvgamma_like; ex_sf. Qed.

Theorem C16_qbeta_like : forall (S : SF) a b,
  incbeta_inv_spec S -> 0 < a -> 0 < b -> quantile_like (fun p => qbeta (N:=ER_Num S) p (Fin a)
  (Fin b)) (Fin 0) (Fin 1).
Proof. exact qbeta_like. Qed.
Print Assumptions C16_qbeta_like.
Example C16_qbeta_like_ex :
  quantile_like (fun p => qbeta (N:=ER_Num SFR) p (Fin 2) (Fin 3)) (Fin 0) (Fin 1).
Proof. apply C16_qbeta_like; ex_sf. Qed.

Theorem C16_qf_like : forall (S : SF) d1 d2,
  incbeta_inv_spec S -> 0 < (sf_eps S) -> (sf_eps S) <= d1 -> (sf_eps S) <= d2 -> quantile_like
  (fun p => qf (N:=ER_Num S) p (Fin d1) (Fin d2)) (Fin 0) PInf.
Proof. exact qf_like. Qed.
Print Assumptions C16_qf_like.
Example C16_qf_like_ex :
  quantile_like (fun p => qf (N:=ER_Num SFR) p (Fin 4) (Fin 7)) (Fin 0) PInf.
Proof. apply C16_qf_like; ex_sf. Qed.

Theorem C16_qt_1_like : forall (S : SF),
  incbeta_spec S -> 0 < (sf_eps S) <= 1 -> quantile_like (fun p => qt (N:=ER_Num S) p (Fin 1))
  MInf PInf.
Proof. exact qt_1_like. Qed.
Print Assumptions C16_qt_1_like.
Example C16_qt_1_like_ex :
  quantile_like (fun p => qt (N:=ER_Num SFR) p (Fin 1)) MInf PInf.
Proof. apply C16_qt_1_like; ex_sf. Qed.

Theorem C16_qt_2_like : forall (S : SF),
  0 < (sf_eps S) <= 1 -> quantile_like (fun p => qt (N:=ER_Num S) p (Fin 2)) MInf PInf.
Proof. exact qt_2_like. Qed.
Print Assumptions C16_qt_2_like.
Example C16_qt_2_like_ex :
  quantile_like (fun p => qt (N:=ER_Num SFR) p (Fin 2)) MInf PInf.
Proof. apply C16_qt_2_like; ex_sf. Qed.

Theorem C16_qinvgauss_ends : forall (S : SF) mu l,
  0 < mu -> 0 < l -> qinvgauss (N:=ER_Num S) (Fin 0) (Fin mu) (Fin l) = Fin 0 /\ qinvgauss
  (N:=ER_Num S) (Fin 1) (Fin mu) (Fin l) = PInf.
Proof. exact qinvgauss_01. Qed.
Print Assumptions C16_qinvgauss_ends.
Example C16_qinvgauss_ends_ex :
  qinvgauss (N:=ER_Num SFR) (Fin 0) (Fin 2) (Fin 3) = Fin 0 /\ qinvgauss (N:=ER_Num SFR) (Fin
  1) (Fin 2) (Fin 3) = PInf.
Proof. apply C16_qinvgauss_ends; ex_sf. Qed.

Theorem C16_qinvgauss_support_partial : forall (S : SF) p mu l,
  erf_spec S -> 0 < mu -> 0 < l -> 0 < p < 1 -> exists q s, qinvgauss (N:=ER_Num S) (Fin p)
  (Fin mu) (Fin l) = Fin q /\ 0 < q /\ 0 < s /\ pinvgauss (N:=ER_Num S) (Fin s) (Fin mu) (Fin
  l) false = Fin p /\ (s <= q <= ig_mode mu l \/ ig_mode mu l <= q <= s) /\ (Rabs (p -
  invgauss_cdf mu l q) < sf_tmin S \/ 100 * Rabs (p - invgauss_cdf mu l q) <= invgauss_pdf mu l
  (ig_mode mu l) * Rabs (s - ig_mode mu l)).
Proof. exact qinvgauss_val. Qed.
Print Assumptions C16_qinvgauss_support_partial.
Example C16_qinvgauss_support_partial_ex :
  exists q s, qinvgauss (N:=ER_Num SFR) (Fin (1/3)) (Fin 2) (Fin 3) = Fin q /\ 0 < q /\ 0 < s
  /\ pinvgauss (N:=ER_Num SFR) (Fin s) (Fin 2) (Fin 3) false = Fin (1/3) /\ (s <= q <= ig_mode
  2 3 \/ ig_mode 2 3 <= q <= s) /\ (Rabs ((1/3) - invgauss_cdf 2 3 q) < sf_tmin SFR \/ 100 *
  Rabs ((1/3) - invgauss_cdf 2 3 q) <= invgauss_pdf 2 3 (ig_mode 2 3) * Rabs (s - ig_mode 2 3)).
Proof. apply C16_qinvgauss_support_partial; ex_sf. Qed.
