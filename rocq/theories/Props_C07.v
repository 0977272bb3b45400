(** C07: a density in normal form is NaN or in [0,+inf], for every argument (exact arithmetic). *)
From Coq Require Import Reals ZArith QArith Bool Lra Lia.
From Verif Require Import Num Sanity Prob Dens Quant ER ERTac Spec SpecER Witness.
From Verif Require Import ClosedElem LogForm Support NonNeg Degenerate Refute.
Local Open Scope R_scope.

Theorem C07_dnorm_nn : forall (S : SF) x mu s,
  nan_or_nonneg (dnorm (N:=ER_Num S) x mu s false).
Proof. exact dnorm_nn. Qed.
Print Assumptions C07_dnorm_nn.
Example C07_dnorm_nn_ex :
  nan_or_nonneg (dnorm (N:=ER_Num SF0) (Fin 5) (Fin 2) (Fin 3) false).
Proof. apply C07_dnorm_nn; ex_side. Qed.

Theorem C07_dlaplace_nn : forall (S : SF) x mu s,
  nan_or_nonneg (dlaplace (N:=ER_Num S) x mu s false).
Proof. exact dlaplace_nn. Qed.
Print Assumptions C07_dlaplace_nn.
Example C07_dlaplace_nn_ex :
  nan_or_nonneg (dlaplace (N:=ER_Num SF0) (Fin 5) (Fin 2) (Fin 3) false).
Proof. apply C07_dlaplace_nn; ex_side. Qed.

Theorem C07_dlogis_nn : forall (S : SF) x mu s,
  nan_or_nonneg (dlogis (N:=ER_Num S) x mu s false).
Proof. exact dlogis_nn. Qed.
Print Assumptions C07_dlogis_nn.
Example C07_dlogis_nn_ex :
  nan_or_nonneg (dlogis (N:=ER_Num SF0) (Fin 5) (Fin 2) (Fin 3) false).
Proof. apply C07_dlogis_nn; ex_side. Qed.

Theorem C07_dbeta_nn : forall (S : SF) x a b,
  nan_or_nonneg (dbeta (N:=ER_Num S) x a b false).
Proof. exact dbeta_nn. Qed.
Print Assumptions C07_dbeta_nn.
Example C07_dbeta_nn_ex :
  nan_or_nonneg (dbeta (N:=ER_Num SF0) (Fin 5) (Fin 2) (Fin 3) false).
Proof. apply C07_dbeta_nn; ex_side. Qed.

Theorem C07_dinvgamma_nn : forall (S : SF) x k r,
  nan_or_nonneg (dinvgamma (N:=ER_Num S) x k r false).
Proof. exact dinvgamma_nn. Qed.
Print Assumptions C07_dinvgamma_nn.
Example C07_dinvgamma_nn_ex :
  nan_or_nonneg (dinvgamma (N:=ER_Num SF0) (Fin 5) (Fin 2) (Fin 3) false).
Proof. apply C07_dinvgamma_nn; ex_side. Qed.

Theorem C07_dinvgauss_nn : forall (S : SF) x mu l,
  nan_or_nonneg (dinvgauss (N:=ER_Num S) x mu l false).
Proof. exact dinvgauss_nn. Qed.
Print Assumptions C07_dinvgauss_nn.
Example C07_dinvgauss_nn_ex :
  nan_or_nonneg (dinvgauss (N:=ER_Num SF0) (Fin 5) (Fin 2) (Fin 3) false).
Proof. apply C07_dinvgauss_nn; ex_side. Qed.

Theorem C07_dweibull_nn : forall (S : SF) x k th,
  nan_or_nonneg (dweibull (N:=ER_Num S) x k th false).
Proof. exact dweibull_nn. Qed.
Print Assumptions C07_dweibull_nn.
Example C07_dweibull_nn_ex :
  nan_or_nonneg (dweibull (N:=ER_Num SF0) (Fin 5) (Fin 2) (Fin 3) false).
Proof. apply C07_dweibull_nn; ex_side. Qed.

Theorem C07_dunif_nn : forall (S : SF) x lo hi,
  nan_or_nonneg (dunif (N:=ER_Num S) x lo hi false).
Proof. exact dunif_nn. Qed.
Print Assumptions C07_dunif_nn.
Example C07_dunif_nn_ex :
  nan_or_nonneg (dunif (N:=ER_Num SF0) (Fin 5) (Fin 2) (Fin 3) false).
Proof. apply C07_dunif_nn; ex_side. Qed.

Theorem C07_dcauchy_nn : forall (S : SF) x mu s,
  nan_or_nonneg (dcauchy (N:=ER_Num S) x mu s false).
Proof. exact dcauchy_nn. Qed.
Print Assumptions C07_dcauchy_nn.
Example C07_dcauchy_nn_ex :
  nan_or_nonneg (dcauchy (N:=ER_Num SF0) (Fin 5) (Fin 2) (Fin 3) false).
Proof. apply C07_dcauchy_nn; ex_side. Qed.

Theorem C07_dlnorm_nn : forall (S : SF) x mu s,
  nan_or_nonneg (dlnorm (N:=ER_Num S) x mu s false).
Proof. exact dlnorm_nn. Qed.
Print Assumptions C07_dlnorm_nn.
Example C07_dlnorm_nn_ex :
  nan_or_nonneg (dlnorm (N:=ER_Num SF0) (Fin 5) (Fin 2) (Fin 3) false).
Proof. apply C07_dlnorm_nn; ex_side. Qed.

Theorem C07_dgamma_nn : forall (S : SF) x k th,
  0 < (sf_eps S) -> nan_or_nonneg (dgamma (N:=ER_Num S) x k th false).
Proof. exact dgamma_nn. Qed.
Print Assumptions C07_dgamma_nn.
Example C07_dgamma_nn_ex :
  nan_or_nonneg (dgamma (N:=ER_Num SF0) (Fin 5) (Fin 2) (Fin 3) false).
Proof. apply C07_dgamma_nn; ex_side. Qed.

Theorem C07_df_nn : forall (S : SF) x d1 d2,
  0 < (sf_eps S) -> nan_or_nonneg (df (N:=ER_Num S) x d1 d2 false).
Proof. exact df_nn. Qed.
Print Assumptions C07_df_nn.
Example C07_df_nn_ex :
  nan_or_nonneg (df (N:=ER_Num SF0) (Fin 5) (Fin 2) (Fin 3) false).
Proof. apply C07_df_nn; ex_side. Qed.

Theorem C07_dchisq_nn : forall (S : SF) x k,
  nan_or_nonneg (dchisq (N:=ER_Num S) x k false).
Proof. exact dchisq_nn. Qed.
Print Assumptions C07_dchisq_nn.
Example C07_dchisq_nn_ex :
  nan_or_nonneg (dchisq (N:=ER_Num SF0) PInf (Fin 2) false).
Proof. apply C07_dchisq_nn; ex_side. Qed.

Theorem C07_dexp_nn : forall (S : SF) x r,
  nan_or_nonneg (dexp (N:=ER_Num S) x r false).
Proof. exact dexp_nn. Qed.
Print Assumptions C07_dexp_nn.
Example C07_dexp_nn_ex :
  nan_or_nonneg (dexp (N:=ER_Num SF0) PInf (Fin 2) false).
Proof. apply C07_dexp_nn; ex_side. Qed.

Theorem C07_dt_nn : forall (S : SF) x d,
  nan_or_nonneg (dt (N:=ER_Num S) x d false).
Proof. exact dt_nn. Qed.
Print Assumptions C07_dt_nn.
Example C07_dt_nn_ex :
  nan_or_nonneg (dt (N:=ER_Num SF0) PInf (Fin 2) false).
Proof. apply C07_dt_nn; ex_side. Qed.

Theorem C07_dpois_nn : forall (S : SF) x r,
  nan_or_nonneg (dpois (N:=ER_Num S) x r false).
Proof. exact dpois_nn. Qed.
Print Assumptions C07_dpois_nn.
Example C07_dpois_nn_ex :
  nan_or_nonneg (dpois (N:=ER_Num SF0) 3%Z (Fin 2) false).
Proof. apply C07_dpois_nn; ex_side. Qed.

Theorem C07_dbern_nn : forall (S : SF) x p,
  nan_or_nonneg (dbern (N:=ER_Num S) x p false).
Proof. exact dbern_nn. Qed.
Print Assumptions C07_dbern_nn.
Example C07_dbern_nn_ex :
  nan_or_nonneg (dbern (N:=ER_Num SF0) 1%Z (Fin (1/2)) false).
Proof. apply C07_dbern_nn; ex_side. Qed.

Theorem C07_dradem_nn : forall (S : SF) x p,
  nan_or_nonneg (dradem (N:=ER_Num S) x p false).
Proof. exact dradem_nn. Qed.
Print Assumptions C07_dradem_nn.
Example C07_dradem_nn_ex :
  nan_or_nonneg (dradem (N:=ER_Num SF0) 1%Z (Fin (1/2)) false).
Proof. apply C07_dradem_nn; ex_side. Qed.

Theorem C07_dbinom_nn : forall (S : SF) x n p,
  nan_or_nonneg (dbinom (N:=ER_Num S) x n p false).
Proof. exact dbinom_nn. Qed.
Print Assumptions C07_dbinom_nn.
Example C07_dbinom_nn_ex :
  nan_or_nonneg (dbinom (N:=ER_Num SF0) 1%Z 3%Z (Fin (1/2)) false).
Proof. apply C07_dbinom_nn; ex_side. Qed.
