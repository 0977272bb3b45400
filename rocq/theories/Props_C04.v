(** C04: densities vanish outside the support (exact arithmetic). *)
From Coq Require Import Reals ZArith QArith Bool Lra Lia.
From Verif Require Import Num Sanity Prob Dens Quant ER ERTac Spec SpecER Witness.
From Verif Require Import ClosedElem LogForm Support NonNeg Degenerate Refute.
Local Open Scope R_scope.

Theorem C04_dexp_out : forall (S : SF) x rate lf,
  0 <= rate -> Elt x (Fin 0) -> dexp (N:=ER_Num S) x (Fin rate) lf = zero_form lf.
Proof. exact dexp_out. Qed.
Print Assumptions C04_dexp_out.
Example C04_dexp_out_ex :
  dexp (N:=ER_Num SF0) (Fin (-1)) (Fin 2) true = zero_form true.
Proof. apply C04_dexp_out; ex_side. Qed.

Theorem C04_dgamma_out : forall (S : SF) x k th lf,
  0 <= k -> (sf_eps S) <= th -> Elt x (Fin 0) -> dgamma (N:=ER_Num S) x (Fin k) (Fin th) lf =
  zero_form lf.
Proof. exact dgamma_out. Qed.
Print Assumptions C04_dgamma_out.
Example C04_dgamma_out_ex :
  dgamma (N:=ER_Num SF0) MInf (Fin 2) (Fin 3) false = zero_form false.
Proof. apply C04_dgamma_out; ex_side. Qed.

Theorem C04_dinvgamma_out : forall (S : SF) x k th lf,
  0 <= k -> 0 <= th -> Elt x (Fin 0) -> dinvgamma (N:=ER_Num S) x (Fin k) (Fin th) lf =
  zero_form lf.
Proof. exact dinvgamma_out. Qed.
Print Assumptions C04_dinvgamma_out.
Example C04_dinvgamma_out_ex :
  dinvgamma (N:=ER_Num SF0) (Fin (-1)) (Fin 2) (Fin 3) true = zero_form true.
Proof. apply C04_dinvgamma_out; ex_side. Qed.

Theorem C04_dchisq_out : forall (S : SF) x k lf,
  0 <= k -> Elt x (Fin 0) -> dchisq (N:=ER_Num S) x (Fin k) lf = zero_form lf.
Proof. exact dchisq_out. Qed.
Print Assumptions C04_dchisq_out.
Example C04_dchisq_out_ex :
  dchisq (N:=ER_Num SF0) (Fin (-5)) (Fin 3) false = zero_form false.
Proof. apply C04_dchisq_out; ex_side. Qed.

Theorem C04_df_out : forall (S : SF) x d1 d2 lf,
  (sf_eps S) <= d1 -> (sf_eps S) <= d2 -> Elt x (Fin 0) -> df (N:=ER_Num S) x (Fin d1) (Fin d2)
  lf = zero_form lf.
Proof. exact df_out. Qed.
Print Assumptions C04_df_out.
Example C04_df_out_ex :
  df (N:=ER_Num SF0) (Fin (-5)) (Fin 3) (Fin 4) true = zero_form true.
Proof. apply C04_df_out; ex_side. Qed.

Theorem C04_dinvgauss_out : forall (S : SF) x mu l lf,
  0 <= mu -> 0 <= l -> Elt x (Fin 0) -> dinvgauss (N:=ER_Num S) x (Fin mu) (Fin l) lf =
  zero_form lf.
Proof. exact dinvgauss_out. Qed.
Print Assumptions C04_dinvgauss_out.
Example C04_dinvgauss_out_ex :
  dinvgauss (N:=ER_Num SF0) (Fin (-5)) (Fin 3) (Fin 4) true = zero_form true.
Proof. apply C04_dinvgauss_out; ex_side. Qed.

Theorem C04_dlnorm_out : forall (S : SF) x mu s lf,
  0 <= s -> Elt x (Fin 0) -> dlnorm (N:=ER_Num S) x (Fin mu) (Fin s) lf = zero_form lf.
Proof. exact dlnorm_out. Qed.
Print Assumptions C04_dlnorm_out.
Example C04_dlnorm_out_ex :
  dlnorm (N:=ER_Num SF0) (Fin (-5)) (Fin 3) (Fin 4) false = zero_form false.
Proof. apply C04_dlnorm_out; ex_side. Qed.

Theorem C04_dweibull_out : forall (S : SF) x k th lf,
  (sf_eps S) <= k -> (sf_eps S) <= th -> Elt x (Fin 0) -> dweibull (N:=ER_Num S) x (Fin k) (Fin
  th) lf = zero_form lf.
Proof. exact dweibull_out. Qed.
Print Assumptions C04_dweibull_out.
Example C04_dweibull_out_ex :
  dweibull (N:=ER_Num SF0) MInf (Fin 3) (Fin 4) true = zero_form true.
Proof. apply C04_dweibull_out; ex_side. Qed.

Theorem C04_dbeta_out : forall (S : SF) x a b lf,
  0 <= a -> 0 <= b -> Elt x (Fin 0) \/ Elt (Fin 1) x -> dbeta (N:=ER_Num S) x (Fin a) (Fin b)
  lf = zero_form lf.
Proof. exact dbeta_out. Qed.
Print Assumptions C04_dbeta_out.
Example C04_dbeta_out_ex :
  dbeta (N:=ER_Num SF0) (Fin 2) (Fin 3) (Fin 4) true = zero_form true.
Proof. apply C04_dbeta_out; ex_side. Qed.

Theorem C04_dunif_out : forall (S : SF) x a b lf,
  a < b -> Elt x (Fin a) \/ Elt (Fin b) x -> dunif (N:=ER_Num S) x (Fin a) (Fin b) lf =
  zero_form lf.
Proof. exact dunif_out_ER. Qed.
Print Assumptions C04_dunif_out.
Example C04_dunif_out_ex :
  dunif (N:=ER_Num SF0) (Fin 7) (Fin 3) (Fin 4) true = zero_form true.
Proof. apply C04_dunif_out; ex_side. Qed.

Theorem C04_dbern_out : forall (S : SF) x pr lf,
  0 <= pr <= 1 -> x <> 0%Z -> x <> 1%Z -> dbern (N:=ER_Num S) x (Fin pr) lf = zero_form lf.
Proof. exact dbern_out. Qed.
Print Assumptions C04_dbern_out.
Example C04_dbern_out_ex :
  dbern (N:=ER_Num SF0) 2%Z (Fin (1/3)) true = zero_form true.
Proof. apply C04_dbern_out; ex_side. Qed.

Theorem C04_dradem_out : forall (S : SF) x pr lf,
  0 <= pr <= 1 -> x <> (-1)%Z -> x <> 1%Z -> dradem (N:=ER_Num S) x (Fin pr) lf = zero_form lf.
Proof. exact dradem_out. Qed.
Print Assumptions C04_dradem_out.
Example C04_dradem_out_ex :
  dradem (N:=ER_Num SF0) 0%Z (Fin (1/3)) false = zero_form false.
Proof. apply C04_dradem_out; ex_side. Qed.

Theorem C04_dbinom_out : forall (S : SF) x n pr lf,
  (0 <= n)%Z -> 0 <= pr <= 1 -> (x < 0 \/ n < x)%Z -> dbinom (N:=ER_Num S) x n (Fin pr) lf =
  zero_form lf.
Proof. exact dbinom_out. Qed.
Print Assumptions C04_dbinom_out.
Example C04_dbinom_out_ex :
  dbinom (N:=ER_Num SF0) 11%Z 10%Z (Fin (1/3)) false = zero_form false.
Proof. apply C04_dbinom_out; ex_side. Qed.

Theorem C04_dpois_out : forall (S : SF) x rate lf,
  0 <= rate -> (x < 0)%Z -> dpois (N:=ER_Num S) x (Fin rate) lf = zero_form lf.
Proof. exact dpois_out. Qed.
Print Assumptions C04_dpois_out.
Example C04_dpois_out_ex :
  dpois (N:=ER_Num SF0) (-1)%Z (Fin (5/2)) true = zero_form true.
Proof. apply C04_dpois_out; ex_side. Qed.

(** infinite arguments are outside every support *)

Theorem C04_dnorm_inf : forall (S : SF) mu s lf,
  0 <= s -> dnorm (N:=ER_Num S) PInf (Fin mu) (Fin s) lf = zero_form lf /\ dnorm (N:=ER_Num S)
  MInf (Fin mu) (Fin s) lf = zero_form lf.
Proof. exact dnorm_inf. Qed.
Print Assumptions C04_dnorm_inf.
Example C04_dnorm_inf_ex :
  dnorm (N:=ER_Num SF0) PInf (Fin 3) (Fin 2) true = zero_form true /\ dnorm (N:=ER_Num SF0)
  MInf (Fin 3) (Fin 2) true = zero_form true.
Proof. apply C04_dnorm_inf; ex_side. Qed.

Theorem C04_dlaplace_inf : forall (S : SF) mu s lf,
  0 <= s -> dlaplace (N:=ER_Num S) PInf (Fin mu) (Fin s) lf = zero_form lf /\ dlaplace
  (N:=ER_Num S) MInf (Fin mu) (Fin s) lf = zero_form lf.
Proof. exact dlaplace_inf. Qed.
Print Assumptions C04_dlaplace_inf.
Example C04_dlaplace_inf_ex :
  dlaplace (N:=ER_Num SF0) PInf (Fin 3) (Fin 2) true = zero_form true /\ dlaplace (N:=ER_Num
  SF0) MInf (Fin 3) (Fin 2) true = zero_form true.
Proof. apply C04_dlaplace_inf; ex_side. Qed.

Theorem C04_dlogis_inf : forall (S : SF) mu s lf,
  0 <= s -> dlogis (N:=ER_Num S) PInf (Fin mu) (Fin s) lf = zero_form lf /\ dlogis (N:=ER_Num
  S) MInf (Fin mu) (Fin s) lf = zero_form lf.
Proof. exact dlogis_inf. Qed.
Print Assumptions C04_dlogis_inf.
Example C04_dlogis_inf_ex :
  dlogis (N:=ER_Num SF0) PInf (Fin 3) (Fin 2) false = zero_form false /\ dlogis (N:=ER_Num SF0)
  MInf (Fin 3) (Fin 2) false = zero_form false.
Proof. apply C04_dlogis_inf; ex_side. Qed.

Theorem C04_dcauchy_inf : forall (S : SF) mu s lf,
  0 <= s -> dcauchy (N:=ER_Num S) PInf (Fin mu) (Fin s) lf = zero_form lf /\ dcauchy (N:=ER_Num
  S) MInf (Fin mu) (Fin s) lf = zero_form lf.
Proof. exact dcauchy_inf. Qed.
Print Assumptions C04_dcauchy_inf.
Example C04_dcauchy_inf_ex :
  dcauchy (N:=ER_Num SF0) PInf (Fin 3) (Fin 2) true = zero_form true /\ dcauchy (N:=ER_Num SF0)
  MInf (Fin 3) (Fin 2) true = zero_form true.
Proof. apply C04_dcauchy_inf; ex_side. Qed.

Theorem C04_dt_inf : forall (S : SF) d lf,
  (sf_eps S) <= d -> dt (N:=ER_Num S) PInf (Fin d) lf = zero_form lf /\ dt (N:=ER_Num S) MInf
  (Fin d) lf = zero_form lf.
Proof. exact dt_inf. Qed.
Print Assumptions C04_dt_inf.
Example C04_dt_inf_ex :
  dt (N:=ER_Num SF0) PInf (Fin 3) true = zero_form true /\ dt (N:=ER_Num SF0) MInf (Fin 3) true
  = zero_form true.
Proof. apply C04_dt_inf; ex_side. Qed.

Theorem C04_dchisq_inf : forall (S : SF) k lf,
  0 <= k -> dchisq (N:=ER_Num S) PInf (Fin k) lf = zero_form lf.
Proof. exact dchisq_inf. Qed.
Print Assumptions C04_dchisq_inf.
Example C04_dchisq_inf_ex :
  dchisq (N:=ER_Num SF0) PInf (Fin 3) true = zero_form true.
Proof. apply C04_dchisq_inf; ex_side. Qed.

Theorem C04_dgamma_inf : forall (S : SF) k th lf,
  0 <= k -> (sf_eps S) <= th -> dgamma (N:=ER_Num S) PInf (Fin k) (Fin th) lf = zero_form lf.
Proof. exact dgamma_inf. Qed.
Print Assumptions C04_dgamma_inf.
Example C04_dgamma_inf_ex :
  dgamma (N:=ER_Num SF0) PInf (Fin 3) (Fin 2) true = zero_form true.
Proof. apply C04_dgamma_inf; ex_side. Qed.

Theorem C04_dinvgamma_inf : forall (S : SF) k th lf,
  0 < k -> 0 <= th -> dinvgamma (N:=ER_Num S) PInf (Fin k) (Fin th) lf = zero_form lf.
Proof. exact dinvgamma_inf. Qed.
Print Assumptions C04_dinvgamma_inf.
Example C04_dinvgamma_inf_ex :
  dinvgamma (N:=ER_Num SF0) PInf (Fin 3) (Fin 2) true = zero_form true.
Proof. apply C04_dinvgamma_inf; ex_side. Qed.

Theorem C04_dinvgauss_inf : forall (S : SF) mu l lf,
  0 <= mu -> 0 <= l -> dinvgauss (N:=ER_Num S) PInf (Fin mu) (Fin l) lf = zero_form lf.
Proof. exact dinvgauss_inf. Qed.
Print Assumptions C04_dinvgauss_inf.
Example C04_dinvgauss_inf_ex :
  dinvgauss (N:=ER_Num SF0) PInf (Fin 3) (Fin 2) true = zero_form true.
Proof. apply C04_dinvgauss_inf; ex_side. Qed.

Theorem C04_dlnorm_inf : forall (S : SF) mu s lf,
  0 <= s -> dlnorm (N:=ER_Num S) PInf (Fin mu) (Fin s) lf = zero_form lf.
Proof. exact dlnorm_inf. Qed.
Print Assumptions C04_dlnorm_inf.
Example C04_dlnorm_inf_ex :
  dlnorm (N:=ER_Num SF0) PInf (Fin 3) (Fin 2) true = zero_form true.
Proof. apply C04_dlnorm_inf; ex_side. Qed.

Theorem C04_dweibull_inf : forall (S : SF) k th lf,
  (sf_eps S) <= k -> (sf_eps S) <= th -> dweibull (N:=ER_Num S) PInf (Fin k) (Fin th) lf =
  zero_form lf.
Proof. exact dweibull_inf. Qed.
Print Assumptions C04_dweibull_inf.
Example C04_dweibull_inf_ex :
  dweibull (N:=ER_Num SF0) PInf (Fin 3) (Fin 2) true = zero_form true.
Proof. apply C04_dweibull_inf; ex_side. Qed.

Theorem C04_df_inf : forall (S : SF) d1 d2 lf,
  (sf_eps S) <= d1 -> (sf_eps S) <= d2 -> 2 <= d1 -> 1 <= d2 -> df (N:=ER_Num S) PInf (Fin d1)
  (Fin d2) lf = zero_form lf.
Proof. exact df_inf. Qed.
Print Assumptions C04_df_inf.
Example C04_df_inf_ex :
  df (N:=ER_Num SF0) PInf (Fin 3) (Fin 2) true = zero_form true.
Proof. apply C04_df_inf; ex_side. Qed.

(** the F density at +inf is NaN when df1 < 2 or df2 < 1 *)

Theorem C04_df_inf_refuted :
  exists (S : SF) d1 d2 lf, 0 < sf_eps S /\ sf_eps S <= d1 /\ sf_eps S <= d2 /\ df (N:=ER_Num
  S) PInf (Fin d1) (Fin d2) lf <> zero_form lf.
Proof. exact df_out_refuted. Qed.
Print Assumptions C04_df_inf_refuted.
