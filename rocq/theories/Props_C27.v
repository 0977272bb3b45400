(** C27: transformed-variable identities (exact arithmetic). *)
From Coq Require Import Reals ZArith QArith Bool Lra Lia.
From Verif Require Import Num Sanity Prob Dens Quant ER ERTac Spec SpecER Witness.
From Verif Require Import ClosedElem RealElem LogForm Support Elem NormR Norm SpecSF GammaFn BetaFn FamR FamG FamB WitnessSF Discrete DiscreteQ Bound Sym Mono QtR QtBad InvGaussR InvGaussQ NotNan UnitMono.
Local Open Scope R_scope.

Theorem C27_dlnorm_dnorm : forall (S : SF) x mu s,
  0 < s -> 0 < x -> dlnorm (N:=ER_Num S) (Fin x) (Fin mu) (Fin s) false = ediv (dnorm
  (N:=ER_Num S) (Fin (ln x)) (Fin mu) (Fin s) false) (Fin x).
Proof. exact dlnorm_dnorm. Qed.
Print Assumptions C27_dlnorm_dnorm.
Example C27_dlnorm_dnorm_ex :
  dlnorm (N:=ER_Num SFR) (Fin 3) (Fin 1) (Fin 2) false = ediv (dnorm (N:=ER_Num SFR) (Fin (ln
  3)) (Fin 1) (Fin 2) false) (Fin 3).
Proof. apply C27_dlnorm_dnorm; ex_sf. Qed.

Theorem C27_plnorm_pnorm : forall (S : SF) x mu s lf,
  0 < (sf_eps S) -> 0 <= s -> (sf_eps S) <= x -> plnorm (N:=ER_Num S) (Fin x) (Fin mu) (Fin s)
  lf = pnorm (N:=ER_Num S) (Fin (ln x)) (Fin mu) (Fin s) lf.
Proof. exact plnorm_pnorm. Qed.
Print Assumptions C27_plnorm_pnorm.
Example C27_plnorm_pnorm_ex :
  plnorm (N:=ER_Num SFR) (Fin 3) (Fin 1) (Fin 2) true = pnorm (N:=ER_Num SFR) (Fin (ln 3)) (Fin
  1) (Fin 2) true.
Proof. apply C27_plnorm_pnorm; ex_sf. Qed.

Theorem C27_qlnorm_qnorm : forall (S : SF) p mu s,
  0 <= s -> 0 <= p <= 1 -> qlnorm (N:=ER_Num S) (Fin p) (Fin mu) (Fin s) = eexp (qnorm
  (N:=ER_Num S) (Fin p) (Fin mu) (Fin s)).
Proof. exact qlnorm_qnorm. Qed.
Print Assumptions C27_qlnorm_qnorm.
Example C27_qlnorm_qnorm_ex :
  qlnorm (N:=ER_Num SFR) (Fin (1/3)) (Fin 1) (Fin 2) = eexp (qnorm (N:=ER_Num SFR) (Fin (1/3))
  (Fin 1) (Fin 2)).
Proof. apply C27_qlnorm_qnorm; ex_sf. Qed.

Theorem C27_dinvgamma_dgamma : forall (S : SF) x a b,
  lgamma_spec S -> 0 < (sf_eps S) -> 0 < a -> 0 < b <= / (sf_eps S) -> 0 < x -> dinvgamma
  (N:=ER_Num S) (Fin x) (Fin a) (Fin b) false = ediv (dgamma (N:=ER_Num S) (Fin (1 / x)) (Fin
  a) (Fin (1 / b)) false) (Fin (x ^ 2)).
Proof. exact dinvgamma_dgamma. Qed.
Print Assumptions C27_dinvgamma_dgamma.
Example C27_dinvgamma_dgamma_ex :
  dinvgamma (N:=ER_Num SFR) (Fin 3) (Fin 4) (Fin 5) false = ediv (dgamma (N:=ER_Num SFR) (Fin
  (1 / 3)) (Fin 4) (Fin (1 / 5)) false) (Fin (3 ^ 2)).
Proof. apply C27_dinvgamma_dgamma; ex_sf. Qed.

Theorem C27_pinvgamma_pgamma : forall (S : SF) x a b lf,
  0 < x -> 0 < b -> 0 < a -> pinvgamma (N:=ER_Num S) (Fin x) (Fin a) (Fin b) lf = ev lf (esub
  (Fin 1) (pgamma (N:=ER_Num S) (Fin (1 / x)) (Fin a) (Fin (1 / b)) false)).
Proof. exact pinvgamma_pgamma. Qed.
Print Assumptions C27_pinvgamma_pgamma.
Example C27_pinvgamma_pgamma_ex :
  pinvgamma (N:=ER_Num SFR) (Fin 3) (Fin 4) (Fin 5) false = ev false (esub (Fin 1) (pgamma
  (N:=ER_Num SFR) (Fin (1 / 3)) (Fin 4) (Fin (1 / 5)) false)).
Proof. apply C27_pinvgamma_pgamma; ex_sf. Qed.

Theorem C27_df_dbeta : forall (S : SF) x d1 d2,
  lgamma_spec S -> 0 < (sf_eps S) -> (sf_eps S) <= d1 -> (sf_eps S) <= d2 -> 0 < x -> df
  (N:=ER_Num S) (Fin x) (Fin d1) (Fin d2) false = emul (dbeta (N:=ER_Num S) (Fin (d1 * x / (d2
  + d1 * x))) (Fin (d1 / 2)) (Fin (d2 / 2)) false) (Fin (d1 * d2 / (d2 + d1 * x) ^ 2)).
Proof. exact df_dbeta. Qed.
Print Assumptions C27_df_dbeta.
Example C27_df_dbeta_ex :
  df (N:=ER_Num SFR) (Fin 3) (Fin 4) (Fin 5) false = emul (dbeta (N:=ER_Num SFR) (Fin (4 * 3 /
  (5 + 4 * 3))) (Fin (4 / 2)) (Fin (5 / 2)) false) (Fin (4 * 5 / (5 + 4 * 3) ^ 2)).
Proof. apply C27_df_dbeta; ex_sf. Qed.

Theorem C27_pf_pbeta : forall (S : SF) x d1 d2 lf,
  0 < (sf_eps S) -> (sf_eps S) <= d1 -> (sf_eps S) <= d2 -> (sf_eps S) <= x -> pf (N:=ER_Num S)
  (Fin x) (Fin d1) (Fin d2) lf = pbeta (N:=ER_Num S) (Fin (d1 * x / (d2 + d1 * x))) (Fin (d1 /
  2)) (Fin (d2 / 2)) lf.
Proof. exact pf_pbeta. Qed.
Print Assumptions C27_pf_pbeta.
Example C27_pf_pbeta_ex :
  pf (N:=ER_Num SFR) (Fin 3) (Fin 4) (Fin 5) true = pbeta (N:=ER_Num SFR) (Fin (4 * 3 / (5 + 4
  * 3))) (Fin (4 / 2)) (Fin (5 / 2)) true.
Proof. apply C27_pf_pbeta; ex_sf. Qed.
