(** C59: quantile functions evaluated in binary64 are monotone and never return NaN on [0,1]. *)
From Coq Require Import ZArith QArith Bool.
From Verif Require Import Num Prob Quant B64 SpecB64 B64Thm B64CR B64CR2 B64CdfBad B64QuantBad.
From Flocq Require Import IEEE754.BinarySingleNaN.
Local Open Scope Z_scope.
Local Open Scope b64_scope.


(** [b64_quantile Q]: 0 <= p <= q <= 1 gives Q p <= Q q, in the sense of IEEE 754 (so neither is NaN).
    The hypotheses on the backend are those of SpecB64.v, met by the correctly rounded functions [TFR]. *)

Theorem C59_qnorm : forall (F : TF) (mu sigma : b64), erf_inv_ok F -> b64_fin mu -> b64_pos sigma -> b64_pos (bmul (t_SQRT_2 F) sigma) -> b64_quantile (fun x => qnorm (N:=B64_Num F) x mu sigma).
Proof. exact t_qnorm. Qed.
Print Assumptions C59_qnorm.
Example C59_qnorm_ex : b64_quantile (fun x => qnorm (N:=B64_Num TFR) x (bofZ 3) (bofZ 1)).
Proof. apply (C59_qnorm TFR (bofZ 3) (bofZ 1)); ex_tf. Qed.

Theorem C59_qlnorm : forall (F : TF) (mu sigma : b64), exp_all_ok F -> erf_inv_ok F -> b64_fin mu -> b64_pos sigma -> b64_pos (bmul (t_SQRT_2 F) sigma) -> b64_quantile (fun x => qlnorm (N:=B64_Num F) x mu sigma).
Proof. exact t_qlnorm. Qed.
Print Assumptions C59_qlnorm.
Example C59_qlnorm_ex : b64_quantile (fun x => qlnorm (N:=B64_Num TFR) x (bofZ 3) (bofZ 1)).
Proof. apply (C59_qlnorm TFR (bofZ 3) (bofZ 1)); ex_tf. Qed.

Theorem C59_qcauchy : forall (F : TF) (mu sigma : b64), tan_ok F -> b64_pos (t_PI F) -> b64_fin mu -> b64_pos sigma -> b64_quantile (fun x => qcauchy (N:=B64_Num F) x mu sigma).
Proof. exact t_qcauchy. Qed.
Print Assumptions C59_qcauchy.
Example C59_qcauchy_ex : b64_quantile (fun x => qcauchy (N:=B64_Num TFR) x (bofZ 1) (bofZ 2)).
Proof. apply (C59_qcauchy TFR (bofZ 1) (bofZ 2)); ex_tf. Qed.

Theorem C59_qlaplace : forall (F : TF) (mu sigma : b64), log01_ok F -> b64_fin mu -> b64_pos sigma -> b64_quantile (fun x => qlaplace (N:=B64_Num F) x mu sigma).
Proof. exact t_qlaplace. Qed.
Print Assumptions C59_qlaplace.
Example C59_qlaplace_ex : b64_quantile (fun x => qlaplace (N:=B64_Num TFR) x (bofZ 1) (bofZ 2)).
Proof. apply (C59_qlaplace TFR (bofZ 1) (bofZ 2)); ex_tf. Qed.

Theorem C59_qlogis : forall (F : TF) (mu sigma : b64), log_ok F -> b64_fin mu -> b64_pos sigma -> b64_quantile (fun x => qlogis (N:=B64_Num F) x mu sigma).
Proof. exact t_qlogis. Qed.
Print Assumptions C59_qlogis.
Example C59_qlogis_ex : b64_quantile (fun x => qlogis (N:=B64_Num TFR) x (bofZ 1) (bofZ 2)).
Proof. apply (C59_qlogis TFR (bofZ 1) (bofZ 2)); ex_tf. Qed.

Theorem C59_qt_1 : forall (F : TF), tan_ok F -> b64_pos (t_PI F) -> b64_quantile (fun x => qt (N:=B64_Num F) x (bofZ 1)).
Proof. exact t_qt_1. Qed.
Print Assumptions C59_qt_1.
Example C59_qt_1_ex : b64_quantile (fun x => qt (N:=B64_Num TFR) x (bofZ 1)).
Proof. apply (C59_qt_1 TFR); ex_tf. Qed.

Theorem C59_qt_inf : forall (F : TF), erf_inv_ok F -> b64_pos (bmul (t_SQRT_2 F) (bofZ 1)) -> b64_quantile (fun x => qt (N:=B64_Num F) x plus_inf).
Proof. exact t_qt_inf. Qed.
Print Assumptions C59_qt_inf.
Example C59_qt_inf_ex : b64_quantile (fun x => qt (N:=B64_Num TFR) x plus_inf).
Proof. apply (C59_qt_inf TFR); ex_tf. Qed.

Theorem C59_qexp : forall (F : TF) (rate : b64), log01_ok F -> b64_pos rate -> b64_quantile (fun x => qexp (N:=B64_Num F) x rate).
Proof. exact t_qexp. Qed.
Print Assumptions C59_qexp.
Example C59_qexp_ex : b64_quantile (fun x => qexp (N:=B64_Num TFR) x (bofZ 3)).
Proof. apply (C59_qexp TFR (bofZ 3)); ex_tf. Qed.

Theorem C59_qweibull : forall (F : TF) (shape scale : b64), log1p_ok F -> pow_ok F -> big_eps shape -> big_eps scale -> b64_quantile (fun x => qweibull (N:=B64_Num F) x shape scale).
Proof. exact t_qweibull. Qed.
Print Assumptions C59_qweibull.
Example C59_qweibull_ex : b64_quantile (fun x => qweibull (N:=B64_Num TFR) x (bofZ 3) (bofZ 2)).
Proof. apply (C59_qweibull TFR (bofZ 3) (bofZ 2)); ex_tf. Qed.

Theorem C59_qgamma : forall (F : TF) (shape scale : b64), incgamma_inv_ok F -> b64_pos shape -> big_eps scale -> b64_quantile (fun x => qgamma (N:=B64_Num F) x shape scale).
Proof. exact t_qgamma. Qed.
Print Assumptions C59_qgamma.
Example C59_qgamma_ex : b64_quantile (fun x => qgamma (N:=B64_Num TFR) x (bofZ 3) (bofZ 2)).
Proof. apply (C59_qgamma TFR (bofZ 3) (bofZ 2)); ex_tf. Qed.

Theorem C59_qchisq : forall (F : TF) (dof : b64), incgamma_inv_ok F -> b64_pos dof -> b64_pos (bdiv dof (bofZ 2)) -> b64_quantile (fun x => qchisq (N:=B64_Num F) x dof).
Proof. exact t_qchisq. Qed.
Print Assumptions C59_qchisq.
Example C59_qchisq_ex : b64_quantile (fun x => qchisq (N:=B64_Num TFR) x (bofZ 3)).
Proof. apply (C59_qchisq TFR (bofZ 3)); ex_tf. Qed.

Theorem C59_qinvgamma : forall (F : TF) (shape rate : b64), incgamma_inv_ok F -> incgamma_inv_pz F -> b64_pos shape -> b64_pos rate -> b64_quantile (fun x => qinvgamma (N:=B64_Num F) x shape rate).
Proof. exact t_qinvgamma. Qed.
Print Assumptions C59_qinvgamma.
Example C59_qinvgamma_ex : b64_quantile (fun x => qinvgamma (N:=B64_Num TFR) x (bofZ 3) (bofZ 2)).
Proof. apply (C59_qinvgamma TFR (bofZ 3) (bofZ 2)); ex_tf. Qed.

Theorem C59_qbeta : forall (F : TF) (a b : b64), incbeta_inv_ok F -> b64_pos a -> b64_pos b -> b64_quantile (fun x => qbeta (N:=B64_Num F) x a b).
Proof. exact t_qbeta. Qed.
Print Assumptions C59_qbeta.
Example C59_qbeta_ex : b64_quantile (fun x => qbeta (N:=B64_Num TFR) x (bofZ 3) (bofZ 2)).
Proof. apply (C59_qbeta TFR (bofZ 3) (bofZ 2)); ex_tf. Qed.

Theorem C59_qf : forall (F : TF) (df1 df2 : b64), incbeta_inv_ok F -> big_eps df1 -> big_eps df2 -> b64_pos (bdiv (bdiv df1 (bofZ 2)) (bdiv df2 (bofZ 2))) -> b64_quantile (fun x => qf (N:=B64_Num F) x df1 df2).
Proof. exact t_qf. Qed.
Print Assumptions C59_qf.
Example C59_qf_ex : b64_quantile (fun x => qf (N:=B64_Num TFR) x (bofZ 3) (bofZ 5)).
Proof. apply (C59_qf TFR (bofZ 3) (bofZ 5)); ex_tf. Qed.

Theorem C59_qunif : forall (F : TF) (a b : b64), b64_fin a -> b64_fin b -> a ≺ b -> b64_fin (bsub b a) -> b64_quantile (fun x => qunif (N:=B64_Num F) x a b).
Proof. exact t_qunif. Qed.
Print Assumptions C59_qunif.
Example C59_qunif_ex : b64_quantile (fun x => qunif (N:=B64_Num TFR) x (bofZ 1) (bofZ 4)).
Proof. apply (C59_qunif TFR (bofZ 1) (bofZ 4)); ex_tf. Qed.

Theorem C59_qbern : forall (F : TF) (prob : b64), bofZ 0 ≤ prob -> prob ≤ bofZ 1 -> b64_quantile (fun x => qbern (N:=B64_Num F) x prob).
Proof. exact t_qbern. Qed.
Print Assumptions C59_qbern.
Example C59_qbern_ex : b64_quantile (fun x => qbern (N:=B64_Num TFR) x (blit (1#4))).
Proof. apply (C59_qbern TFR (blit (1#4))); ex_tf. Qed.

Theorem C59_qradem : forall (F : TF) (prob : b64), bofZ 0 ≤ prob -> prob ≤ bofZ 1 -> b64_quantile (fun x => qradem (N:=B64_Num F) x prob).
Proof. exact t_qradem. Qed.
Print Assumptions C59_qradem.
Example C59_qradem_ex : b64_quantile (fun x => qradem (N:=B64_Num TFR) x (blit (1#4))).
Proof. apply (C59_qradem TFR (blit (1#4))); ex_tf. Qed.

(** The binomial search needs nothing at all of the backend: it is monotone even if pbinom is not. *)

Theorem C59_qbinom : forall (F : TF) (n : Z) (prob : b64), 0 <= n <= 2 ^ 53 -> bofZ 0 ≤ prob -> prob ≤ bofZ 1 -> b64_quantile (fun x => qbinom (N:=B64_Num F) x n prob).
Proof. exact t_qbinom. Qed.
Print Assumptions C59_qbinom.
Example C59_qbinom_ex : b64_quantile (fun x => qbinom (N:=B64_Num TFR) x 10 (blit (1#4))).
Proof. apply C59_qbinom; [split; discriminate|vm_compute; reflexivity|vm_compute; reflexivity]. Qed.

Theorem C59_correctly_rounded : erf_inv_ok TFR /\ tan_ok TFR /\ log01_ok TFR /\ log1p_ok TFR /\ exp_all_ok TFR /\ incgamma_inv_ok TFR /\ incgamma_inv_pz TFR /\ incbeta_inv_ok TFR.
Proof. exact tfr_all_q. Qed.
Print Assumptions C59_correctly_rounded.
Example C59_correctly_rounded_ex : erf_inv_ok TFR.
Proof. apply C59_correctly_rounded. Qed.

(** ** Where it fails *)

Theorem C59_qt_2_refuted : forall F : TF, ~ b64_quantile (fun x => qt (N:=B64_Num F) x (bofZ 2)).
Proof. exact t_qt_2_refuted. Qed.
Print Assumptions C59_qt_2_refuted.
(** consecutive doubles near 0.123 *)
Example C59_qt_2_ex : qt_a ≺ qt_b /\ qt (N:=B64_Num TFR) qt_b (bofZ 2) ≺ qt (N:=B64_Num TFR) qt_a (bofZ 2).
Proof. destruct (qt2_dip TFR) as (_ & A & _ & B). auto. Qed.

Theorem C59_qnorm_refuted : forall F : TF, t_SQRT_2 F = sqrt2d -> t_erf_inv F (bofZ 0) = bofZ 0 -> exists sigma, b64_pos sigma /\ ~ b64_quantile (fun x => qnorm (N:=B64_Num F) x (bofZ 0) sigma).
Proof. exact t_qnorm_refuted. Qed.
Print Assumptions C59_qnorm_refuted.
(** sigma = 3 * 2^1022: the median is NaN *)
Example C59_qnorm_refuted_ex : exists sigma, b64_pos sigma /\ ~ b64_quantile (fun x => qnorm (N:=B64_Num TFX) x (bofZ 0) sigma).
Proof. apply (C59_qnorm_refuted TFX); apply b64_eq; vm_compute; reflexivity. Qed.

(** Small positive probabilities are lost: they give the value at probability zero. *)

Theorem C59_qexp_lost : forall F : TF, t_log F (bofZ 1) = bofZ 0 -> exists p, bofZ 0 ≺ p /\ Beqb (qexp (N:=B64_Num F) p (bofZ 1)) (qexp (N:=B64_Num F) (bofZ 0) (bofZ 1)) = true.
Proof. exact t_qexp_lost. Qed.
Print Assumptions C59_qexp_lost.
Example C59_qexp_lost_ex : exists p, bofZ 0 ≺ p /\ Beqb (qexp (N:=B64_Num TFX) p (bofZ 1)) (bofZ 0) = true.
Proof. destruct (C59_qexp_lost TFX eq_refl) as (p & A & B). exists p. split; [exact A|]. exact B. Qed.

Theorem C59_qnorm_lost : forall F : TF, t_SQRT_2 F = sqrt2d -> t_erf_inv F (bofZ (-1)) = minus_inf -> exists p, bofZ 0 ≺ p /\ qnorm (N:=B64_Num F) p (bofZ 0) (bofZ 1) = minus_inf.
Proof. exact t_qnorm_lost. Qed.
Print Assumptions C59_qnorm_lost.
Example C59_qnorm_lost_ex : exists p, bofZ 0 ≺ p /\ qnorm (N:=B64_Num TFX) p (bofZ 0) (bofZ 1) = minus_inf.
Proof. apply (C59_qnorm_lost TFX); apply b64_eq; vm_compute; reflexivity. Qed.
