(** C65: the rounding error of the quantile functions in binary64. *)
From Coq Require Import ZArith QArith Reals.
From Verif Require Import Erf GammaFn BetaFn NormR Spec SpecSF.
From Verif Require Import Num Quant B64 SpecB64 SpecAcc SpecAccQ B64CR B64AccW B64Thm8 B64AccQLow B64Thm4.
From Flocq Require Import Core IEEE754.BinarySingleNaN.
Local Open Scope R_scope.


(** Each statement compares the double returned for the probability p with the real number q at which the
    mathematical distribution function equals p.  [within d y r]: the double y is finite and differs from r by at
    most d.  [near k h y r]: y is finite and equals r * exp t + s with |t| <= k and |s| <= h.  [prob p]: a double
    strictly between 0 and 1.  The functions of the backend are arbitrary except that each one called is accurate
    to the unit e (SpecAcc.v, SpecAccQ.v); the correctly rounded functions [TFR] satisfy this with e = 2^-51. *)

(** ** Absolute error *)

Theorem C65_qunif : forall (F : TF) (e : R) (p a b : b64) (q : R), unit_ok e -> prob p -> finite a -> finite b -> B2R a < B2R b -> unif_cdf (B2R a) (B2R b) q = B2R p -> Rabs (B2R a) + (B2R b - B2R a) <= huge / 4 -> within (5 * ulp1 * (Rabs (B2R a) + (q - B2R a)) + 2 * tiny) (qunif (N:=B64_Num F) p a b) q.
Proof. exact aq_qunif. Qed.
Print Assumptions C65_qunif.
Example C65_qunif_ex : within (5 * ulp1 * (Rabs (B2R (bofZ 1)) + (2 - B2R (bofZ 1))) + 2 * tiny) (qunif (N:=B64_Num TFR) (blit (1#2)) (bofZ 1) (bofZ 3)) 2.
Proof. apply (C65_qunif TFR e2 (blit (1#2)) (bofZ 1) (bofZ 3) 2); exq. Qed.

Theorem C65_qexp : forall (F : TF) (e : R) (p rate : b64) (q : R), unit_ok e -> log_acc F e -> prob p -> positive rate -> exp_cdf (B2R rate) q = B2R p -> q <= huge / 2 -> 1 <= B2R rate * huge -> within (3 * e * q + 2 * e / B2R rate + tiny) (qexp (N:=B64_Num F) p rate) q.
Proof. exact aq_qexp. Qed.
Print Assumptions C65_qexp.
Example C65_qexp_ex : within (3 * e2 * (ln 2) + 2 * e2 / B2R (bofZ 1) + tiny) (qexp (N:=B64_Num TFR) (blit (1#2)) (bofZ 1)) (ln 2).
Proof. apply (C65_qexp TFR e2 (blit (1#2)) (bofZ 1) (ln 2)); exq. Qed.

Theorem C65_qlogis : forall (F : TF) (e : R) (p mu sigma : b64) (q : R), unit_ok e -> log_acc F e -> prob p -> / huge <= B2R p -> finite mu -> positive sigma -> logis_cdf (B2R mu) (B2R sigma) q = B2R p -> Rabs (B2R mu) + Rabs (q - B2R mu) + B2R sigma <= huge / 4 -> within (5 * e * (Rabs (B2R mu) + Rabs (q - B2R mu) + B2R sigma) + 2 * tiny) (qlogis (N:=B64_Num F) p mu sigma) q.
Proof. exact aq_qlogis. Qed.
Print Assumptions C65_qlogis.
Example C65_qlogis_ex : within (5 * e2 * (Rabs (B2R (bofZ 1)) + Rabs (1 - B2R (bofZ 1)) + B2R (bofZ 2)) + 2 * tiny) (qlogis (N:=B64_Num TFR) (blit (1#2)) (bofZ 1) (bofZ 2)) 1.
Proof. apply (C65_qlogis TFR e2 (blit (1#2)) (bofZ 1) (bofZ 2) 1); exq. Qed.

Theorem C65_qcauchy : forall (F : TF) (e : R) (p mu sigma : b64) (q : R), unit_ok e -> tan_acc F e -> const_acc e (t_PI F) PI -> prob p -> finite mu -> positive sigma -> cauchy_cdf (B2R mu) (B2R sigma) q = B2R p -> 28 * e * (Rabs (q - B2R mu) / B2R sigma) <= 1 -> Rabs (B2R mu) + 2 * Rabs (q - B2R mu) + B2R sigma <= huge / 2 -> within (3 * e * Rabs (B2R mu) + 16 * e * B2R sigma * (1 + ((q - B2R mu) / B2R sigma) ^ 2) + 2 * tiny) (qcauchy (N:=B64_Num F) p mu sigma) q.
Proof. exact aq_qcauchy. Qed.
Print Assumptions C65_qcauchy.
Example C65_qcauchy_ex : within (3 * e2 * Rabs (B2R (bofZ 1)) + 16 * e2 * B2R (bofZ 2) * (1 + ((1 - B2R (bofZ 1)) / B2R (bofZ 2)) ^ 2) + 2 * tiny) (qcauchy (N:=B64_Num TFR) (blit (1#2)) (bofZ 1) (bofZ 2)) 1.
Proof. apply (C65_qcauchy TFR e2 (blit (1#2)) (bofZ 1) (bofZ 2) 1); exq. Qed.

Theorem C65_qlaplace : forall (F : TF) (e : R) (p mu sigma : b64) (q : R), unit_ok e -> log_acc F e -> prob p -> / 4 <= B2R p -> finite mu -> positive sigma -> laplace_cdf (B2R mu) (B2R sigma) q = B2R p -> Rabs (B2R mu) + Rabs (q - B2R mu) + B2R sigma <= huge / 4 -> within (5 * e * (Rabs (B2R mu) + Rabs (q - B2R mu)) + (2 + 2 * B2R sigma) * tiny) (qlaplace (N:=B64_Num F) p mu sigma) q.
Proof. exact aq_qlaplace. Qed.
Print Assumptions C65_qlaplace.
Example C65_qlaplace_ex : within (5 * e2 * (Rabs (B2R (bofZ 1)) + Rabs (1 - B2R (bofZ 1))) + (2 + 2 * B2R (bofZ 2)) * tiny) (qlaplace (N:=B64_Num TFR) (blit (1#2)) (bofZ 1) (bofZ 2)) 1.
Proof. apply (C65_qlaplace TFR e2 (blit (1#2)) (bofZ 1) (bofZ 2) 1); exq. Qed.

Theorem C65_qnorm : forall (F : TF) (e : R) (p mu sigma : b64) (q : R), unit_ok e -> const_acc e (t_SQRT_2 F) (sqrt 2) -> erf_inv_acc F e -> prob p -> / 4 <= B2R p -> finite mu -> positive sigma -> / huge <= B2R sigma -> norm_cdf (B2R mu) (B2R sigma) q = B2R p -> Rabs (B2R mu) + Rabs (q - B2R mu) + B2R sigma <= huge / 4 -> within (8 * e * (Rabs (B2R mu) + Rabs (q - B2R mu)) + (2 + 2 * B2R sigma) * tiny) (qnorm (N:=B64_Num F) p mu sigma) q.
Proof. exact aq_qnorm. Qed.
Print Assumptions C65_qnorm.
Example C65_qnorm_ex : within (8 * e2 * (Rabs (B2R (bofZ 1)) + Rabs (1 - B2R (bofZ 1))) + (2 + 2 * B2R (bofZ 2)) * tiny) (qnorm (N:=B64_Num TFR) (blit (1#2)) (bofZ 1) (bofZ 2)) 1.
Proof. apply (C65_qnorm TFR e2 (blit (1#2)) (bofZ 1) (bofZ 2) 1); exq. Qed.

Theorem C65_qt_1 : forall (F : TF) (e : R) (p : b64) (q : R), unit_ok e -> tan_acc F e -> const_acc e (t_PI F) PI -> prob p -> t_cdf 1 q = B2R p -> 28 * e * Rabs q <= 1 -> within (13 * e * (1 + q ^ 2)) (qt (N:=B64_Num F) p (bofZ 1)) q.
Proof. exact aq_qt_1. Qed.
Print Assumptions C65_qt_1.
Example C65_qt_1_ex : within (13 * e2 * (1 + 1 ^ 2)) (qt (N:=B64_Num TFR) (blit (3#4)) (bofZ 1)) 1.
Proof. apply (C65_qt_1 TFR e2 (blit (3#4)) 1); exq. Qed.

Theorem C65_qt_inf : forall (F : TF) (e : R) (p : b64) (q : R), unit_ok e -> const_acc e (t_SQRT_2 F) (sqrt 2) -> erf_inv_acc F e -> prob p -> / 4 <= B2R p -> norm_cdf 0 1 q = B2R p -> Rabs q <= huge / 8 -> within (8 * e * Rabs q + 4 * tiny) (qt (N:=B64_Num F) p plus_inf) q.
Proof. exact aq_qt_inf. Qed.
Print Assumptions C65_qt_inf.
Example C65_qt_inf_ex : within (8 * e2 * Rabs 0 + 4 * tiny) (qt (N:=B64_Num TFR) (blit (1#2)) plus_inf) 0.
Proof. apply (C65_qt_inf TFR e2 (blit (1#2)) 0); exq. Qed.

(** ** Relative error *)

Theorem C65_qt_2 : forall (F : TF) (e : R) (p : b64) (q : R), unit_ok e -> prob p -> / huge <= B2R p -> t_cdf 2 q = B2R p -> Rabs q <= huge -> near (8 * ulp1) tiny (qt (N:=B64_Num F) p (bofZ 2)) q.
Proof. exact aq_qt_2. Qed.
Print Assumptions C65_qt_2.
Example C65_qt_2_ex : near (8 * ulp1) tiny (qt (N:=B64_Num TFR) (blit (1#2)) (bofZ 2)) 0.
Proof. apply (C65_qt_2 TFR e2 (blit (1#2)) 0); exq. Qed.

Theorem C65_qlnorm : forall (F : TF) (e : R) (p mu sigma : b64) (q : R), unit_ok e -> exp_all_acc F e -> const_acc e (t_SQRT_2 F) (sqrt 2) -> erf_inv_acc F e -> prob p -> / 4 <= B2R p -> finite mu -> positive sigma -> / huge <= B2R sigma -> 0 < q <= huge / 4 -> lnorm_cdf (B2R mu) (B2R sigma) q = B2R p -> Rabs (B2R mu) + Rabs (ln q - B2R mu) + B2R sigma <= 10000 -> near (e + 8 * e * (Rabs (B2R mu) + Rabs (ln q - B2R mu)) + (2 + 2 * B2R sigma) * tiny) tiny (qlnorm (N:=B64_Num F) p mu sigma) q.
Proof. exact aq_qlnorm. Qed.
Print Assumptions C65_qlnorm.
Example C65_qlnorm_ex : near (e2 + 8 * e2 * (Rabs (B2R (bofZ 0)) + Rabs (ln 1 - B2R (bofZ 0))) + (2 + 2 * B2R (bofZ 2)) * tiny) tiny (qlnorm (N:=B64_Num TFR) (blit (1#2)) (bofZ 0) (bofZ 2)) 1.
Proof. apply (C65_qlnorm TFR e2 (blit (1#2)) (bofZ 0) (bofZ 2) 1); exq. Qed.

Theorem C65_qweibull : forall (F : TF) (e : R) (p shape scale : b64) (q : R), unit_ok e -> log1p_acc F e -> pow_acc F e -> prob p -> / huge <= B2R p -> big_eps shape -> big_eps scale -> B2R shape <= huge -> weibull_cdf (B2R shape) (B2R scale) q = B2R p -> 0 < q -> q / B2R scale <= huge / 4 -> q <= huge / 4 -> B2R scale <= huge / 4 -> 3 * e + 3 * e / B2R shape + 3 * ulp1 * Rabs (ln (q / B2R scale)) <= / 200 -> near (3 * e + 3 * e / B2R shape + 3 * ulp1 * Rabs (ln (q / B2R scale))) ((1 + 4 * B2R scale) * tiny) (qweibull (N:=B64_Num F) p shape scale) q.
Proof. exact aq_qweibull. Qed.
Print Assumptions C65_qweibull.
Example C65_qweibull_ex : near (3 * e2 + 3 * e2 / B2R (bofZ 1) + 3 * ulp1 * Rabs (ln ((ln 2) / B2R (bofZ 1)))) ((1 + 4 * B2R (bofZ 1)) * tiny) (qweibull (N:=B64_Num TFR) (blit (1#2)) (bofZ 1) (bofZ 1)) (ln 2).
Proof. apply (C65_qweibull TFR e2 (blit (1#2)) (bofZ 1) (bofZ 1) (ln 2)); exq. Qed.

Theorem C65_qgamma : forall (F : TF) (e : R) (p shape scale : b64) (q : R), unit_ok e -> incgamma_inv_acc F e -> prob p -> positive shape -> big_eps scale -> B2R scale <= huge / 4 -> 0 < q <= huge -> q / B2R scale <= huge -> gamma_cdf (B2R shape) (B2R scale) q = B2R p -> near (e + ulp1) ((1 + 4 * B2R scale) * tiny) (qgamma (N:=B64_Num F) p shape scale) q.
Proof. exact aq_qgamma. Qed.
Print Assumptions C65_qgamma.
Example C65_qgamma_ex : near (e2 + ulp1) ((1 + 4 * B2R (bofZ 2)) * tiny) (qgamma (N:=B64_Num TFR) (blit (1#2)) (bofZ 1) (bofZ 2)) (2 * ln 2).
Proof. apply (C65_qgamma TFR e2 (blit (1#2)) (bofZ 1) (bofZ 2) (2 * ln 2)); exq. Qed.

Theorem C65_qchisq : forall (F : TF) (e : R) (p dof : b64) (q : R), unit_ok e -> incgamma_inv_acc F e -> prob p -> finite dof -> / huge <= B2R dof <= huge -> 0 < q <= huge -> chisq_cdf (B2R dof) q = B2R p -> near (e + ulp1) (9 * tiny) (qchisq (N:=B64_Num F) p dof) q.
Proof. exact aq_qchisq. Qed.
Print Assumptions C65_qchisq.
Example C65_qchisq_ex : near (e2 + ulp1) (9 * tiny) (qchisq (N:=B64_Num TFR) (blit (1#2)) (bofZ 2)) (2 * ln 2).
Proof. apply (C65_qchisq TFR e2 (blit (1#2)) (bofZ 2) (2 * ln 2)); exq. Qed.

Theorem C65_qinvgamma : forall (F : TF) (e : R) (p shape rate : b64) (q : R), unit_ok e -> incgamma_inv_acc F e -> prob p -> / 2 <= B2R p -> positive shape -> positive rate -> 0 < q <= huge -> / huge <= B2R rate / q <= huge -> invgamma_cdf (B2R shape) (B2R rate) q = B2R p -> near (e + 2 * ulp1) tiny (qinvgamma (N:=B64_Num F) p shape rate) q.
Proof. exact aq_qinvgamma. Qed.
Print Assumptions C65_qinvgamma.
Example C65_qinvgamma_ex : near (e2 + 2 * ulp1) tiny (qinvgamma (N:=B64_Num TFR) (blit (1#2)) (bofZ 1) (bofZ 2)) (2 / ln 2).
Proof. apply (C65_qinvgamma TFR e2 (blit (1#2)) (bofZ 1) (bofZ 2) (2 / ln 2)); exq. Qed.

Theorem C65_qbeta : forall (F : TF) (e : R) (p a b : b64) (q : R), unit_ok e -> incbeta_inv_acc F e -> prob p -> positive a -> positive b -> 0 < q < 1 -> beta_cdf (B2R a) (B2R b) q = B2R p -> near e tiny (qbeta (N:=B64_Num F) p a b) q.
Proof. exact aq_qbeta. Qed.
Print Assumptions C65_qbeta.
Example C65_qbeta_ex : near e2 tiny (qbeta (N:=B64_Num TFR) (blit (1#2)) (bofZ 3) (bofZ 3)) (/ 2).
Proof. apply (C65_qbeta TFR e2 (blit (1#2)) (bofZ 3) (bofZ 3) (/ 2)); exq. Qed.

Theorem C65_qf : forall (F : TF) (e : R) (p df1 df2 : b64) (q : R), unit_ok e -> incbeta_inv_acc F e -> prob p -> big_eps df1 -> big_eps df2 -> B2R df1 <= huge -> B2R df2 <= huge -> 0 < q <= huge -> / huge <= B2R df1 / B2R df2 <= huge -> / huge <= (B2R df1 * q / B2R df2) / (1 + B2R df1 * q / B2R df2) -> / huge <= B2R df1 / B2R df2 / (1 + B2R df1 * q / B2R df2) -> 10 * e * (1 + B2R df1 * q / B2R df2) <= / 200 -> f_cdf (B2R df1) (B2R df2) q = B2R p -> near (10 * e * (1 + B2R df1 * q / B2R df2)) tiny (qf (N:=B64_Num F) p df1 df2) q.
Proof. exact aq_qf. Qed.
Print Assumptions C65_qf.
Example C65_qf_ex : near (10 * e2 * (1 + B2R (bofZ 4) * 1 / B2R (bofZ 4))) tiny (qf (N:=B64_Num TFR) (blit (1#2)) (bofZ 4) (bofZ 4)) 1.
Proof. apply (C65_qf TFR e2 (blit (1#2)) (bofZ 4) (bofZ 4) 1); exq. Qed.

(** ** Bernoulli and Rademacher: exact unless p is within two units in the last place of the threshold 1 - b *)

Theorem C65_qbern : forall (F : TF) (p b : b64), prob p -> Bleb (bofZ 0) b = true -> Bleb b (bofZ 1) = true -> 2 * ulp1 * (1 - B2R b) < Rabs (B2R p - (1 - B2R b)) ->
  (1 - B2R b < B2R p -> qbern (N:=B64_Num F) p b = bofZ 1) /\ (B2R p <= 1 - B2R b -> qbern (N:=B64_Num F) p b = bofZ 0).
Proof. exact aq_qbern. Qed.
Print Assumptions C65_qbern.
Example C65_qbern_ex : qbern (N:=B64_Num TFR) (blit (3#4)) (blit (1#2)) = bofZ 1.
Proof. apply (C65_qbern TFR (blit (3#4)) (blit (1#2))); exq. Qed.

Theorem C65_qradem : forall (F : TF) (p b : b64), prob p -> Bleb (bofZ 0) b = true -> Bleb b (bofZ 1) = true -> 2 * ulp1 * (1 - B2R b) < Rabs (B2R p - (1 - B2R b)) ->
  (1 - B2R b < B2R p -> qradem (N:=B64_Num F) p b = bofZ 1) /\ (B2R p <= 1 - B2R b -> qradem (N:=B64_Num F) p b = bofZ (-1)).
Proof. exact aq_qradem. Qed.
Print Assumptions C65_qradem.
Example C65_qradem_ex : qradem (N:=B64_Num TFR) (blit (3#4)) (blit (1#2)) = bofZ 1.
Proof. apply (C65_qradem TFR (blit (3#4)) (blit (1#2))); exq. Qed.

(** The correctly rounded functions satisfy every hypothesis. *)

Theorem C65_correctly_rounded : unit_ok e2 /\ log_acc TFR e2 /\ log1p_acc TFR e2 /\ exp_all_acc TFR e2 /\ pow_acc TFR e2 /\ tan_acc TFR e2 /\ erf_inv_acc TFR e2 /\ incgamma_inv_acc TFR e2 /\
  incbeta_inv_acc TFR e2 /\ const_acc e2 (t_SQRT_2 TFR) (sqrt 2) /\ const_acc e2 (t_PI TFR) PI.
Proof. exact tfr_all_q. Qed.
Print Assumptions C65_correctly_rounded.
Example C65_correctly_rounded_ex : e2 = 2 * ulp1.
Proof. reflexivity. Qed.

(** ** Every probability, for the families whose code computes 2p - 1 or p - 1/2 *)

(** The value returned for p is accurate for a probability r that differs from p by at most 2^-52 (2^-51 for
    Laplace); the alternative is that p is smaller than that and the lower end of the support is returned. *)

Theorem C65_qnorm_next : forall (F : TF) (e : R) (p mu sigma : b64), unit_ok e -> const_acc e (t_SQRT_2 F) (sqrt 2) -> erf_inv_acc F e -> t_erf_inv F (bofZ (-1)) = minus_inf -> prob p -> finite mu -> positive sigma -> / huge <= B2R sigma <= huge / 4 -> (B2R p <= ulp1 /\ qnorm (N:=B64_Num F) p mu sigma = minus_inf) \/ exists r : R, 0 < r < 1 /\ Rabs (r - B2R p) <= ulp1 /\ forall q : R, norm_cdf (B2R mu) (B2R sigma) q = r -> Rabs (B2R mu) + Rabs (q - B2R mu) + B2R sigma <= huge / 4 -> within (8 * e * (Rabs (B2R mu) + Rabs (q - B2R mu)) + (2 + 2 * B2R sigma) * tiny) (qnorm (N:=B64_Num F) p mu sigma) q.
Proof. exact aq_qnorm_next. Qed.
Print Assumptions C65_qnorm_next.
Example C65_qnorm_next_ex : exists r : R, 0 < r < 1 /\ Rabs (r - B2R (blit (1#8))) <= ulp1 /\ forall q : R, norm_cdf (B2R (bofZ 1)) (B2R (bofZ 2)) q = r -> Rabs (B2R (bofZ 1)) + Rabs (q - B2R (bofZ 1)) + B2R (bofZ 2) <= huge / 4 -> within (8 * e2 * (Rabs (B2R (bofZ 1)) + Rabs (q - B2R (bofZ 1))) + (2 + 2 * B2R (bofZ 2)) * tiny) (qnorm (N:=B64_Num TFR) (blit (1#8)) (bofZ 1) (bofZ 2)) q.
Proof. destruct (C65_qnorm_next TFR e2 (blit (1#8)) (bofZ 1) (bofZ 2)) as [[H _]|H]; [exlow..|now apply e8_big1 in H|exact H]. Qed.

Theorem C65_qlnorm_next : forall (F : TF) (e : R) (p mu sigma : b64), unit_ok e -> exp_all_acc F e -> const_acc e (t_SQRT_2 F) (sqrt 2) -> erf_inv_acc F e -> t_erf_inv F (bofZ (-1)) = minus_inf -> t_exp F minus_inf = bofZ 0 -> prob p -> finite mu -> positive sigma -> / huge <= B2R sigma <= huge / 4 -> (B2R p <= ulp1 /\ qlnorm (N:=B64_Num F) p mu sigma = bofZ 0) \/ exists r : R, 0 < r < 1 /\ Rabs (r - B2R p) <= ulp1 /\ forall q : R, 0 < q <= huge / 4 -> lnorm_cdf (B2R mu) (B2R sigma) q = r -> Rabs (B2R mu) + Rabs (ln q - B2R mu) + B2R sigma <= 10000 -> near (e + 8 * e * (Rabs (B2R mu) + Rabs (ln q - B2R mu)) + (2 + 2 * B2R sigma) * tiny) tiny (qlnorm (N:=B64_Num F) p mu sigma) q.
Proof. exact aq_qlnorm_next. Qed.
Print Assumptions C65_qlnorm_next.
Example C65_qlnorm_next_ex : exists r : R, 0 < r < 1 /\ Rabs (r - B2R (blit (1#8))) <= ulp1 /\ forall q : R, 0 < q <= huge / 4 -> lnorm_cdf (B2R (bofZ 0)) (B2R (bofZ 2)) q = r -> Rabs (B2R (bofZ 0)) + Rabs (ln q - B2R (bofZ 0)) + B2R (bofZ 2) <= 10000 -> near (e2 + 8 * e2 * (Rabs (B2R (bofZ 0)) + Rabs (ln q - B2R (bofZ 0))) + (2 + 2 * B2R (bofZ 2)) * tiny) tiny (qlnorm (N:=B64_Num TFR) (blit (1#8)) (bofZ 0) (bofZ 2)) q.
Proof. destruct (C65_qlnorm_next TFR e2 (blit (1#8)) (bofZ 0) (bofZ 2)) as [[H _]|H]; [exlow..|now apply e8_big1 in H|exact H]. Qed.

Theorem C65_qt_inf_next : forall (F : TF) (e : R) (p : b64), unit_ok e -> const_acc e (t_SQRT_2 F) (sqrt 2) -> erf_inv_acc F e -> t_erf_inv F (bofZ (-1)) = minus_inf -> prob p -> (B2R p <= ulp1 /\ qt (N:=B64_Num F) p plus_inf = minus_inf) \/ exists r : R, 0 < r < 1 /\ Rabs (r - B2R p) <= ulp1 /\ forall q : R, norm_cdf 0 1 q = r -> Rabs q <= huge / 8 -> within (8 * e * Rabs q + 4 * tiny) (qt (N:=B64_Num F) p plus_inf) q.
Proof. exact aq_qt_inf_next. Qed.
Print Assumptions C65_qt_inf_next.
Example C65_qt_inf_next_ex : exists r : R, 0 < r < 1 /\ Rabs (r - B2R (blit (1#8))) <= ulp1 /\ forall q : R, norm_cdf 0 1 q = r -> Rabs q <= huge / 8 -> within (8 * e2 * Rabs q + 4 * tiny) (qt (N:=B64_Num TFR) (blit (1#8)) plus_inf) q.
Proof. destruct (C65_qt_inf_next TFR e2 (blit (1#8))) as [[H _]|H]; [exlow..|now apply e8_big1 in H|exact H]. Qed.

Theorem C65_qlaplace_next : forall (F : TF) (e : R) (p mu sigma : b64), unit_ok e -> log_acc F e -> t_log F (bofZ 0) = minus_inf -> prob p -> finite mu -> positive sigma -> B2R sigma <= huge / 4 -> (B2R p <= 2 * ulp1 /\ qlaplace (N:=B64_Num F) p mu sigma = minus_inf) \/ exists r : R, 0 < r < 1 /\ Rabs (r - B2R p) <= 2 * ulp1 /\ forall q : R, laplace_cdf (B2R mu) (B2R sigma) q = r -> Rabs (B2R mu) + Rabs (q - B2R mu) + B2R sigma <= huge / 4 -> within (5 * e * (Rabs (B2R mu) + Rabs (q - B2R mu)) + (2 + 2 * B2R sigma) * tiny) (qlaplace (N:=B64_Num F) p mu sigma) q.
Proof. exact aq_qlaplace_next. Qed.
Print Assumptions C65_qlaplace_next.
Example C65_qlaplace_next_ex : exists r : R, 0 < r < 1 /\ Rabs (r - B2R (blit (1#8))) <= 2 * ulp1 /\ forall q : R, laplace_cdf (B2R (bofZ 1)) (B2R (bofZ 2)) q = r -> Rabs (B2R (bofZ 1)) + Rabs (q - B2R (bofZ 1)) + B2R (bofZ 2) <= huge / 4 -> within (5 * e2 * (Rabs (B2R (bofZ 1)) + Rabs (q - B2R (bofZ 1))) + (2 + 2 * B2R (bofZ 2)) * tiny) (qlaplace (N:=B64_Num TFR) (blit (1#8)) (bofZ 1) (bofZ 2)) q.
Proof. destruct (C65_qlaplace_next TFR e2 (blit (1#8)) (bofZ 1) (bofZ 2)) as [[H _]|H]; [exlow..|now apply e8_big2 in H|exact H]. Qed.

(** ** Where the accuracy is lost even with correctly rounded functions: small probabilities disappear in 1 - p and 2p - 1, and the
    threshold of the discrete families is rounded *)

Theorem C65_qexp_refuted : exists p q, prob p /\ exp_cdf 1 q = B2R p /\ 0 < q /\ B2R (qexp (N:=B64_Num TFR) p (bofZ 1)) = 0.
Proof. exact aq_qexp_refuted. Qed.
Print Assumptions C65_qexp_refuted.
Example C65_qexp_refuted_ex : exists p, prob p.
Proof. destruct C65_qexp_refuted as (p & _ & H & _). now exists p. Qed.

Theorem C65_qnorm_refuted : exists p q, prob p /\ norm_cdf 0 1 q = B2R p /\ qnorm (N:=B64_Num TFR) p (bofZ 0) (bofZ 1) = minus_inf.
Proof. exact aq_qnorm_refuted. Qed.
Print Assumptions C65_qnorm_refuted.
Example C65_qnorm_refuted_ex : exists p, prob p.
Proof. destruct C65_qnorm_refuted as (p & _ & H & _). now exists p. Qed.

Theorem C65_qlaplace_refuted : exists p q, prob p /\ laplace_cdf 0 1 q = B2R p /\ qlaplace (N:=B64_Num TFR) p (bofZ 0) (bofZ 1) = minus_inf.
Proof. exact aq_qlaplace_refuted. Qed.
Print Assumptions C65_qlaplace_refuted.
Example C65_qlaplace_refuted_ex : exists p, prob p.
Proof. destruct C65_qlaplace_refuted as (p & _ & H & _). now exists p. Qed.

Theorem C65_qinvgamma_refuted : exists p q, prob p /\ 0 < q /\ invgamma_cdf 1 1 q = B2R p /\ B2R (qinvgamma (N:=B64_Num TFR) p (bofZ 1) (bofZ 1)) = 0.
Proof. exact aq_qinvgamma_refuted. Qed.
Print Assumptions C65_qinvgamma_refuted.
Example C65_qinvgamma_refuted_ex : exists p, prob p.
Proof. destruct C65_qinvgamma_refuted as (p & _ & H & _). now exists p. Qed.

Theorem C65_qbern_refuted : forall F : TF, exists p b, prob p /\ Bltb (bofZ 0) b = true /\ Bltb b (bofZ 1) = true /\ 1 - B2R b < B2R p /\ qbern (N:=B64_Num F) p b = bofZ 0 /\ qradem (N:=B64_Num F) p b = bofZ (-1).
Proof. exact aq_qbern_refuted. Qed.
Print Assumptions C65_qbern_refuted.
Example C65_qbern_refuted_ex : exists p b, prob p /\ 1 - B2R b < B2R p /\ qbern (N:=B64_Num TFR) p b = bofZ 0.
Proof. destruct (C65_qbern_refuted TFR) as (p & b & H & _ & _ & H2 & H3 & _). now exists p, b. Qed.
