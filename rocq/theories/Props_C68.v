(** C68: what is left of a probability after the quantile function and the distribution function in binary64. *)
From Coq Require Import ZArith QArith Reals.
From Verif Require Import Erf GammaFn BetaFn NormR Spec SpecSF.
From Verif Require Import Num Prob Quant B64 SpecB64 SpecAcc SpecAccQ SpecTrip B64CR B64AccW B64AccQW B64Thm4 B64Thm8.
From Flocq Require Import Core IEEE754.BinarySingleNaN.
Local Open Scope R_scope.


(** Each statement compares the double p with the double returned by the distribution function at the double
    returned by the quantile function for p.  [within d y r]: y is finite and differs from r by at most d.
    [near k h y r]: y is finite and equals r * exp t + s with |t| <= k and |s| <= h.  [usual mu sigma]: a finite
    location and a scale with |mu| <= 2^400 and 2^-400 <= sigma <= 2^400; [offset mu sigma] = |mu| / sigma
    (SpecTrip.v).  Where a real number q occurs it is the mathematical quantile of p.  The functions of the backend
    are arbitrary except that each one called is accurate to the unit e (SpecAcc.v, SpecAccQ.v); the correctly
    rounded functions [TFR] satisfy this with e = 2^-51. *)

(** ** Absolute difference *)

Theorem C68_norm : forall (F : TF) (e : R) (p mu sigma : b64), unit_ok e -> const_acc e (t_SQRT_2 F) (sqrt 2) -> erf_acc F e -> erf_inv_acc F e -> t_erf_inv F (bofZ (-1)) = minus_inf -> prob p -> usual mu sigma -> 
  within (11 * e + 5 * e * offset mu sigma) (pnorm (N:=B64_Num F) (qnorm (N:=B64_Num F) p mu sigma) mu sigma false) (B2R p).
Proof. exact tr_norm. Qed.
Print Assumptions C68_norm.
Example C68_norm_ex : within (11 * e2 + 5 * e2 * offset (bofZ 1) (bofZ 2)) (pnorm (N:=B64_Num TFR) (qnorm (N:=B64_Num TFR) (blit (3#4)) (bofZ 1) (bofZ 2)) (bofZ 1) (bofZ 2) false) (B2R (blit (3#4))).
Proof. apply (C68_norm TFR e2 (blit (3#4)) (bofZ 1) (bofZ 2)); ext. Qed.
(** p = 2^-100 *)
Example C68_norm_low_ex : within (11 * e2 + 5 * e2 * offset (bofZ 1) (bofZ 2)) (pnorm (N:=B64_Num TFR) (qnorm (N:=B64_Num TFR) lowp (bofZ 1) (bofZ 2)) (bofZ 1) (bofZ 2) false) (B2R lowp).
Proof. apply (C68_norm TFR e2 lowp (bofZ 1) (bofZ 2)); ext. Qed.

Theorem C68_logis : forall (F : TF) (e : R) (p mu sigma : b64), unit_ok e -> log_acc F e -> tanh_acc F e -> prob p -> / huge <= B2R p -> usual mu sigma -> 
  within (10 * e + 2 * e * offset mu sigma) (plogis (N:=B64_Num F) (qlogis (N:=B64_Num F) p mu sigma) mu sigma false) (B2R p).
Proof. exact tr_logis. Qed.
Print Assumptions C68_logis.
Example C68_logis_ex : within (10 * e2 + 2 * e2 * offset (bofZ 1) (bofZ 2)) (plogis (N:=B64_Num TFR) (qlogis (N:=B64_Num TFR) (blit (3#4)) (bofZ 1) (bofZ 2)) (bofZ 1) (bofZ 2) false) (B2R (blit (3#4))).
Proof. apply (C68_logis TFR e2 (blit (3#4)) (bofZ 1) (bofZ 2)); ext. Qed.

Theorem C68_laplace : forall (F : TF) (e : R) (p mu sigma : b64), unit_ok e -> log_acc F e -> exp_acc F e -> t_log F (bofZ 0) = minus_inf -> prob p -> usual mu sigma -> 
  within (12 * e + 3 * e * offset mu sigma) (plaplace (N:=B64_Num F) (qlaplace (N:=B64_Num F) p mu sigma) mu sigma false) (B2R p).
Proof. exact tr_laplace. Qed.
Print Assumptions C68_laplace.
Example C68_laplace_ex : within (12 * e2 + 3 * e2 * offset (bofZ 1) (bofZ 2)) (plaplace (N:=B64_Num TFR) (qlaplace (N:=B64_Num TFR) (blit (3#4)) (bofZ 1) (bofZ 2)) (bofZ 1) (bofZ 2) false) (B2R (blit (3#4))).
Proof. apply (C68_laplace TFR e2 (blit (3#4)) (bofZ 1) (bofZ 2)); ext. Qed.
(** p = 2^-100 *)
Example C68_laplace_low_ex : within (12 * e2 + 3 * e2 * offset (bofZ 1) (bofZ 2)) (plaplace (N:=B64_Num TFR) (qlaplace (N:=B64_Num TFR) lowp (bofZ 1) (bofZ 2)) (bofZ 1) (bofZ 2) false) (B2R lowp).
Proof. apply (C68_laplace TFR e2 lowp (bofZ 1) (bofZ 2)); ext. Qed.

Theorem C68_cauchy : forall (F : TF) (e : R) (p mu sigma : b64), unit_ok e -> tan_acc F e -> atan_acc F e -> const_acc e (t_PI F) PI -> prob p -> usual mu sigma -> 200 * e * Rabs (cauchy_qf 0 1 (B2R p)) <= 1 -> 
  within (18 * e + 2 * e * offset mu sigma) (pcauchy (N:=B64_Num F) (qcauchy (N:=B64_Num F) p mu sigma) mu sigma false) (B2R p).
Proof. exact tr_cauchy. Qed.
Print Assumptions C68_cauchy.
Example C68_cauchy_ex : within (18 * e2 + 2 * e2 * offset (bofZ 1) (bofZ 2)) (pcauchy (N:=B64_Num TFR) (qcauchy (N:=B64_Num TFR) (blit (1#2)) (bofZ 1) (bofZ 2)) (bofZ 1) (bofZ 2) false) (B2R (blit (1#2))).
Proof. apply (C68_cauchy TFR e2 (blit (1#2)) (bofZ 1) (bofZ 2)); ext. Qed.

Theorem C68_lnorm : forall (F : TF) (e : R) (p mu sigma : b64), unit_ok e -> exp_all_acc F e -> log_acc F e -> const_acc e (t_SQRT_2 F) (sqrt 2) -> erf_acc F e -> erf_inv_acc F e -> t_erf_inv F (bofZ (-1)) = minus_inf -> t_exp F minus_inf = bofZ 0 -> prob p -> usual mu sigma -> Rabs (B2R mu) + 10 * B2R sigma <= 30 -> 
  within (21 * e + 5 * e * ((1 + Rabs (B2R mu)) / B2R sigma)) (plnorm (N:=B64_Num F) (qlnorm (N:=B64_Num F) p mu sigma) mu sigma false) (B2R p).
Proof. exact tr_lnorm. Qed.
Print Assumptions C68_lnorm.
Example C68_lnorm_ex : within (21 * e2 + 5 * e2 * ((1 + Rabs (B2R (bofZ 1))) / B2R (bofZ 2))) (plnorm (N:=B64_Num TFR) (qlnorm (N:=B64_Num TFR) (blit (3#4)) (bofZ 1) (bofZ 2)) (bofZ 1) (bofZ 2) false) (B2R (blit (3#4))).
Proof. apply (C68_lnorm TFR e2 (blit (3#4)) (bofZ 1) (bofZ 2)); ext. Qed.
(** p = 2^-100 *)
Example C68_lnorm_low_ex : within (21 * e2 + 5 * e2 * ((1 + Rabs (B2R (bofZ 1))) / B2R (bofZ 2))) (plnorm (N:=B64_Num TFR) (qlnorm (N:=B64_Num TFR) lowp (bofZ 1) (bofZ 2)) (bofZ 1) (bofZ 2) false) (B2R lowp).
Proof. apply (C68_lnorm TFR e2 lowp (bofZ 1) (bofZ 2)); ext. Qed.

Theorem C68_exp : forall (F : TF) (e : R) (p rate : b64), unit_ok e -> log_acc F e -> expm1_acc F e -> prob p -> positive rate -> / big <= B2R rate <= big -> 
  within (8 * e) (pexp (N:=B64_Num F) (qexp (N:=B64_Num F) p rate) rate false) (B2R p).
Proof. exact tr_exp. Qed.
Print Assumptions C68_exp.
Example C68_exp_ex : within (8 * e2) (pexp (N:=B64_Num TFR) (qexp (N:=B64_Num TFR) (blit (1#2)) (bofZ 2)) (bofZ 2) false) (B2R (blit (1#2))).
Proof. apply (C68_exp TFR e2 (blit (1#2)) (bofZ 2)); ext. Qed.

Theorem C68_unif : forall (F : TF) (e : R) (p a b : b64), unit_ok e -> prob p -> finite a -> finite b -> Rabs (B2R a) <= big -> / big <= B2R b - B2R a <= big -> 
  within (9 * ulp1 + 5 * ulp1 * (Rabs (B2R a) / (B2R b - B2R a))) (punif (N:=B64_Num F) (qunif (N:=B64_Num F) p a b) a b false) (B2R p).
Proof. exact tr_unif. Qed.
Print Assumptions C68_unif.
Example C68_unif_ex : within (9 * ulp1 + 5 * ulp1 * (Rabs (B2R (bofZ 1)) / (B2R (bofZ 3) - B2R (bofZ 1)))) (punif (N:=B64_Num TFR) (qunif (N:=B64_Num TFR) (blit (1#2)) (bofZ 1) (bofZ 3)) (bofZ 1) (bofZ 3) false) (B2R (blit (1#2))).
Proof. apply (C68_unif TFR e2 (blit (1#2)) (bofZ 1) (bofZ 3)); ext. Qed.

Theorem C68_t1 : forall (F : TF) (e : R) (p : b64) (q : R), unit_ok e -> tan_acc F e -> atan_acc F e -> const_acc e (t_PI F) PI -> prob p -> t_cdf 1 q = B2R p -> 200 * e * Rabs q <= 1 -> 
  within (16 * e) (pt (N:=B64_Num F) (qt (N:=B64_Num F) p (bofZ 1)) (bofZ 1) false) (B2R p).
Proof. exact tr_t1. Qed.
Print Assumptions C68_t1.
Example C68_t1_ex : within (16 * e2) (pt (N:=B64_Num TFR) (qt (N:=B64_Num TFR) (blit (3#4)) (bofZ 1)) (bofZ 1) false) (B2R (blit (3#4))).
Proof. apply (C68_t1 TFR e2 (blit (3#4)) 1); ext. Qed.

Theorem C68_t2 : forall (F : TF) (e : R) (p : b64) (q : R), unit_ok e -> prob p -> / huge <= B2R p -> t_cdf 2 q = B2R p -> Rabs q <= big / 2 -> 
  within (11 * ulp1) (pt (N:=B64_Num F) (qt (N:=B64_Num F) p (bofZ 2)) (bofZ 2) false) (B2R p).
Proof. exact tr_t2. Qed.
Print Assumptions C68_t2.
Example C68_t2_ex : within (11 * ulp1) (pt (N:=B64_Num TFR) (qt (N:=B64_Num TFR) (blit (1#2)) (bofZ 2)) (bofZ 2) false) (B2R (blit (1#2))).
Proof. apply (C68_t2 TFR e2 (blit (1#2)) 0); ext. Qed.

Theorem C68_tinf : forall (F : TF) (e : R) (p : b64), unit_ok e -> const_acc e (t_SQRT_2 F) (sqrt 2) -> erf_acc F e -> erf_inv_acc F e -> t_erf_inv F (bofZ (-1)) = minus_inf -> prob p -> 
  within (11 * e) (pt (N:=B64_Num F) (qt (N:=B64_Num F) p plus_inf) plus_inf false) (B2R p).
Proof. exact tr_tinf. Qed.
Print Assumptions C68_tinf.
Example C68_tinf_ex : within (11 * e2) (pt (N:=B64_Num TFR) (qt (N:=B64_Num TFR) (blit (3#4)) plus_inf) plus_inf false) (B2R (blit (3#4))).
Proof. apply (C68_tinf TFR e2 (blit (3#4))); ext. Qed.
(** p = 2^-100 *)
Example C68_tinf_low_ex : within (11 * e2) (pt (N:=B64_Num TFR) (qt (N:=B64_Num TFR) lowp plus_inf) plus_inf false) (B2R lowp).
Proof. apply (C68_tinf TFR e2 lowp); ext. Qed.

Theorem C68_invgamma : forall (F : TF) (e : R) (p shape rate : b64) (q : R), unit_ok e -> incgamma_acc F e -> incgamma_inv_acc F e -> prob p -> / 2 <= B2R p -> positive shape -> positive rate -> B2R shape <= 1000000 -> B2R shape * e <= / 1000 -> / big <= q <= IZR (2 ^ 50) -> / big <= B2R rate <= IZR (2 ^ 51) -> invgamma_cdf (B2R shape) (B2R rate) q = B2R p -> 
  within (4 * e + 10 * B2R shape * e) (pinvgamma (N:=B64_Num F) (qinvgamma (N:=B64_Num F) p shape rate) shape rate false) (B2R p).
Proof. exact tr_invgamma. Qed.
Print Assumptions C68_invgamma.
Example C68_invgamma_ex : within (4 * e2 + 10 * B2R (bofZ 1) * e2) (pinvgamma (N:=B64_Num TFR) (qinvgamma (N:=B64_Num TFR) (blit (1#2)) (bofZ 1) (bofZ 2)) (bofZ 1) (bofZ 2) false) (B2R (blit (1#2))).
Proof. apply (C68_invgamma TFR e2 (blit (1#2)) (bofZ 1) (bofZ 2) (2 / ln 2)); ext. Qed.

(** ** Relative difference *)

Theorem C68_gamma : forall (F : TF) (e : R) (p shape scale : b64) (q : R), unit_ok e -> incgamma_acc F e -> incgamma_inv_acc F e -> prob p -> positive shape -> big_eps scale -> B2R scale <= big -> 2 * ulp1 <= q <= big -> gamma_cdf (B2R shape) (B2R scale) q = B2R p -> 
  near (e + 5 * B2R shape * e) (tiny) (pgamma (N:=B64_Num F) (qgamma (N:=B64_Num F) p shape scale) shape scale false) (B2R p).
Proof. exact tr_gamma. Qed.
Print Assumptions C68_gamma.
Example C68_gamma_ex : near (e2 + 5 * B2R (bofZ 1) * e2) (tiny) (pgamma (N:=B64_Num TFR) (qgamma (N:=B64_Num TFR) (blit (1#2)) (bofZ 1) (bofZ 2)) (bofZ 1) (bofZ 2) false) (B2R (blit (1#2))).
Proof. apply (C68_gamma TFR e2 (blit (1#2)) (bofZ 1) (bofZ 2) (2 * ln 2)); ext. Qed.

Theorem C68_chisq : forall (F : TF) (e : R) (p dof : b64) (q : R), unit_ok e -> incgamma_acc F e -> incgamma_inv_acc F e -> prob p -> finite dof -> / huge <= B2R dof <= huge -> 2 * ulp1 <= q <= big -> chisq_cdf (B2R dof) q = B2R p -> 
  near (e + 3 / 2 * B2R dof * e) (tiny) (pchisq (N:=B64_Num F) (qchisq (N:=B64_Num F) p dof) dof false) (B2R p).
Proof. exact tr_chisq. Qed.
Print Assumptions C68_chisq.
Example C68_chisq_ex : near (e2 + 3 / 2 * B2R (bofZ 2) * e2) (tiny) (pchisq (N:=B64_Num TFR) (qchisq (N:=B64_Num TFR) (blit (1#2)) (bofZ 2)) (bofZ 2) false) (B2R (blit (1#2))).
Proof. apply (C68_chisq TFR e2 (blit (1#2)) (bofZ 2) (2 * ln 2)); ext. Qed.

Theorem C68_weibull : forall (F : TF) (e : R) (p shape scale : b64) (q : R), unit_ok e -> log1p_acc F e -> expm1_acc F e -> pow_acc F e -> pow_sign F -> prob p -> / huge <= B2R p -> big_eps shape -> big_eps scale -> 2000000 * e <= B2R shape -> B2R shape * e <= / 100 -> B2R shape <= 1000000000 -> B2R scale <= big -> 2 * ulp1 <= q <= big -> weibull_cdf (B2R shape) (B2R scale) q = B2R p -> 
  near (5 * e + 6 * B2R shape * e + 3 * ulp1 * Rabs (ln (- ln (1 - B2R p)))) (4 * tiny) (pweibull (N:=B64_Num F) (qweibull (N:=B64_Num F) p shape scale) shape scale false) (B2R p).
Proof. exact tr_weibull. Qed.
Print Assumptions C68_weibull.
Example C68_weibull_ex : near (5 * e2 + 6 * B2R (bofZ 1) * e2 + 3 * ulp1 * Rabs (ln (- ln (1 - B2R (blit (1#2)))))) (4 * tiny) (pweibull (N:=B64_Num TFR) (qweibull (N:=B64_Num TFR) (blit (1#2)) (bofZ 1) (bofZ 1)) (bofZ 1) (bofZ 1) false) (B2R (blit (1#2))).
Proof. apply (C68_weibull TFR e2 (blit (1#2)) (bofZ 1) (bofZ 1) (ln 2)); ext. Qed.

Theorem C68_beta : forall (F : TF) (e : R) (p a b : b64) (q : R), unit_ok e -> incbeta_acc F e -> incbeta_inv_acc F e -> prob p -> positive a -> positive b -> 1 <= B2R b -> / big <= q <= 1 - 3 * e -> beta_cdf (B2R a) (B2R b) q = B2R p -> 
  near (e + 2 * B2R a * e) (tiny) (pbeta (N:=B64_Num F) (qbeta (N:=B64_Num F) p a b) a b false) (B2R p).
Proof. exact tr_beta. Qed.
Print Assumptions C68_beta.
Example C68_beta_ex : near (e2 + 2 * B2R (bofZ 3) * e2) (tiny) (pbeta (N:=B64_Num TFR) (qbeta (N:=B64_Num TFR) (blit (1#2)) (bofZ 3) (bofZ 3)) (bofZ 3) (bofZ 3) false) (B2R (blit (1#2))).
Proof. apply (C68_beta TFR e2 (blit (1#2)) (bofZ 3) (bofZ 3) (/ 2)); ext. Qed.

Theorem C68_f : forall (F : TF) (e : R) (p df1 df2 : b64) (q : R), unit_ok e -> incbeta_acc F e -> incbeta_inv_acc F e -> prob p -> big_eps df1 -> big_eps df2 -> B2R df1 <= big -> 2 <= B2R df2 <= big -> 2 * ulp1 <= q -> 6000 * e * (1 + B2R df1 * q / B2R df2) <= 1 -> f_cdf (B2R df1) (B2R df2) q = B2R p -> 
  near (e + 12 * B2R df1 * e) (tiny) (pf (N:=B64_Num F) (qf (N:=B64_Num F) p df1 df2) df1 df2 false) (B2R p).
Proof. exact tr_f. Qed.
Print Assumptions C68_f.
Example C68_f_ex : near (e2 + 12 * B2R (bofZ 4) * e2) (tiny) (pf (N:=B64_Num TFR) (qf (N:=B64_Num TFR) (blit (1#2)) (bofZ 4) (bofZ 4)) (bofZ 4) (bofZ 4) false) (B2R (blit (1#2))).
Proof. apply (C68_f TFR e2 (blit (1#2)) (bofZ 4) (bofZ 4) 1); ext. Qed.

(** ** Refuted: valid parameters outside those ranges, for which the probability is lost *)

(** mu = 2^60, sigma = 1, p = 3/4: the quantile is rounded to mu, and a half comes back *)

Theorem C68_norm_offset_refuted : forall (F : TF) (e : R), unit_ok e -> const_acc e (t_SQRT_2 F) (sqrt 2) -> erf_acc F e -> erf_inv_acc F e -> 
  exists p mu sigma : b64, prob p /\ / 4 <= B2R p /\ usual mu sigma /\ ~ within (/ 8) (pnorm (N:=B64_Num F) (qnorm (N:=B64_Num F) p mu sigma) mu sigma false) (B2R p).
Proof. exact tr_norm_offset_refuted. Qed.
Print Assumptions C68_norm_offset_refuted.
Example C68_norm_offset_refuted_ex : exists p mu sigma : b64, prob p /\ / 4 <= B2R p /\ usual mu sigma /\ ~ within (/ 8) (pnorm (N:=B64_Num TFR) (qnorm (N:=B64_Num TFR) p mu sigma) mu sigma false) (B2R p).
Proof. apply (C68_norm_offset_refuted TFR e2); ext. Qed.

(** shape = 2^-10, scale = 1, p = 1/2: the quantile is below the machine epsilon, where pweibull returns zero *)

Theorem C68_weibull_small_refuted : forall (F : TF) (e : R), unit_ok e -> log1p_acc F e -> pow_acc F e -> 
  exists p shape scale : b64, prob p /\ big_eps shape /\ big_eps scale /\ pweibull (N:=B64_Num F) (qweibull (N:=B64_Num F) p shape scale) shape scale false = bofZ 0 /\ B2R p = / 2.
Proof. exact tr_weibull_small_refuted. Qed.
Print Assumptions C68_weibull_small_refuted.
Example C68_weibull_small_refuted_ex : exists p shape scale : b64, prob p /\ big_eps shape /\ big_eps scale /\ pweibull (N:=B64_Num TFR) (qweibull (N:=B64_Num TFR) p shape scale) shape scale false = bofZ 0 /\ B2R p = / 2.
Proof. apply (C68_weibull_small_refuted TFR e2); ext. Qed.

(** shape = 2^-10, scale = 1, p = 1/2: the quantile is below the machine epsilon, where pgamma returns zero *)

Theorem C68_gamma_small_refuted : forall (F : TF) (e : R), unit_ok e -> incgamma_inv_acc F e -> 
  exists p shape scale : b64, prob p /\ big_eps shape /\ big_eps scale /\ pgamma (N:=B64_Num F) (qgamma (N:=B64_Num F) p shape scale) shape scale false = bofZ 0 /\ B2R p = / 2.
Proof. exact tr_gamma_small_refuted. Qed.
Print Assumptions C68_gamma_small_refuted.
Example C68_gamma_small_refuted_ex : exists p shape scale : b64, prob p /\ big_eps shape /\ big_eps scale /\ pgamma (N:=B64_Num TFR) (qgamma (N:=B64_Num TFR) p shape scale) shape scale false = bofZ 0 /\ B2R p = / 2.
Proof. apply (C68_gamma_small_refuted TFR e2); ext. Qed.

(** a = 1, b = 2^-10, p = 1/2: no double has a probability within a quarter of a half, whatever qbeta returns *)

Theorem C68_beta_small_refuted : forall (F : TF) (e : R), unit_ok e -> incbeta_acc F e -> 
  exists p a b : b64, prob p /\ positive a /\ positive b /\ forall x : b64, finite x -> ~ within (/ 4) (pbeta (N:=B64_Num F) x a b false) (B2R p).
Proof. exact tr_beta_small_refuted. Qed.
Print Assumptions C68_beta_small_refuted.
Example C68_beta_small_refuted_ex : exists p a b : b64, prob p /\ positive a /\ positive b /\ forall x : b64, finite x -> ~ within (/ 4) (pbeta (N:=B64_Num TFR) x a b false) (B2R p).
Proof. apply (C68_beta_small_refuted TFR e2); ext. Qed.
