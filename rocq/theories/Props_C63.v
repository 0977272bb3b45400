(** C63: the rounding error of the distribution functions in binary64. *)
From Coq Require Import ZArith QArith Reals Lia.
From Verif Require Import Erf GammaFn BetaFn NormR Spec SpecSF.
From Verif Require Import Num Prob Dens B64 SpecB64 SpecAcc SpecAccD SpecTrip SpecPois B64CR B64AccW B64Thm3 B64Thm8 B64AccPois B64Thm9.
From Flocq Require Import Core IEEE754.BinarySingleNaN.
Local Open Scope R_scope.


(** [within d y r]: the double y is finite and differs from the real number r by at most d.
    [near k h y r]: y is finite and equals r * exp t + s with |t| <= k and |s| <= h, that is, it has relative
    error about k apart from an underflow h.  The functions of the backend are arbitrary except that each
    one called is accurate to the unit e (SpecAcc.v); the correctly rounded functions [TFR] satisfy this
    with e = 2^-51 ([C63_correctly_rounded]).  [huge] is 2^1000 and [tiny] is 2^-1074. *)

(** ** Absolute error: a few units, uniformly in the argument *)

Theorem C63_pnorm : forall (F : TF) (e : R) (x mu sigma : b64), unit_ok e -> const_acc e (t_SQRT_2 F) (sqrt 2) -> erf_acc F e -> finite x -> finite mu -> positive sigma -> reach (B2R mu) (B2R sigma) (B2R x) -> within (6 * e) (pnorm (N:=B64_Num F) x mu sigma false) (norm_cdf (B2R mu) (B2R sigma) (B2R x)).
Proof. exact a_pnorm. Qed.
Print Assumptions C63_pnorm.
Example C63_pnorm_ex : within (6 * e2) (pnorm (N:=B64_Num TFR) (bofZ 3) (bofZ 1) (bofZ 2) false) (norm_cdf (B2R (bofZ 1)) (B2R (bofZ 2)) (B2R (bofZ 3))).
Proof. apply (C63_pnorm TFR e2 (bofZ 3) (bofZ 1) (bofZ 2)); ex_acc. Qed.

Theorem C63_plogis : forall (F : TF) (e : R) (x mu sigma : b64), unit_ok e -> tanh_acc F e -> finite x -> finite mu -> positive sigma -> B2R sigma <= huge / 2 -> reach (B2R mu) (B2R sigma) (B2R x) -> within (6 * e) (plogis (N:=B64_Num F) x mu sigma false) (logis_cdf (B2R mu) (B2R sigma) (B2R x)).
Proof. exact a_plogis. Qed.
Print Assumptions C63_plogis.
Example C63_plogis_ex : within (6 * e2) (plogis (N:=B64_Num TFR) (bofZ 3) (bofZ 1) (bofZ 2) false) (logis_cdf (B2R (bofZ 1)) (B2R (bofZ 2)) (B2R (bofZ 3))).
Proof. apply (C63_plogis TFR e2 (bofZ 3) (bofZ 1) (bofZ 2)); ex_acc. Qed.

Theorem C63_pcauchy : forall (F : TF) (e : R) (x mu sigma : b64), unit_ok e -> atan_acc F e -> const_acc e (t_PI F) PI -> finite x -> finite mu -> positive sigma -> reach (B2R mu) (B2R sigma) (B2R x) -> within (9 * e) (pcauchy (N:=B64_Num F) x mu sigma false) (cauchy_cdf (B2R mu) (B2R sigma) (B2R x)).
Proof. exact a_pcauchy. Qed.
Print Assumptions C63_pcauchy.
Example C63_pcauchy_ex : within (9 * e2) (pcauchy (N:=B64_Num TFR) (bofZ 3) (bofZ 1) (bofZ 2) false) (cauchy_cdf (B2R (bofZ 1)) (B2R (bofZ 2)) (B2R (bofZ 3))).
Proof. apply (C63_pcauchy TFR e2 (bofZ 3) (bofZ 1) (bofZ 2)); ex_acc. Qed.

Theorem C63_plaplace : forall (F : TF) (e : R) (x mu sigma : b64), unit_ok e -> exp_acc F e -> finite x -> finite mu -> positive sigma -> reach (B2R mu) (B2R sigma) (B2R x) -> within (8 * e) (plaplace (N:=B64_Num F) x mu sigma false) (laplace_cdf (B2R mu) (B2R sigma) (B2R x)).
Proof. exact a_plaplace. Qed.
Print Assumptions C63_plaplace.
Example C63_plaplace_ex : within (8 * e2) (plaplace (N:=B64_Num TFR) (bofZ 3) (bofZ 1) (bofZ 2) false) (laplace_cdf (B2R (bofZ 1)) (B2R (bofZ 2)) (B2R (bofZ 3))).
Proof. apply (C63_plaplace TFR e2 (bofZ 3) (bofZ 1) (bofZ 2)); ex_acc. Qed.

Theorem C63_pt_1 : forall (F : TF) (e : R) (x : b64), unit_ok e -> atan_acc F e -> const_acc e (t_PI F) PI -> finite x -> within (9 * e) (pt (N:=B64_Num F) x (bofZ 1) false) (t_cdf 1 (B2R x)).
Proof. exact a_pt_1. Qed.
Print Assumptions C63_pt_1.
Example C63_pt_1_ex : within (9 * e2) (pt (N:=B64_Num TFR) (bofZ 3) (bofZ 1) false) (t_cdf 1 (B2R (bofZ 3))).
Proof. apply (C63_pt_1 TFR e2 (bofZ 3)); ex_acc. Qed.

Theorem C63_plnorm : forall (F : TF) (e : R) (x mu sigma : b64), unit_ok e -> const_acc e (t_SQRT_2 F) (sqrt 2) -> erf_acc F e -> log_acc F e -> big_eps x -> finite mu -> positive sigma -> Rabs (B2R mu) <= huge / 2 -> (Rabs (B2R mu) + 2000) / B2R sigma <= huge -> within (6 * e + (e * Rabs (ln (B2R x)) + tiny) / B2R sigma) (plnorm (N:=B64_Num F) x mu sigma false) (lnorm_cdf (B2R mu) (B2R sigma) (B2R x)).
Proof. exact a_plnorm. Qed.
Print Assumptions C63_plnorm.
Example C63_plnorm_ex : within (6 * e2 + (e2 * Rabs (ln (B2R (bofZ 3))) + tiny) / B2R (bofZ 4)) (plnorm (N:=B64_Num TFR) (bofZ 3) (bofZ 0) (bofZ 4) false) (lnorm_cdf (B2R (bofZ 0)) (B2R (bofZ 4)) (B2R (bofZ 3))).
Proof. apply (C63_plnorm TFR e2 (bofZ 3) (bofZ 0) (bofZ 4)); ex_acc. Qed.

Theorem C63_pinvgamma : forall (F : TF) (e : R) (x shape rate : b64), unit_ok e -> incgamma_acc F e -> finite x -> positive shape -> finite rate -> B2R shape <= 1000000 -> / huge <= B2R x <= IZR (2 ^ 51) -> / huge <= B2R rate <= IZR (2 ^ 51) -> / huge <= B2R rate / B2R x <= huge -> within (4 * e + 7 * B2R shape * ulp1) (pinvgamma (N:=B64_Num F) x shape rate false) (invgamma_cdf (B2R shape) (B2R rate) (B2R x)).
Proof. exact a_pinvgamma. Qed.
Print Assumptions C63_pinvgamma.
Example C63_pinvgamma_ex : within (4 * e2 + 7 * B2R (bofZ 5) * ulp1) (pinvgamma (N:=B64_Num TFR) (bofZ 3) (bofZ 5) (bofZ 2) false) (invgamma_cdf (B2R (bofZ 5)) (B2R (bofZ 2)) (B2R (bofZ 3))).
Proof. apply (C63_pinvgamma TFR e2 (bofZ 3) (bofZ 5) (bofZ 2)); ex_acc. Qed.

(** ** Relative error *)

Theorem C63_punif : forall (F : TF) (e : R) (x a b : b64), unit_ok e -> finite x -> finite a -> finite b -> B2R a < B2R x < B2R b -> B2R b - B2R a <= huge -> near (3 * ulp1) tiny (punif (N:=B64_Num F) x a b false) (unif_cdf (B2R a) (B2R b) (B2R x)).
Proof. exact a_punif. Qed.
Print Assumptions C63_punif.
Example C63_punif_ex : near (3 * ulp1) tiny (punif (N:=B64_Num TFR) (bofZ 3) (bofZ 1) (bofZ 7) false) (unif_cdf (B2R (bofZ 1)) (B2R (bofZ 7)) (B2R (bofZ 3))).
Proof. apply (C63_punif TFR e2 (bofZ 3) (bofZ 1) (bofZ 7)); ex_acc. Qed.

Theorem C63_pexp : forall (F : TF) (e : R) (x rate : b64), unit_ok e -> expm1_acc F e -> finite x -> 0 < B2R x -> positive rate -> B2R rate * B2R x <= huge -> near (2 * e) (4 * tiny) (pexp (N:=B64_Num F) x rate false) (exp_cdf (B2R rate) (B2R x)).
Proof. exact a_pexp. Qed.
Print Assumptions C63_pexp.
Example C63_pexp_ex : near (2 * e2) (4 * tiny) (pexp (N:=B64_Num TFR) (bofZ 3) (bofZ 2) false) (exp_cdf (B2R (bofZ 2)) (B2R (bofZ 3))).
Proof. apply (C63_pexp TFR e2 (bofZ 3) (bofZ 2)); ex_acc. Qed.

Theorem C63_pweibull : forall (F : TF) (e : R) (x shape scale : b64), unit_ok e -> expm1_acc F e -> pow_acc F e -> pow_sign F -> big_eps x -> big_eps shape -> big_eps scale -> / huge <= B2R x / B2R scale <= huge -> Rpower (B2R x / B2R scale) (B2R shape) <= huge / 2 -> B2R shape <= 1000000000 -> near (2 * e + 2 * B2R shape * ulp1) (4 * tiny) (pweibull (N:=B64_Num F) x shape scale false) (weibull_cdf (B2R shape) (B2R scale) (B2R x)).
Proof. exact a_pweibull. Qed.
Print Assumptions C63_pweibull.
Example C63_pweibull_ex : near (2 * e2 + 2 * B2R (bofZ 2) * ulp1) (4 * tiny) (pweibull (N:=B64_Num TFR) (bofZ 4) (bofZ 2) (bofZ 2) false) (weibull_cdf (B2R (bofZ 2)) (B2R (bofZ 2)) (B2R (bofZ 4))).
Proof. apply (C63_pweibull TFR e2 (bofZ 4) (bofZ 2) (bofZ 2)); ex_acc. Qed.

Theorem C63_pgamma : forall (F : TF) (e : R) (x shape scale : b64), unit_ok e -> incgamma_acc F e -> big_eps x -> positive shape -> big_eps scale -> / huge <= B2R x / B2R scale <= huge -> near (e + 2 * B2R shape * ulp1) tiny (pgamma (N:=B64_Num F) x shape scale false) (gamma_cdf (B2R shape) (B2R scale) (B2R x)).
Proof. exact a_pgamma. Qed.
Print Assumptions C63_pgamma.
Example C63_pgamma_ex : near (e2 + 2 * B2R (bofZ 5) * ulp1) tiny (pgamma (N:=B64_Num TFR) (bofZ 3) (bofZ 5) (bofZ 2) false) (gamma_cdf (B2R (bofZ 5)) (B2R (bofZ 2)) (B2R (bofZ 3))).
Proof. apply (C63_pgamma TFR e2 (bofZ 3) (bofZ 5) (bofZ 2)); ex_acc. Qed.

Theorem C63_pchisq : forall (F : TF) (e : R) (x dof : b64), unit_ok e -> incgamma_acc F e -> big_eps x -> finite dof -> / huge <= B2R dof <= huge -> B2R x <= huge -> near e tiny (pchisq (N:=B64_Num F) x dof false) (chisq_cdf (B2R dof) (B2R x)).
Proof. exact a_pchisq. Qed.
Print Assumptions C63_pchisq.
Example C63_pchisq_ex : near e2 tiny (pchisq (N:=B64_Num TFR) (bofZ 3) (bofZ 5) false) (chisq_cdf (B2R (bofZ 5)) (B2R (bofZ 3))).
Proof. apply (C63_pchisq TFR e2 (bofZ 3) (bofZ 5)); ex_acc. Qed.

Theorem C63_pbeta : forall (F : TF) (e : R) (x a b : b64), unit_ok e -> incbeta_acc F e -> finite x -> 0 < B2R x < 1 -> positive a -> positive b -> near e tiny (pbeta (N:=B64_Num F) x a b false) (beta_cdf (B2R a) (B2R b) (B2R x)).
Proof. exact a_pbeta. Qed.
Print Assumptions C63_pbeta.
Example C63_pbeta_ex : near e2 tiny (pbeta (N:=B64_Num TFR) (blit (1#2)) (bofZ 5) (bofZ 2) false) (beta_cdf (B2R (bofZ 5)) (B2R (bofZ 2)) (B2R (blit (1#2)))).
Proof. apply (C63_pbeta TFR e2 (blit (1#2)) (bofZ 5) (bofZ 2)); ex_acc. Qed.

Theorem C63_pbern_pradem : forall (F : TF) (p : b64), Bleb (bofZ 0) p = true -> Bleb p (bofZ 1) = true -> near ulp1 0 (pbern (N:=B64_Num F) 0 p false) (1 - B2R p) /\ near ulp1 0 (pradem (N:=B64_Num F) (-1) p false) (1 - B2R p).
Proof. exact a_pbern. Qed.
Print Assumptions C63_pbern_pradem.
Example C63_pbern_pradem_ex : near ulp1 0 (pbern (N:=B64_Num TFR) 0 (blit (1#10)) false) (1 - B2R (blit (1#10))).
Proof. apply (C63_pbern_pradem TFR); reflexivity. Qed.

Theorem C63_ppois : forall (F : TF) (e : R) (x : Z) (rate : b64), unit_ok e -> incgamma_acc F e -> (0 <= x < 2 ^ 53)%Z -> positive rate -> 10 < B2R rate \/ (15 < x)%Z ->
  within (4 * e) (ppois (N:=B64_Num F) x rate false) (sum_f_R0 (pois_pmf (B2R rate)) (Z.to_nat x)).
Proof. exact a_ppois. Qed.
Print Assumptions C63_ppois.
Example C63_ppois_ex : within (4 * e2) (ppois (N:=B64_Num TFR) 20 (bofZ 3) false) (sum_f_R0 (pois_pmf (B2R (bofZ 3))) 20).
Proof. apply (C63_ppois TFR e2 20 (bofZ 3)); ex_acc. Qed.

(** The correctly rounded functions satisfy every hypothesis. *)

Theorem C63_correctly_rounded : unit_ok e2 /\ erf_acc TFR e2 /\ tanh_acc TFR e2 /\ atan_acc TFR e2 /\ exp_acc TFR e2 /\ expm1_acc TFR e2 /\ log_acc TFR e2 /\
  pow_acc TFR e2 /\ pow_sign TFR /\ incgamma_acc TFR e2 /\ incbeta_acc TFR e2 /\ const_acc e2 (t_SQRT_2 TFR) (sqrt 2) /\ const_acc e2 (t_PI TFR) PI.
Proof. exact tfr_all_a. Qed.
Print Assumptions C63_correctly_rounded.
Example C63_correctly_rounded_ex : e2 = 2 * ulp1.
Proof. reflexivity. Qed.

(** ** Where the relative error is lost: the lower tail of the symmetric families, formed as one half of 1 + (a
    number rounded to -1), is zero even with correctly rounded functions *)

Theorem C63_pnorm_tail_refuted : B2R (pnorm (N:=B64_Num TFR) (bofZ (-12)) (bofZ 0) (bofZ 1) false) = 0 /\ exp (- (100)) <= norm_cdf 0 1 (-12).
Proof. exact a_pnorm_tail_refuted. Qed.
Print Assumptions C63_pnorm_tail_refuted.
Example C63_pnorm_tail_refuted_ex : B2R (pnorm (N:=B64_Num TFR) (bofZ (-12)) (bofZ 0) (bofZ 1) false) = 0.
Proof. apply C63_pnorm_tail_refuted. Qed.

Theorem C63_plogis_tail_refuted : B2R (plogis (N:=B64_Num TFR) (bofZ (-64)) (bofZ 0) (bofZ 1) false) = 0 /\ exp (- (65)) <= logis_cdf 0 1 (-64).
Proof. exact a_plogis_tail_refuted. Qed.
Print Assumptions C63_plogis_tail_refuted.
Example C63_plogis_tail_refuted_ex : B2R (plogis (N:=B64_Num TFR) (bofZ (-64)) (bofZ 0) (bofZ 1) false) = 0.
Proof. apply C63_plogis_tail_refuted. Qed.

Theorem C63_plaplace_tail_refuted : B2R (plaplace (N:=B64_Num TFR) (bofZ (-64)) (bofZ 0) (bofZ 1) false) = 0 /\ laplace_cdf 0 1 (-64) = exp (- (64)) / 2.
Proof. exact a_plaplace_tail_refuted. Qed.
Print Assumptions C63_plaplace_tail_refuted.
Example C63_plaplace_tail_refuted_ex : B2R (plaplace (N:=B64_Num TFR) (bofZ (-64)) (bofZ 0) (bofZ 1) false) = 0.
Proof. apply C63_plaplace_tail_refuted. Qed.

(** ** Where even the absolute error is lost: arguments below the machine epsilon are treated as zero *)

Theorem C63_pweibull_low_refuted : forall F : TF, exists x shape scale, positive x /\ big_eps shape /\ big_eps scale /\ pweibull (N:=B64_Num F) x shape scale false = bofZ 0 /\ 3 / 8 <= weibull_cdf (B2R shape) (B2R scale) (B2R x).
Proof. exact a_pweibull_low_refuted. Qed.
Print Assumptions C63_pweibull_low_refuted.
Example C63_pweibull_low_refuted_ex : exists x shape scale, positive x /\ big_eps shape /\ big_eps scale /\ pweibull (N:=B64_Num TFR) x shape scale false = bofZ 0 /\ 3 / 8 <= weibull_cdf (B2R shape) (B2R scale) (B2R x).
Proof. apply C63_pweibull_low_refuted. Qed.

Theorem C63_plnorm_low_refuted : forall F : TF, exists x mu sigma, positive x /\ finite mu /\ big_eps sigma /\ plnorm (N:=B64_Num F) x mu sigma false = bofZ 0 /\ 1 / 4 <= lnorm_cdf (B2R mu) (B2R sigma) (B2R x).
Proof. exact a_plnorm_low_refuted. Qed.
Print Assumptions C63_plnorm_low_refuted.
Example C63_plnorm_low_refuted_ex : exists x mu sigma, positive x /\ finite mu /\ big_eps sigma /\ plnorm (N:=B64_Num TFR) x mu sigma false = bofZ 0 /\ 1 / 4 <= lnorm_cdf (B2R mu) (B2R sigma) (B2R x).
Proof. apply C63_plnorm_low_refuted. Qed.

Theorem C63_pgamma_low_refuted : forall F : TF, exists x shape scale, positive x /\ big_eps shape /\ big_eps scale /\ pgamma (N:=B64_Num F) x shape scale false = bofZ 0 /\ bpow radix2 (-33) <= gamma_cdf (B2R shape) (B2R scale) (B2R x).
Proof. exact a_pgamma_low_refuted. Qed.
Print Assumptions C63_pgamma_low_refuted.
Example C63_pgamma_low_refuted_ex : exists x shape scale, positive x /\ big_eps shape /\ big_eps scale /\ pgamma (N:=B64_Num TFR) x shape scale false = bofZ 0 /\ bpow radix2 (-33) <= gamma_cdf (B2R shape) (B2R scale) (B2R x).
Proof. apply C63_pgamma_low_refuted. Qed.

(** pt with two degrees of freedom: only the arithmetic and the square root *)

Theorem C63_pt_2 : forall (F : TF) (e : R) (x : b64), unit_ok e -> finite x -> Rabs (B2R x) <= big -> within (6 * ulp1) (pt (N:=B64_Num F) x (bofZ 2) false) (t_cdf 2 (B2R x)).
Proof. exact a_pt_2. Qed.
Print Assumptions C63_pt_2.
Example C63_pt_2_ex : within (6 * ulp1) (pt (N:=B64_Num TFR) (bofZ 3) (bofZ 2) false) (t_cdf 2 (B2R (bofZ 3))).
Proof. apply (C63_pt_2 TFR e2 (bofZ 3)); ext. Qed.

(** ppois for every rate and every integer: the sum of terms below, the incomplete gamma function above *)

Theorem C63_ppois_all : forall (F : TF) (e : R) (x : Z) (rate : b64), unit_ok e -> powZ_acc F e -> fact_acc F e -> exp_acc F e -> incgamma_acc F e -> (0 <= x < 2 ^ 53)%Z -> positive rate ->
  within (24 * e) (ppois (N:=B64_Num F) x rate false) (sum_f_R0 (pois_pmf (B2R rate)) (Z.to_nat x)).
Proof. exact a_ppois_all. Qed.
Print Assumptions C63_ppois_all.
Example C63_ppois_all_ex : within (24 * e2) (ppois (N:=B64_Num TFR) 5 (bofZ 3) false) (sum_f_R0 (pois_pmf (B2R (bofZ 3))) 5).
Proof. apply (C63_ppois_all TFR e2 5 (bofZ 3)); first [exact TFR_powZ_acc | exact TFR_fact_acc | ex_acc]. Qed.

(** pt with any other degrees of freedom: through the incomplete beta function; far in the lower tail the error is relative *)

Theorem C63_pt : forall (F : TF) (e : R) (x dof : b64), unit_ok e -> incbeta_acc F e -> finite x -> finite dof -> / big <= Rabs (B2R x) <= big -> / 1000000 <= B2R dof <= 1000000 -> B2R dof <> 1 -> B2R dof <> 2 ->
  within (12 * e + 8 * B2R dof * ulp1) (pt (N:=B64_Num F) x dof false) (t_cdf (B2R dof) (B2R x)).
Proof. exact a_pt. Qed.
Print Assumptions C63_pt.
Example C63_pt_ex : within (12 * e2 + 8 * B2R (bofZ 5) * ulp1) (pt (N:=B64_Num TFR) (bofZ 3) (bofZ 5) false) (t_cdf (B2R (bofZ 5)) (B2R (bofZ 3))).
Proof. apply (C63_pt TFR e2 (bofZ 3) (bofZ 5)); ext. Qed.

Theorem C63_pt_tail : forall (F : TF) (e : R) (x dof : b64), unit_ok e -> incbeta_acc F e -> finite x -> finite dof -> / big <= Rabs (B2R x) <= big -> / 1000000 <= B2R dof <= 1000000 -> B2R dof <> 1 -> B2R dof <> 2 -> B2R x < 0 -> 2 * B2R dof <= B2R x ^ 2 ->
  near (e + ulp1 + 14 * B2R dof * ulp1) (5 * tiny) (pt (N:=B64_Num F) x dof false) (t_cdf (B2R dof) (B2R x)).
Proof. exact a_pt_tail. Qed.
Print Assumptions C63_pt_tail.
Example C63_pt_tail_ex : near (e2 + ulp1 + 14 * B2R (bofZ 5) * ulp1) (5 * tiny) (pt (N:=B64_Num TFR) (bofZ (-4)) (bofZ 5) false) (t_cdf (B2R (bofZ 5)) (B2R (bofZ (-4)))).
Proof. apply (C63_pt_tail TFR e2 (bofZ (-4)) (bofZ 5)); ext. Qed.

(** pf: through the incomplete beta function *)

Theorem C63_pf : forall (F : TF) (e : R) (x df1 df2 : b64), unit_ok e -> incbeta_acc F e -> big_eps x -> big_eps df1 -> big_eps df2 -> B2R df1 <= big -> 2 <= B2R df2 <= big -> 5000 * e * (1 + B2R df1 * B2R x / B2R df2) <= 1 ->
  near (e + 6 * B2R df1 * ulp1) tiny (pf (N:=B64_Num F) x df1 df2 false) (f_cdf (B2R df1) (B2R df2) (B2R x)).
Proof. exact a_pf. Qed.
Print Assumptions C63_pf.
Example C63_pf_ex : near (e2 + 6 * B2R (bofZ 4) * ulp1) tiny (pf (N:=B64_Num TFR) (bofZ 1) (bofZ 4) (bofZ 4) false) (f_cdf (B2R (bofZ 4)) (B2R (bofZ 4)) (B2R (bofZ 1))).
Proof. apply (C63_pf TFR e2 (bofZ 1) (bofZ 4) (bofZ 4)); ext. Qed.

Theorem C63_pf_low : forall (F : TF) (e : R) (x df1 df2 : b64), unit_ok e -> incbeta_acc F e -> big_eps x -> big_eps df1 -> big_eps df2 -> B2R df1 <= big -> B2R df2 <= big -> B2R df1 * B2R x / B2R df2 <= 2 ->
  near (e + 22 * B2R df1 * ulp1) tiny (pf (N:=B64_Num F) x df1 df2 false) (f_cdf (B2R df1) (B2R df2) (B2R x)).
Proof. exact a_pf_low. Qed.
Print Assumptions C63_pf_low.
Example C63_pf_low_ex : near (e2 + 22 * B2R (bofZ 1) * ulp1) tiny (pf (N:=B64_Num TFR) (bofZ 2) (bofZ 1) (bofZ 1) false) (f_cdf (B2R (bofZ 1)) (B2R (bofZ 1)) (B2R (bofZ 2))).
Proof. apply (C63_pf_low TFR e2 (bofZ 2) (bofZ 1) (bofZ 1)); ext. Qed.

(** pinvgauss: the second term is an exponential times a small probability, so the error grows with the exponential *)

Theorem C63_pinvgauss : forall (F : TF) (e : R) (x mu lambda : b64), unit_ok e -> const_acc e (t_SQRT_2 F) (sqrt 2) -> erf_acc F e -> exp_up_acc F e -> finite x -> finite mu -> finite lambda -> / big <= B2R x <= big -> / big <= B2R mu <= big -> / big <= B2R lambda <= big ->
  let V := exp (2 * B2R lambda / B2R mu) in let G := sqrt (B2R lambda * B2R x) / B2R mu in e * (V + G) <= / 1000 ->
  within ((12 + 5 * G + 14 * V) * e) (pinvgauss (N:=B64_Num F) x mu lambda false) (invgauss_cdf (B2R mu) (B2R lambda) (B2R x)).
Proof. exact a_pinvgauss. Qed.
Print Assumptions C63_pinvgauss.
Example C63_pinvgauss_ex : within ((12 + 5 * (sqrt (B2R (bofZ 1) * B2R (bofZ 4)) / B2R (bofZ 2)) + 14 * exp (2 * B2R (bofZ 1) / B2R (bofZ 2))) * e2) (pinvgauss (N:=B64_Num TFR) (bofZ 4) (bofZ 2) (bofZ 1) false) (invgauss_cdf (B2R (bofZ 2)) (B2R (bofZ 1)) (B2R (bofZ 4))).
Proof. apply (C63_pinvgauss TFR e2 (bofZ 4) (bofZ 2) (bofZ 1)); ext. Qed.

(** mu = 1, lambda = 36, x = 1: the second term, more than 7/1000, is lost even with correctly rounded functions *)

Theorem C63_pinvgauss_refuted : exists x mu lambda : b64, positive x /\ positive mu /\ positive lambda /\ ~ within (/ 200) (pinvgauss (N:=B64_Num TFR) x mu lambda false) (invgauss_cdf (B2R mu) (B2R lambda) (B2R x)).
Proof. exact a_pinvgauss_bad. Qed.
Print Assumptions C63_pinvgauss_refuted.

(** pbinom: a sum of densities, each the exponential of a rounded logarithm *)

Theorem C63_pbinom : forall (F : TF) (e : R) (x n : Z) (p : b64), unit_ok e -> log_binom_acc F e -> log_acc F e -> exp_up_acc F e -> (2 <= n <= 2 ^ 53)%Z -> (0 <= x)%Z -> finite p -> 0 < B2R p < 1 ->
  let W := 3 + IZR n * (2 + Rabs (ln (B2R p)) + Rabs (ln (1 - B2R p))) in 2000 * e * W <= 1 ->
  within (11 * e * W) (pbinom (N:=B64_Num F) x n p false) (sum_f_R0 (binom_pmf (Z.to_nat n) (B2R p)) (Z.to_nat x)).
Proof. exact a_pbinom. Qed.
Print Assumptions C63_pbinom.
Example C63_pbinom_ex : within (11 * e2 * (3 + 10 * (2 + Rabs (ln (B2R (blit (1#2)))) + Rabs (ln (1 - B2R (blit (1#2))))))) (pbinom (N:=B64_Num TFR) 3 10 (blit (1#2)) false) (sum_f_R0 (binom_pmf (Z.to_nat 10) (B2R (blit (1#2)))) (Z.to_nat 3)).
Proof. apply (C63_pbinom TFR e2 3 10 (blit (1#2))); try lia; ext. Qed.
