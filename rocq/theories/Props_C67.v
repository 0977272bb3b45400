(** C67: the rounding error of the density functions in binary64. *)
From Coq Require Import ZArith QArith Reals.
From Verif Require Import Erf GammaFn BetaFn NormR Spec SpecSF.
From Verif Require Import Num Dens B64 SpecB64 SpecAcc SpecAccD B64CR B64AccW B64Thm7.
From Flocq Require Import Core IEEE754.BinarySingleNaN.
Local Open Scope R_scope.


(** Each statement compares the double returned with the mathematical density at the same arguments.
    [density_acc e k S d r] (SpecAccD.v): the logarithmic form differs from ln r by at most k e S, where S is the
    sum of the sizes of the terms that are added; when k e S <= 1 and ln r <= 600 the plain form equals r * exp t + s
    with |t| <= k e S + e and |s| <= 2^-1074.  [within], [near], [positive], [finite]: SpecAcc.v.  The functions of
    the backend are arbitrary except that each one called is accurate to the unit e; the correctly rounded
    functions [TFR] satisfy this with e = 2^-51. *)

(** ** Continuous families *)

Theorem C67_dnorm : forall (F : TF) (e : R) (x mu sigma : b64), unit_ok e -> const_acc e (t_LOG_2PI F) (ln (2 * PI)) -> log_acc F e -> exp_up_acc F e -> finite x -> finite mu -> positive sigma -> reach (B2R mu) (B2R sigma) (B2R x) -> ((B2R x - B2R mu) / B2R sigma) * ((B2R x - B2R mu) / B2R sigma) / 2 <= huge / 4 -> 
  density_acc e 15 (3 + Rabs (ln (B2R sigma)) + (B2R x - B2R mu) / B2R sigma * ((B2R x - B2R mu) / B2R sigma) / 2) (dnorm (N:=B64_Num F) x mu sigma) (norm_pdf (B2R mu) (B2R sigma) (B2R x)).
Proof. exact ad_dnorm. Qed.
Print Assumptions C67_dnorm.
Example C67_dnorm_ex : density_acc e2 15 (3 + Rabs (ln (B2R (bofZ 2))) + (B2R (bofZ 1) - B2R (bofZ 0)) / B2R (bofZ 2) * ((B2R (bofZ 1) - B2R (bofZ 0)) / B2R (bofZ 2)) / 2) (dnorm (N:=B64_Num TFR) (bofZ 1) (bofZ 0) (bofZ 2)) (norm_pdf (B2R (bofZ 0)) (B2R (bofZ 2)) (B2R (bofZ 1))).
Proof. apply (C67_dnorm TFR e2 (bofZ 1) (bofZ 0) (bofZ 2)); exd. Qed.

Theorem C67_dlnorm : forall (F : TF) (e : R) (x mu sigma : b64), unit_ok e -> const_acc e (t_LOG_2PI F) (ln (2 * PI)) -> log_acc F e -> exp_up_acc F e -> positive x -> finite mu -> positive sigma -> Rabs (B2R mu) <= huge / 2 -> 
  let z := (ln (B2R x) - B2R mu) / B2R sigma in let W := (1 + Rabs (ln (B2R x))) / B2R sigma in
  let S := 5 + Rabs (ln (B2R sigma)) + Rabs (ln (B2R x)) + z * z + W * (1 + Rabs z) in e * W <= / 2 -> S <= huge / 4 ->
  within (19 * e * S) (dlnorm (N:=B64_Num F) x mu sigma true) (ln (lnorm_pdf (B2R mu) (B2R sigma) (B2R x))) /\
  (18 * e * S <= / 400 -> ln (norm_pdf (B2R mu) (B2R sigma) (ln (B2R x))) <= 600 -> lnorm_pdf (B2R mu) (B2R sigma) (B2R x) <= huge -> / huge <= B2R x ->
   near (19 * e * S) (4 * (tiny / B2R x) + tiny) (dlnorm (N:=B64_Num F) x mu sigma false) (lnorm_pdf (B2R mu) (B2R sigma) (B2R x))).
Proof. exact ad_dlnorm. Qed.
Print Assumptions C67_dlnorm.
Example C67_dlnorm_ex : let z := (ln (B2R (bofZ 1)) - B2R (bofZ 0)) / B2R (bofZ 2) in let W := (1 + Rabs (ln (B2R (bofZ 1)))) / B2R (bofZ 2) in
  let S := 5 + Rabs (ln (B2R (bofZ 2))) + Rabs (ln (B2R (bofZ 1))) + z * z + W * (1 + Rabs z) in e2 * W <= / 2 -> S <= huge / 4 ->
  within (19 * e2 * S) (dlnorm (N:=B64_Num TFR) (bofZ 1) (bofZ 0) (bofZ 2) true) (ln (lnorm_pdf (B2R (bofZ 0)) (B2R (bofZ 2)) (B2R (bofZ 1)))) /\
  (18 * e2 * S <= / 400 -> ln (norm_pdf (B2R (bofZ 0)) (B2R (bofZ 2)) (ln (B2R (bofZ 1)))) <= 600 -> lnorm_pdf (B2R (bofZ 0)) (B2R (bofZ 2)) (B2R (bofZ 1)) <= huge -> / huge <= B2R (bofZ 1) ->
   near (19 * e2 * S) (4 * (tiny / B2R (bofZ 1)) + tiny) (dlnorm (N:=B64_Num TFR) (bofZ 1) (bofZ 0) (bofZ 2) false) (lnorm_pdf (B2R (bofZ 0)) (B2R (bofZ 2)) (B2R (bofZ 1)))).
Proof. apply (C67_dlnorm TFR e2 (bofZ 1) (bofZ 0) (bofZ 2)); exd. Qed.

Theorem C67_dexp : forall (F : TF) (e : R) (x rate : b64), unit_ok e -> log_acc F e -> exp_up_acc F e -> finite x -> 0 <= B2R x -> positive rate -> B2R rate * B2R x <= huge / 4 -> 
  density_acc e 5 (2 + Rabs (ln (B2R rate)) + B2R rate * B2R x) (dexp (N:=B64_Num F) x rate) (exp_pdf (B2R rate) (B2R x)).
Proof. exact ad_dexp. Qed.
Print Assumptions C67_dexp.
Example C67_dexp_ex : density_acc e2 5 (2 + Rabs (ln (B2R (bofZ 2))) + B2R (bofZ 2) * B2R (bofZ 3)) (dexp (N:=B64_Num TFR) (bofZ 3) (bofZ 2)) (exp_pdf (B2R (bofZ 2)) (B2R (bofZ 3))).
Proof. apply (C67_dexp TFR e2 (bofZ 3) (bofZ 2)); exd. Qed.

Theorem C67_dlaplace : forall (F : TF) (e : R) (x mu sigma : b64), unit_ok e -> log_acc F e -> exp_up_acc F e -> finite x -> finite mu -> positive sigma -> B2R sigma <= huge / 4 -> reach (B2R mu) (B2R sigma) (B2R x) -> Rabs ((B2R x - B2R mu) / B2R sigma) <= huge / 4 -> 
  density_acc e 5 (2 + Rabs (ln (2 * B2R sigma)) + Rabs ((B2R x - B2R mu) / B2R sigma)) (dlaplace (N:=B64_Num F) x mu sigma) (laplace_pdf (B2R mu) (B2R sigma) (B2R x)).
Proof. exact ad_dlaplace. Qed.
Print Assumptions C67_dlaplace.
Example C67_dlaplace_ex : density_acc e2 5 (2 + Rabs (ln (2 * B2R (bofZ 2))) + Rabs ((B2R (bofZ 1) - B2R (bofZ 0)) / B2R (bofZ 2))) (dlaplace (N:=B64_Num TFR) (bofZ 1) (bofZ 0) (bofZ 2)) (laplace_pdf (B2R (bofZ 0)) (B2R (bofZ 2)) (B2R (bofZ 1))).
Proof. apply (C67_dlaplace TFR e2 (bofZ 1) (bofZ 0) (bofZ 2)); exd. Qed.

Theorem C67_dlogis : forall (F : TF) (e : R) (x mu sigma : b64), unit_ok e -> log_acc F e -> exp_up_acc F e -> finite x -> finite mu -> positive sigma -> reach (B2R mu) (B2R sigma) (B2R x) -> Rabs ((B2R x - B2R mu) / B2R sigma) <= 600 -> 
  density_acc e 12 (4 + Rabs (ln (B2R sigma)) + 3 * Rabs ((B2R x - B2R mu) / B2R sigma)) (dlogis (N:=B64_Num F) x mu sigma) (logis_pdf (B2R mu) (B2R sigma) (B2R x)).
Proof. exact ad_dlogis. Qed.
Print Assumptions C67_dlogis.
Example C67_dlogis_ex : density_acc e2 12 (4 + Rabs (ln (B2R (bofZ 2))) + 3 * Rabs ((B2R (bofZ 1) - B2R (bofZ 0)) / B2R (bofZ 2))) (dlogis (N:=B64_Num TFR) (bofZ 1) (bofZ 0) (bofZ 2)) (logis_pdf (B2R (bofZ 0)) (B2R (bofZ 2)) (B2R (bofZ 1))).
Proof. apply (C67_dlogis TFR e2 (bofZ 1) (bofZ 0) (bofZ 2)); exd. Qed.

Theorem C67_dcauchy : forall (F : TF) (e : R) (x mu sigma : b64), unit_ok e -> log_acc F e -> const_acc e (t_PI F) PI -> finite x -> finite mu -> positive sigma -> / huge <= B2R sigma <= huge / 4 -> reach (B2R mu) (B2R sigma) (B2R x) -> 1 + (B2R x - B2R mu) / B2R sigma * ((B2R x - B2R mu) / B2R sigma) <= huge / 2 -> / huge <= cauchy_pdf (B2R mu) (B2R sigma) (B2R x) <= huge -> 
  let p := cauchy_pdf (B2R mu) (B2R sigma) (B2R x) in within (63 * e * (1 + Rabs (ln p))) (dcauchy (N:=B64_Num F) x mu sigma true) (ln p) /\ near (60 * e) 0 (dcauchy (N:=B64_Num F) x mu sigma false) p.
Proof. exact ad_dcauchy. Qed.
Print Assumptions C67_dcauchy.
Example C67_dcauchy_ex : let p := cauchy_pdf (B2R (bofZ 0)) (B2R (bofZ 2)) (B2R (bofZ 1)) in within (63 * e2 * (1 + Rabs (ln p))) (dcauchy (N:=B64_Num TFR) (bofZ 1) (bofZ 0) (bofZ 2) true) (ln p) /\ near (60 * e2) 0 (dcauchy (N:=B64_Num TFR) (bofZ 1) (bofZ 0) (bofZ 2) false) p.
Proof. apply (C67_dcauchy TFR e2 (bofZ 1) (bofZ 0) (bofZ 2)); exd. Qed.

Theorem C67_dunif : forall (F : TF) (e : R) (x a b : b64), unit_ok e -> log_acc F e -> finite x -> finite a -> finite b -> B2R a < B2R b -> B2R a <= B2R x <= B2R b -> / huge <= B2R b - B2R a <= huge -> 
  let p := unif_pdf (B2R a) (B2R b) in within (4 * e * (1 + Rabs (ln (B2R b - B2R a)))) (dunif (N:=B64_Num F) x a b true) (ln p) /\ near (2 * e) tiny (dunif (N:=B64_Num F) x a b false) p.
Proof. exact ad_dunif. Qed.
Print Assumptions C67_dunif.
Example C67_dunif_ex : let p := unif_pdf (B2R (bofZ 1)) (B2R (bofZ 4)) in within (4 * e2 * (1 + Rabs (ln (B2R (bofZ 4) - B2R (bofZ 1))))) (dunif (N:=B64_Num TFR) (bofZ 2) (bofZ 1) (bofZ 4) true) (ln p) /\ near (2 * e2) tiny (dunif (N:=B64_Num TFR) (bofZ 2) (bofZ 1) (bofZ 4) false) p.
Proof. apply (C67_dunif TFR e2 (bofZ 2) (bofZ 1) (bofZ 4)); exd. Qed.

Theorem C67_dgamma : forall (F : TF) (e : R) (x shape scale : b64), unit_ok e -> lgamma_acc F e -> log_acc F e -> exp_up_acc F e -> positive x -> positive shape -> B2R shape <= bpow radix2 900 -> positive scale -> Bleb beps scale = true -> 
  let S := 4 + Rabs (ln (Gam (B2R shape))) + B2R shape * (1 + Rabs (ln (B2R scale))) + Rabs (B2R shape - 1) * (1 + Rabs (ln (B2R x))) + B2R x / B2R scale in S <= huge / 4 -> density_acc e 11 S (dgamma (N:=B64_Num F) x shape scale) (gamma_pdf (B2R shape) (B2R scale) (B2R x)).
Proof. exact ad_dgamma. Qed.
Print Assumptions C67_dgamma.
Example C67_dgamma_ex : let S := 4 + Rabs (ln (Gam (B2R (bofZ 2)))) + B2R (bofZ 2) * (1 + Rabs (ln (B2R (bofZ 4)))) + Rabs (B2R (bofZ 2) - 1) * (1 + Rabs (ln (B2R (bofZ 3)))) + B2R (bofZ 3) / B2R (bofZ 4) in S <= huge / 4 -> density_acc e2 11 S (dgamma (N:=B64_Num TFR) (bofZ 3) (bofZ 2) (bofZ 4)) (gamma_pdf (B2R (bofZ 2)) (B2R (bofZ 4)) (B2R (bofZ 3))).
Proof. apply (C67_dgamma TFR e2 (bofZ 3) (bofZ 2) (bofZ 4)); exd. Qed.

Theorem C67_dinvgamma : forall (F : TF) (e : R) (x shape rate : b64), unit_ok e -> lgamma_acc F e -> log_acc F e -> exp_up_acc F e -> positive x -> positive shape -> B2R shape <= bpow radix2 900 -> positive rate -> 
  let S := 4 + Rabs (ln (Gam (B2R shape))) + B2R shape * (1 + Rabs (ln (B2R rate))) + (B2R shape + 1) * (1 + Rabs (ln (B2R x))) + B2R rate / B2R x in S <= huge / 4 -> density_acc e 11 S (dinvgamma (N:=B64_Num F) x shape rate) (invgamma_pdf (B2R shape) (B2R rate) (B2R x)).
Proof. exact ad_dinvgamma. Qed.
Print Assumptions C67_dinvgamma.
Example C67_dinvgamma_ex : let S := 4 + Rabs (ln (Gam (B2R (bofZ 2)))) + B2R (bofZ 2) * (1 + Rabs (ln (B2R (bofZ 4)))) + (B2R (bofZ 2) + 1) * (1 + Rabs (ln (B2R (bofZ 3)))) + B2R (bofZ 4) / B2R (bofZ 3) in S <= huge / 4 -> density_acc e2 11 S (dinvgamma (N:=B64_Num TFR) (bofZ 3) (bofZ 2) (bofZ 4)) (invgamma_pdf (B2R (bofZ 2)) (B2R (bofZ 4)) (B2R (bofZ 3))).
Proof. apply (C67_dinvgamma TFR e2 (bofZ 3) (bofZ 2) (bofZ 4)); exd. Qed.

Theorem C67_dchisq : forall (F : TF) (e : R) (x dof : b64), unit_ok e -> const_acc e (t_LOG_2 F) (ln 2) -> lgamma_acc F e -> log_acc F e -> exp_up_acc F e -> positive x -> positive dof -> / huge <= B2R dof <= bpow radix2 900 -> 
  let S := 4 + Rabs (ln (Gam (B2R dof / 2))) + B2R dof / 2 + Rabs (B2R dof / 2 - 1) * (1 + Rabs (ln (B2R x))) + B2R x / 2 in S <= huge / 4 -> density_acc e 11 S (dchisq (N:=B64_Num F) x dof) (chisq_pdf (B2R dof) (B2R x)).
Proof. exact ad_dchisq. Qed.
Print Assumptions C67_dchisq.
Example C67_dchisq_ex : let S := 4 + Rabs (ln (Gam (B2R (bofZ 5) / 2))) + B2R (bofZ 5) / 2 + Rabs (B2R (bofZ 5) / 2 - 1) * (1 + Rabs (ln (B2R (bofZ 3)))) + B2R (bofZ 3) / 2 in S <= huge / 4 -> density_acc e2 11 S (dchisq (N:=B64_Num TFR) (bofZ 3) (bofZ 5)) (chisq_pdf (B2R (bofZ 5)) (B2R (bofZ 3))).
Proof. apply (C67_dchisq TFR e2 (bofZ 3) (bofZ 5)); exd. Qed.

Theorem C67_dbeta : forall (F : TF) (e : R) (x a b : b64), unit_ok e -> lgamma_acc F e -> log_acc F e -> exp_up_acc F e -> positive x -> B2R x < 1 -> positive a -> positive b -> B2R (badd a b) = B2R a + B2R b -> B2R a + B2R b <= bpow radix2 900 -> 
  let S := 5 + Rabs (ln (Gam (B2R a))) + Rabs (ln (Gam (B2R b))) + Rabs (ln (Gam (B2R a + B2R b))) + Rabs (B2R a - 1) * (1 + Rabs (ln (B2R x))) + Rabs (B2R b - 1) * (1 + Rabs (ln (1 - B2R x))) in S <= huge / 4 -> density_acc e 11 S (dbeta (N:=B64_Num F) x a b) (beta_pdf (B2R a) (B2R b) (B2R x)).
Proof. exact ad_dbeta. Qed.
Print Assumptions C67_dbeta.
Example C67_dbeta_ex : let S := 5 + Rabs (ln (Gam (B2R (bofZ 3)))) + Rabs (ln (Gam (B2R (bofZ 2)))) + Rabs (ln (Gam (B2R (bofZ 3) + B2R (bofZ 2)))) + Rabs (B2R (bofZ 3) - 1) * (1 + Rabs (ln (B2R (blit (1#2))))) + Rabs (B2R (bofZ 2) - 1) * (1 + Rabs (ln (1 - B2R (blit (1#2))))) in S <= huge / 4 -> density_acc e2 11 S (dbeta (N:=B64_Num TFR) (blit (1#2)) (bofZ 3) (bofZ 2)) (beta_pdf (B2R (bofZ 3)) (B2R (bofZ 2)) (B2R (blit (1#2)))).
Proof. apply (C67_dbeta TFR e2 (blit (1#2)) (bofZ 3) (bofZ 2)); exd. Qed.

Theorem C67_dt : forall (F : TF) (e : R) (x dof : b64), unit_ok e -> const_acc e (t_LOG_PI F) (ln PI) -> lgamma_acc F e -> log_acc F e -> exp_up_acc F e -> finite x -> finite dof -> Bleb beps dof = true -> B2R dof <= bpow radix2 900 -> Rabs (B2R x) <= bpow radix2 400 -> B2R (badd (bdiv dof (bofZ 2)) (blit (1#2))) = (B2R dof + 1) / 2 -> 
  let S := 5 + Rabs (ln (Gam ((B2R dof + 1) / 2))) + Rabs (ln (Gam (B2R dof / 2))) + Rabs (ln (B2R dof)) + (B2R dof + 1) / 2 * (1 + ln (1 + B2R x / B2R dof * B2R x)) in S <= huge / 4 -> density_acc e 27 S (dt (N:=B64_Num F) x dof) (t_pdf (B2R dof) (B2R x)).
Proof. exact ad_dt. Qed.
Print Assumptions C67_dt.
Example C67_dt_ex : let S := 5 + Rabs (ln (Gam ((B2R (bofZ 5) + 1) / 2))) + Rabs (ln (Gam (B2R (bofZ 5) / 2))) + Rabs (ln (B2R (bofZ 5))) + (B2R (bofZ 5) + 1) / 2 * (1 + ln (1 + B2R (bofZ 3) / B2R (bofZ 5) * B2R (bofZ 3))) in S <= huge / 4 -> density_acc e2 27 S (dt (N:=B64_Num TFR) (bofZ 3) (bofZ 5)) (t_pdf (B2R (bofZ 5)) (B2R (bofZ 3))).
Proof. apply (C67_dt TFR e2 (bofZ 3) (bofZ 5)); exd. Qed.

Theorem C67_dweibull : forall (F : TF) (e : R) (x shape scale : b64), unit_ok e -> pow_acc F e -> log_acc F e -> exp_up_acc F e -> positive x -> finite shape -> finite scale -> Bleb beps shape = true -> Bleb beps scale = true -> mid (B2R shape / B2R scale) -> mid (B2R x / B2R scale) -> B2R shape * e <= / 1000 -> 
  let z := B2R x / B2R scale in let S := 3 + Rabs (ln (B2R shape / B2R scale)) + Rabs (B2R shape - 1) * (1 + Rabs (ln z)) + (1 + B2R shape) * Rpower z (B2R shape) in S <= huge / 8 -> density_acc e 13 S (dweibull (N:=B64_Num F) x shape scale) (weibull_pdf (B2R shape) (B2R scale) (B2R x)).
Proof. exact ad_dweibull. Qed.
Print Assumptions C67_dweibull.
Example C67_dweibull_ex : let z := B2R (bofZ 4) / B2R (bofZ 2) in let S := 3 + Rabs (ln (B2R (bofZ 3) / B2R (bofZ 2))) + Rabs (B2R (bofZ 3) - 1) * (1 + Rabs (ln z)) + (1 + B2R (bofZ 3)) * Rpower z (B2R (bofZ 3)) in S <= huge / 8 -> density_acc e2 13 S (dweibull (N:=B64_Num TFR) (bofZ 4) (bofZ 3) (bofZ 2)) (weibull_pdf (B2R (bofZ 3)) (B2R (bofZ 2)) (B2R (bofZ 4))).
Proof. apply (C67_dweibull TFR e2 (bofZ 4) (bofZ 3) (bofZ 2)); exd. Qed.

Theorem C67_dinvgauss : forall (F : TF) (e : R) (x mu lambda : b64), unit_ok e -> const_acc e (t_LOG_2PI F) (ln (2 * PI)) -> log_acc F e -> exp_up_acc F e -> positive x -> positive mu -> positive lambda -> mid0 ((B2R x - B2R mu) * (B2R x - B2R mu)) -> mid0 (- B2R lambda * ((B2R x - B2R mu) * (B2R x - B2R mu))) -> mid (2 * B2R mu) -> mid (2 * B2R mu * B2R mu) -> mid (2 * B2R mu * B2R mu * B2R x) -> 
  let q := B2R lambda * ((B2R x - B2R mu) * (B2R x - B2R mu)) / (2 * B2R mu * B2R mu * B2R x) in let S := 5 + 2 * Rabs (ln (B2R x)) + Rabs (ln (B2R lambda)) + q in S <= huge / 4 -> density_acc e 16 S (dinvgauss (N:=B64_Num F) x mu lambda) (invgauss_pdf (B2R mu) (B2R lambda) (B2R x)).
Proof. exact ad_dinvgauss. Qed.
Print Assumptions C67_dinvgauss.
Example C67_dinvgauss_ex : let q := B2R (bofZ 4) * ((B2R (bofZ 3) - B2R (bofZ 2)) * (B2R (bofZ 3) - B2R (bofZ 2))) / (2 * B2R (bofZ 2) * B2R (bofZ 2) * B2R (bofZ 3)) in let S := 5 + 2 * Rabs (ln (B2R (bofZ 3))) + Rabs (ln (B2R (bofZ 4))) + q in S <= huge / 4 -> density_acc e2 16 S (dinvgauss (N:=B64_Num TFR) (bofZ 3) (bofZ 2) (bofZ 4)) (invgauss_pdf (B2R (bofZ 2)) (B2R (bofZ 4)) (B2R (bofZ 3))).
Proof. apply (C67_dinvgauss TFR e2 (bofZ 3) (bofZ 2) (bofZ 4)); exd. Qed.

(** F: the beta density at u times the factor j.  The relative error of 1 - u grows with q = 1 / (1 - u), and with it the bound. *)

Theorem C67_df : forall (F : TF) (e : R) (x df1 df2 : b64), unit_ok e -> lgamma_acc F e -> log_acc F e -> exp_up_acc F e -> positive x -> big_eps df1 -> big_eps df2 -> B2R df1 <= bpow radix2 900 -> B2R df2 <= bpow radix2 900 -> B2R (badd (bdiv df1 (bofZ 2)) (bdiv df2 (bofZ 2))) = (B2R df1 + B2R df2) / 2 -> 
  let c := B2R df1 * B2R x / B2R df2 in let q := 1 + c in let a := B2R df1 / 2 in let b := B2R df2 / 2 in let u := c / q in let j := B2R df1 / B2R df2 / q / q in
  mid (B2R df1 * B2R x) -> mid c -> mid u -> mid (B2R df1 / B2R df2) -> mid (B2R df1 / B2R df2 / q) -> mid j -> 5000 * e * q <= 1 ->
  let S := q * (5 + Rabs (ln (Gam a)) + Rabs (ln (Gam b)) + Rabs (ln (Gam (a + b))) + Rabs (a - 1) * (1 + Rabs (ln u)) + Rabs (b - 1) * (1 + Rabs (ln (1 - u))) + Rabs (ln j)) in
  32 * e * S <= / 200 -> let p := f_pdf (B2R df1) (B2R df2) (B2R x) in
  within (32 * e * S) (df (N:=B64_Num F) x df1 df2 true) (ln p) /\
  (ln (beta_pdf a b u) <= 599 -> p <= huge -> near (32 * e * S) ((4 * j + 1) * tiny) (df (N:=B64_Num F) x df1 df2 false) p).
Proof. exact ad_df. Qed.
Print Assumptions C67_df.
Example C67_df_ex : within (448 * e2) (df (N:=B64_Num TFR) (bofZ 1) (bofZ 2) (bofZ 2) true) (ln (f_pdf 2 2 1)) /\ near (448 * e2) (2 * tiny) (df (N:=B64_Num TFR) (bofZ 1) (bofZ 2) (bofZ 2) false) (f_pdf 2 2 1).
Proof. exact (df_num (C67_df TFR e2 (bofZ 1) (bofZ 2) (bofZ 2) e2_ok)). Qed.

(** ** Discrete families *)

Theorem C67_dpois : forall (F : TF) (e : R) (x : Z) (rate : b64), unit_ok e -> lgamma_acc F e -> log_acc F e -> exp_up_acc F e -> (0 <= x < 2 ^ 53)%Z -> positive rate -> 
  let S := 3 + IZR x * (1 + Rabs (ln (B2R rate))) + B2R rate + Rabs (ln (Gam (IZR x + 1))) in S <= huge / 4 -> density_acc e 9 S (dpois (N:=B64_Num F) x rate) (pois_pmf (B2R rate) (Z.to_nat x)).
Proof. exact ad_dpois. Qed.
Print Assumptions C67_dpois.
Example C67_dpois_ex : let S := 3 + IZR 3%Z * (1 + Rabs (ln (B2R (bofZ 2)))) + B2R (bofZ 2) + Rabs (ln (Gam (IZR 3%Z + 1))) in S <= huge / 4 -> density_acc e2 9 S (dpois (N:=B64_Num TFR) 3%Z (bofZ 2)) (pois_pmf (B2R (bofZ 2)) (Z.to_nat 3%Z)).
Proof. apply (C67_dpois TFR e2 3%Z (bofZ 2)); exd. Qed.

Theorem C67_dbinom : forall (F : TF) (e : R) (n x : Z) (p : b64), unit_ok e -> log_binom_acc F e -> log_acc F e -> exp_up_acc F e -> (2 <= n <= 2 ^ 53)%Z -> (0 <= x <= n)%Z -> finite p -> 0 < B2R p < 1 -> 
  let S := 3 + Rabs (ln (Binomial.C (Z.to_nat n) (Z.to_nat x))) + IZR x * (1 + Rabs (ln (B2R p))) + IZR (n - x) * (1 + Rabs (ln (1 - B2R p))) in S <= huge / 4 -> density_acc e 9 S (dbinom (N:=B64_Num F) x n p) (binom_pmf (Z.to_nat n) (B2R p) (Z.to_nat x)).
Proof. exact ad_dbinom. Qed.
Print Assumptions C67_dbinom.
Example C67_dbinom_ex : let S := 3 + Rabs (ln (Binomial.C (Z.to_nat 5%Z) (Z.to_nat 2%Z))) + IZR 2%Z * (1 + Rabs (ln (B2R (blit (1#2))))) + IZR (5%Z - 2%Z) * (1 + Rabs (ln (1 - B2R (blit (1#2))))) in S <= huge / 4 -> density_acc e2 9 S (dbinom (N:=B64_Num TFR) 2%Z 5%Z (blit (1#2))) (binom_pmf (Z.to_nat 5%Z) (B2R (blit (1#2))) (Z.to_nat 2%Z)).
Proof. apply (C67_dbinom TFR e2 5%Z 2%Z (blit (1#2))); exd. Qed.

Theorem C67_dbern : forall (F : TF) (e : R) (p : b64) (x : Z), unit_ok e -> log_acc F e -> finite p -> 0 < B2R p < 1 -> (x = 0 \/ x = 1)%Z -> 
  let r := bern_pmf (B2R p) x in within (4 * e * (1 + Rabs (ln r))) (dbern (N:=B64_Num F) x p true) (ln r) /\ near (1 * e) 0 (dbern (N:=B64_Num F) x p false) r.
Proof. exact ad_dbern. Qed.
Print Assumptions C67_dbern.
Example C67_dbern_ex : let r := bern_pmf (B2R (blit (1#2))) 1%Z in within (4 * e2 * (1 + Rabs (ln r))) (dbern (N:=B64_Num TFR) 1%Z (blit (1#2)) true) (ln r) /\ near (1 * e2) 0 (dbern (N:=B64_Num TFR) 1%Z (blit (1#2)) false) r.
Proof. apply (C67_dbern TFR e2 (blit (1#2)) 1%Z); exd. Qed.

Theorem C67_dradem : forall (F : TF) (e : R) (p : b64) (x : Z), unit_ok e -> log_acc F e -> finite p -> 0 < B2R p < 1 -> (x = -1 \/ x = 1)%Z -> 
  let r := radem_pmf (B2R p) x in within (4 * e * (1 + Rabs (ln r))) (dradem (N:=B64_Num F) x p true) (ln r) /\ near (1 * e) 0 (dradem (N:=B64_Num F) x p false) r.
Proof. exact ad_dradem. Qed.
Print Assumptions C67_dradem.
Example C67_dradem_ex : let r := radem_pmf (B2R (blit (1#2))) 1%Z in within (4 * e2 * (1 + Rabs (ln r))) (dradem (N:=B64_Num TFR) 1%Z (blit (1#2)) true) (ln r) /\ near (1 * e2) 0 (dradem (N:=B64_Num TFR) 1%Z (blit (1#2)) false) r.
Proof. apply (C67_dradem TFR e2 (blit (1#2)) 1%Z); exd. Qed.

(** The correctly rounded functions satisfy every hypothesis. *)

Theorem C67_correctly_rounded : unit_ok e2 /\ log_acc TFR e2 /\ exp_up_acc TFR e2 /\ lgamma_acc TFR e2 /\ log_binom_acc TFR e2 /\ pow_acc TFR e2 /\
  const_acc e2 (t_LOG_2PI TFR) (ln (2 * PI)) /\ const_acc e2 (t_LOG_2 TFR) (ln 2) /\ const_acc e2 (t_LOG_PI TFR) (ln PI) /\ const_acc e2 (t_PI TFR) PI.
Proof. exact tfr_all_d. Qed.
Print Assumptions C67_correctly_rounded.
Example C67_correctly_rounded_ex : e2 = 2 * ulp1.
Proof. reflexivity. Qed.

(** The plain form of one density, with the error as a number: exp_pdf 2 at 3 within a relative error of 94 units e. *)

Theorem C67_dexp_plain : near (94 * e2) tiny (dexp (N:=B64_Num TFR) (bofZ 3) (bofZ 2) false) (exp_pdf 2 3).
Proof. exact dexp_plain. Qed.
Print Assumptions C67_dexp_plain.
Example C67_dexp_plain_ex : 94 * e2 <= / 1000000000000.
Proof. exact e2_94. Qed.

(** ** Where the result is lost even with correctly rounded functions: the exponential in dlogis and the square in dcauchy overflow *)

Theorem C67_dlogis_refuted : exists x, finite x /\ B2R x = -2000 /\ dlogis (N:=B64_Num TFR) x (bofZ 0) (bofZ 1) true = minus_inf /\ -2001 <= ln (logis_pdf 0 1 (B2R x)) <= -1999.
Proof. exact ad_dlogis_refuted. Qed.
Print Assumptions C67_dlogis_refuted.
Example C67_dlogis_refuted_ex : exists x, finite x /\ dlogis (N:=B64_Num TFR) x (bofZ 0) (bofZ 1) true = minus_inf.
Proof. destruct C67_dlogis_refuted as (x & H1 & H2). exists x. tauto. Qed.

Theorem C67_dcauchy_refuted : exists x, finite x /\ dcauchy (N:=B64_Num TFR) x (bofZ 0) (bofZ 1) true = minus_inf /\ B2R (dcauchy (N:=B64_Num TFR) x (bofZ 0) (bofZ 1) false) = 0 /\ bpow radix2 (-1030) <= cauchy_pdf 0 1 (B2R x).
Proof. exact ad_dcauchy_refuted. Qed.
Print Assumptions C67_dcauchy_refuted.
Example C67_dcauchy_refuted_ex : exists x, finite x /\ dcauchy (N:=B64_Num TFR) x (bofZ 0) (bofZ 1) true = minus_inf.
Proof. destruct C67_dcauchy_refuted as (x & H1 & H2). exists x. tauto. Qed.
