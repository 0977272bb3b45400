(** C61: densities evaluated in binary64 are never negative and never NaN, in both forms. *)
From Coq Require Import ZArith QArith Bool.
From Verif Require Import Num Dens B64 SpecB64 SpecB64D B64Thm B64Thm2 B64CR B64CR2 B64CR3 B64CdfBad B64DensBad.
From Flocq Require Import IEEE754.BinarySingleNaN.
Local Open Scope Z_scope.
Local Open Scope b64_scope.


(** [b64_densities d]: for every double x other than NaN, infinities included, [d false x] >= 0 in the sense
    of IEEE 754 (so it is not NaN) and [d true x], the log form, is not NaN.  The functions of the backend
    are arbitrary except for the hypotheses of SpecB64.v and SpecB64D.v, which the correctly rounded
    functions [TFR] satisfy; [btwo k] is 2^k. *)

Theorem C61_dnorm : forall (F : TF) (mu sigma : b64), exp_all_ok F -> log_std F -> small_const (t_LOG_2PI F) -> b64_fin mu -> bofZ 0 ≤ sigma -> b64_densities (fun lf x => dnorm (N:=B64_Num F) x mu sigma lf).
Proof. exact t_dnorm. Qed.
Print Assumptions C61_dnorm.
Example C61_dnorm_ex : b64_densities (fun lf x => dnorm (N:=B64_Num TFR) x (bofZ 1) (bofZ 2) lf).
Proof. apply (C61_dnorm TFR (bofZ 1) (bofZ 2)); ex_tf2. Qed.

Theorem C61_dlaplace : forall (F : TF) (mu sigma : b64), exp_all_ok F -> log_std F -> b64_fin mu -> bofZ 0 ≤ sigma -> b64_densities (fun lf x => dlaplace (N:=B64_Num F) x mu sigma lf).
Proof. exact t_dlaplace. Qed.
Print Assumptions C61_dlaplace.
Example C61_dlaplace_ex : b64_densities (fun lf x => dlaplace (N:=B64_Num TFR) x (bofZ 1) (bofZ 2) lf).
Proof. apply (C61_dlaplace TFR (bofZ 1) (bofZ 2)); ex_tf2. Qed.

Theorem C61_dlnorm : forall (F : TF) (mu sigma : b64), exp_all_ok F -> log_std F -> small_const (t_LOG_2PI F) -> b64_fin mu -> bofZ 0 ≤ sigma -> b64_densities (fun lf x => dlnorm (N:=B64_Num F) x mu sigma lf).
Proof. exact t_dlnorm. Qed.
Print Assumptions C61_dlnorm.
Example C61_dlnorm_ex : b64_densities (fun lf x => dlnorm (N:=B64_Num TFR) x (bofZ 1) (bofZ 2) lf).
Proof. apply (C61_dlnorm TFR (bofZ 1) (bofZ 2)); ex_tf2. Qed.

Theorem C61_dcauchy : forall (F : TF) (mu sigma : b64), log_std F -> b64_fin (t_PI F) -> bofZ 1 ≤ t_PI F -> b64_fin mu -> b64_pos sigma -> b64_densities (fun lf x => dcauchy (N:=B64_Num F) x mu sigma lf).
Proof. exact t_dcauchy. Qed.
Print Assumptions C61_dcauchy.
Example C61_dcauchy_ex : b64_densities (fun lf x => dcauchy (N:=B64_Num TFR) x (bofZ 1) (bofZ 2) lf).
Proof. apply (C61_dcauchy TFR (bofZ 1) (bofZ 2)); ex_tf2. Qed.

Theorem C61_dexp : forall (F : TF) (rate : b64), exp_all_ok F -> log_std F -> b64_pos rate -> b64_densities (fun lf x => dexp (N:=B64_Num F) x rate lf).
Proof. exact t_dexp. Qed.
Print Assumptions C61_dexp.
Example C61_dexp_ex : b64_densities (fun lf x => dexp (N:=B64_Num TFR) x (bofZ 3) lf).
Proof. apply (C61_dexp TFR (bofZ 3)); ex_tf2. Qed.

Theorem C61_dunif : forall (F : TF) (a b : b64), log_std F -> b64_fin a -> b64_fin b -> a ≺ b -> b64_densities (fun lf x => dunif (N:=B64_Num F) x a b lf).
Proof. exact t_dunif. Qed.
Print Assumptions C61_dunif.
Example C61_dunif_ex : b64_densities (fun lf x => dunif (N:=B64_Num TFR) x (bofZ 1) (bofZ 4) lf).
Proof. apply (C61_dunif TFR (bofZ 1) (bofZ 4)); ex_tf2. Qed.

Theorem C61_dgamma : forall (F : TF) (shape scale : b64), lgamma_mid F -> log_std F -> exp_all_ok F -> bofZ 0 ≤ shape -> shape ≤ btwo 990 -> beps ≤ scale -> b64_densities (fun lf x => dgamma (N:=B64_Num F) x shape scale lf).
Proof. exact t_dgamma. Qed.
Print Assumptions C61_dgamma.
Example C61_dgamma_ex : b64_densities (fun lf x => dgamma (N:=B64_Num TFR) x (bofZ 3) (bofZ 2) lf).
Proof. apply (C61_dgamma TFR (bofZ 3) (bofZ 2)); ex_tf2. Qed.

Theorem C61_dchisq : forall (F : TF) (dof : b64), lgamma_mid F -> log_std F -> exp_all_ok F -> small_const (t_LOG_2 F) -> b64_pos (bmul (blit (1#2)) dof) -> dof ≤ btwo 990 -> b64_densities (fun lf x => dchisq (N:=B64_Num F) x dof lf).
Proof. exact t_dchisq. Qed.
Print Assumptions C61_dchisq.
Example C61_dchisq_ex : b64_densities (fun lf x => dchisq (N:=B64_Num TFR) x (bofZ 3) lf).
Proof. apply (C61_dchisq TFR (bofZ 3)); ex_tf2. Qed.

Theorem C61_dinvgamma : forall (F : TF) (shape rate : b64), lgamma_mid F -> log_std F -> exp_all_ok F -> bofZ 0 ≤ shape -> shape ≤ btwo 990 -> bofZ 0 ≤ rate -> b64_densities (fun lf x => dinvgamma (N:=B64_Num F) x shape rate lf).
Proof. exact t_dinvgamma. Qed.
Print Assumptions C61_dinvgamma.
Example C61_dinvgamma_ex : b64_densities (fun lf x => dinvgamma (N:=B64_Num TFR) x (bofZ 3) (bofZ 2) lf).
Proof. apply (C61_dinvgamma TFR (bofZ 3) (bofZ 2)); ex_tf2. Qed.

Theorem C61_dbeta : forall (F : TF) (a b : b64), lgamma_mid F -> log_std F -> exp_all_ok F -> bofZ 0 ≤ a -> a ≤ btwo 989 -> bofZ 0 ≤ b -> b ≤ btwo 989 -> b64_densities (fun lf x => dbeta (N:=B64_Num F) x a b lf).
Proof. exact t_dbeta. Qed.
Print Assumptions C61_dbeta.
Example C61_dbeta_ex : b64_densities (fun lf x => dbeta (N:=B64_Num TFR) x (bofZ 3) (bofZ 2) lf).
Proof. apply (C61_dbeta TFR (bofZ 3) (bofZ 2)); ex_tf2. Qed.

Theorem C61_dt : forall (F : TF) (dof : b64), lgamma_mid F -> log_std F -> exp_all_ok F -> small_const (t_LOG_PI F) -> small_const (t_LOG_2PI F) -> beps ≤ dof -> (dof ≤ btwo 990 \/ dof = plus_inf) -> b64_densities (fun lf x => dt (N:=B64_Num F) x dof lf).
Proof. exact t_dt. Qed.
Print Assumptions C61_dt.
Example C61_dt_ex : b64_densities (fun lf x => dt (N:=B64_Num TFR) x (bofZ 3) lf).
Proof. apply (C61_dt TFR (bofZ 3)); ex_tf2. Qed.

Theorem C61_dlogis : forall (F : TF) (mu sigma : b64), exp_all_ok F -> log_std F -> b64_fin mu -> b64_pos sigma -> b64_densities_on (fun x => b64_fin x -> bdiv (bsub x mu) sigma <> minus_inf) (fun lf x => dlogis (N:=B64_Num F) x mu sigma lf).
Proof. exact t_dlogis. Qed.
Print Assumptions C61_dlogis.
Example C61_dlogis_ex : b64_densities_on (fun x => b64_fin x -> bdiv (bsub x (bofZ 1)) (bofZ 2) <> minus_inf) (fun lf x => dlogis (N:=B64_Num TFR) x (bofZ 1) (bofZ 2) lf).
Proof. apply (C61_dlogis TFR (bofZ 1) (bofZ 2)); ex_tf2. Qed.
Example C61_dlogis_at : bofZ 0 ≤ dlogis (N:=B64_Num TFR) (bofZ 5) (bofZ 1) (bofZ 2) false.
Proof. destruct (C61_dlogis_ex (bofZ 5)) as [H _]; [discriminate|intros _ E; apply (f_equal (fun z => Bltb minus_inf z)) in E; vm_compute in E; discriminate E|exact H]. Qed.

Theorem C61_dinvgauss : forall (F : TF) (mu lambda : b64), exp_all_ok F -> log_std F -> small_const (t_LOG_2PI F) -> b64_pos mu -> b64_pos lambda -> b64_densities_on (fun x => b64_pos x -> b64_pos (bmul (bmul (bmul (bofZ 2) mu) mu) x)) (fun lf x => dinvgauss (N:=B64_Num F) x mu lambda lf).
Proof. exact t_dinvgauss. Qed.
Print Assumptions C61_dinvgauss.
Example C61_dinvgauss_ex : b64_densities_on (fun x => b64_pos x -> b64_pos (bmul (bmul (bmul (bofZ 2) (bofZ 1)) (bofZ 1)) x)) (fun lf x => dinvgauss (N:=B64_Num TFR) x (bofZ 1) (bofZ 2) lf).
Proof. apply (C61_dinvgauss TFR (bofZ 1) (bofZ 2)); ex_tf2. Qed.
Example C61_dinvgauss_at : bofZ 0 ≤ dinvgauss (N:=B64_Num TFR) (bofZ 5) (bofZ 1) (bofZ 2) false.
Proof. destruct (C61_dinvgauss_ex (bofZ 5)) as [H _]; [discriminate|intros _; split; vm_compute; reflexivity|exact H]. Qed.

Theorem C61_dweibull : forall (F : TF) (shape scale : b64), exp_all_ok F -> log_std F -> pow_ok F -> beps ≤ shape -> shape ≤ btwo 900 -> big_eps scale -> b64_densities_on (fun x => (b64_pos x -> b64_pos (bdiv x scale)) /\ (Beqb x (bofZ 0) = true -> Beqb shape (bofZ 1) = false)) (fun lf x => dweibull (N:=B64_Num F) x shape scale lf).
Proof. exact t_dweibull. Qed.
Print Assumptions C61_dweibull.
Example C61_dweibull_ex : b64_densities_on (fun x => (b64_pos x -> b64_pos (bdiv x (bofZ 2))) /\ (Beqb x (bofZ 0) = true -> Beqb (bofZ 3) (bofZ 1) = false)) (fun lf x => dweibull (N:=B64_Num TFR) x (bofZ 3) (bofZ 2) lf).
Proof. apply (C61_dweibull TFR (bofZ 3) (bofZ 2)); ex_tf2. Qed.
Example C61_dweibull_at : bofZ 0 ≤ dweibull (N:=B64_Num TFR) (bofZ 5) (bofZ 3) (bofZ 2) false.
Proof. destruct (C61_dweibull_ex (bofZ 5)) as [H _]; [discriminate|split; [intros _; split; vm_compute; reflexivity|intros E; vm_compute in E; discriminate E]|exact H]. Qed.

(** ** Mass functions *)

Theorem C61_dbern : forall (F : TF) (prob : b64), log_std F -> bofZ 0 ≤ prob -> prob ≤ bofZ 1 -> forall lo hi, b64_masses lo hi (fun lf x => dbern (N:=B64_Num F) x prob lf).
Proof. exact t_dbern. Qed.
Print Assumptions C61_dbern.
Example C61_dbern_ex : b64_masses 0 1 (fun lf x => dbern (N:=B64_Num TFR) x (blit (1#4)) lf).
Proof. apply (C61_dbern TFR (blit (1#4))); ex_tf2. Qed.

Theorem C61_dradem : forall (F : TF) (prob : b64), log_std F -> bofZ 0 ≤ prob -> prob ≤ bofZ 1 -> forall lo hi, b64_masses lo hi (fun lf x => dradem (N:=B64_Num F) x prob lf).
Proof. exact t_dradem. Qed.
Print Assumptions C61_dradem.
Example C61_dradem_ex : b64_masses (-1) 1 (fun lf x => dradem (N:=B64_Num TFR) x (blit (1#4)) lf).
Proof. apply (C61_dradem TFR (blit (1#4))); ex_tf2. Qed.

Theorem C61_dbinom : forall (F : TF) (n : Z) (prob : b64), log_std F -> exp_all_ok F -> log_binom_ok F -> 0 <= n <= 2 ^ 53 -> bofZ 0 ≤ prob -> prob ≤ bofZ 1 -> forall lo hi, b64_masses lo hi (fun lf x => dbinom (N:=B64_Num F) x n prob lf).
Proof. exact t_dbinom. Qed.
Print Assumptions C61_dbinom.
Example C61_dbinom_ex : b64_masses 0 10 (fun lf x => dbinom (N:=B64_Num TFR) x 10 (blit (1#4)) lf).
Proof. apply (C61_dbinom TFR 10 (blit (1#4))); ex_tf2. Qed.

Theorem C61_dpois : forall (F : TF) (rate : b64), log_std F -> exp_all_ok F -> lgamma_ge F -> bofZ 0 ≤ rate -> forall lo hi, hi < 2 ^ 53 -> b64_masses lo hi (fun lf x => dpois (N:=B64_Num F) x rate lf).
Proof. exact t_dpois. Qed.
Print Assumptions C61_dpois.
Example C61_dpois_ex : b64_masses 0 1000 (fun lf x => dpois (N:=B64_Num TFR) x (bofZ 3) lf).
Proof. apply (C61_dpois TFR (bofZ 3)); ex_tf2. Qed.

(** The correctly rounded functions satisfy every hypothesis used above and below. *)

Theorem C61_correctly_rounded : log_std TFR /\ exp_all_ok TFR /\ lgamma_mid TFR /\ lgamma_ge TFR /\ lgamma_over TFR /\ log_binom_ok TFR /\ pow_ok TFR /\
  small_const (t_LOG_2PI TFR) /\ small_const (t_LOG_PI TFR) /\ small_const (t_LOG_2 TFR) /\ b64_fin (t_PI TFR) /\ bofZ 1 ≤ t_PI TFR.
Proof. exact tfr_all_d. Qed.
Print Assumptions C61_correctly_rounded.
Example C61_correctly_rounded_ex : log_std TFR.
Proof. apply C61_correctly_rounded. Qed.

(** ** Where it fails *)

Theorem C61_df_refuted : forall F : TF, exists x df1 df2, b64_pos x /\ b64_pos df1 /\ b64_pos df2 /\ df (N:=B64_Num F) x df1 df2 false ≺ bofZ 0.
Proof. exact t_df_refuted. Qed.
Print Assumptions C61_df_refuted.
(** a negative F density, at x = 84522645806394096 with 3 and 2 degrees of freedom, whatever the backend *)
Example C61_df_ex : df (N:=B64_Num TFR) df_x (bofZ 3) (bofZ 2) false ≺ bofZ 0.
Proof. apply df_negative. Qed.

Theorem C61_df_nan_refuted : forall F : TF, exists x df1 df2, b64_pos x /\ b64_pos df1 /\ b64_pos df2 /\ df (N:=B64_Num F) x df1 df2 false = B754_nan.
Proof. exact t_df_nan_refuted. Qed.
Print Assumptions C61_df_nan_refuted.
(** x = 2^60 with one and one degree of freedom: infinity times zero *)
Example C61_df_nan_ex : df (N:=B64_Num TFR) (btwo 60) (bofZ 1) (bofZ 1) false = B754_nan.
Proof. apply df_nan. Qed.

Theorem C61_dcauchy_refuted : forall F : TF, ~ b64_densities (fun lf x => dcauchy (N:=B64_Num F) x (bofZ 0) (bofZ 0) lf).
Proof. exact t_dcauchy_refuted. Qed.
Print Assumptions C61_dcauchy_refuted.
(** a zero scale, which the checks let through *)
Example C61_dcauchy_refuted_ex : dcauchy (N:=B64_Num TFR) (bofZ 0) (bofZ 0) (bofZ 0) false = B754_nan.
Proof. apply dcauchy_nan. Qed.

Theorem C61_dlogis_scale_refuted : forall F : TF, ~ b64_densities (fun lf x => dlogis (N:=B64_Num F) x (bofZ 0) (bofZ 0) lf).
Proof. exact t_dlogis_scale_refuted. Qed.
Print Assumptions C61_dlogis_scale_refuted.
Example C61_dlogis_scale_ex : dlogis (N:=B64_Num TFR) (bofZ 0) (bofZ 0) (bofZ 0) true = B754_nan.
Proof. apply dlogis_nan0. Qed.

Theorem C61_dlogis_refuted : forall F : TF, t_exp F plus_inf = plus_inf -> log_std F -> exists mu, b64_fin mu /\ ~ b64_densities (fun lf x => dlogis (N:=B64_Num F) x mu (bofZ 1) lf).
Proof. exact t_dlogis_refuted. Qed.
Print Assumptions C61_dlogis_refuted.
(** mu = 2^1023 and x = -2^1023: x - mu overflows *)
Example C61_dlogis_refuted_ex : exists mu, b64_fin mu /\ ~ b64_densities (fun lf x => dlogis (N:=B64_Num TFR) x mu (bofZ 1) lf).
Proof. apply (C61_dlogis_refuted TFR); [reflexivity|exact TFR_log_std]. Qed.

Theorem C61_dinvgauss_refuted : forall F : TF, exists mu, b64_pos mu /\ ~ b64_densities (fun lf x => dinvgauss (N:=B64_Num F) x mu (bofZ 1) lf).
Proof. exact t_dinvgauss_refuted. Qed.
Print Assumptions C61_dinvgauss_refuted.
(** mu = x = 2^-600: the denominator 2 mu mu x underflows *)
Example C61_dinvgauss_refuted_ex : dinvgauss (N:=B64_Num TFR) (btwo (-600)) (btwo (-600)) (bofZ 1) true = B754_nan.
Proof. apply dinvgauss_nan. Qed.

Theorem C61_dweibull_refuted : forall F : TF, log_std F -> ~ b64_densities (fun lf x => dweibull (N:=B64_Num F) x (bofZ 1) (bofZ 1) lf).
Proof. exact t_dweibull_refuted. Qed.
Print Assumptions C61_dweibull_refuted.
(** shape one at zero, where the density is one: zero times minus infinity *)
Example C61_dweibull_refuted_ex : dweibull (N:=B64_Num TFR) (bofZ 0) (bofZ 1) (bofZ 1) true = B754_nan.
Proof. apply dweibull_nan. apply TFR_log_std. Qed.

Theorem C61_dt_refuted : forall F : TF, lgamma_over F -> exists dof, b64_pos dof /\ ~ b64_densities (fun lf x => dt (N:=B64_Num F) x dof lf).
Proof. exact t_dt_refuted. Qed.
Print Assumptions C61_dt_refuted.
Example C61_dt_refuted_ex : dt (N:=B64_Num TFR) (bofZ 0) (btwo 1022) true = B754_nan.
Proof. apply dt_nan. exact TFR_lgamma_over. Qed.

Theorem C61_dbeta_refuted : forall F : TF, lgamma_over F -> exists a b, b64_pos a /\ b64_pos b /\ ~ b64_densities (fun lf x => dbeta (N:=B64_Num F) x a b lf).
Proof. exact t_dbeta_refuted. Qed.
Print Assumptions C61_dbeta_refuted.
Example C61_dbeta_refuted_ex : dbeta (N:=B64_Num TFR) (blit (1#2)) (btwo 1020) (btwo 1020) true = B754_nan.
Proof. apply dbeta_nan. exact TFR_lgamma_over. Qed.

Theorem C61_dgamma_refuted : forall F : TF, lgamma_over F -> bmul (btwo 1023) (t_log F (bofZ 10)) = plus_inf -> exists shape, b64_pos shape /\ ~ b64_densities (fun lf x => dgamma (N:=B64_Num F) x shape (bofZ 1) lf).
Proof. exact t_dgamma_refuted. Qed.
Print Assumptions C61_dgamma_refuted.
Example C61_dgamma_refuted_ex : exists shape, b64_pos shape /\ ~ b64_densities (fun lf x => dgamma (N:=B64_Num TFR) x shape (bofZ 1) lf).
Proof. apply (C61_dgamma_refuted TFR); [exact TFR_lgamma_over|exact TFR_log_10]. Qed.
