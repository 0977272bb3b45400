(** C58: distribution functions evaluated in binary64 are monotone, stay in [0,1] and never return NaN. *)
From Coq Require Import ZArith QArith Bool.
From Verif Require Import Num Prob Dens Quant B64 SpecB64 SpecB64D B64Thm B64Thm2 B64CR B64CR2 B64CR3 B64CdfBad B64CdfBad2 B64Thm6.
From Flocq Require Import IEEE754.BinarySingleNaN.
Local Open Scope Z_scope.
Local Open Scope b64_scope.


(** [b64_cdf G]: for every double x other than NaN, infinities included, 0 <= G x <= 1, and x <= y
    gives G x <= G y, all comparisons being those of IEEE 754 (false on NaN).  The functions of the
    backend are arbitrary except for the order hypotheses of SpecB64.v, which the correctly rounded
    functions [TFR] satisfy. *)

Theorem C58_pnorm : forall (F : TF) (mu sigma : b64), sym_fun (t_erf F) -> b64_pos (t_SQRT_2 F) -> b64_fin mu -> b64_pos sigma -> b64_cdf (fun x => pnorm (N:=B64_Num F) x mu sigma false).
Proof. exact t_pnorm. Qed.
Print Assumptions C58_pnorm.
Example C58_pnorm_ex : b64_cdf (fun x => pnorm (N:=B64_Num TFR) x (bofZ 1) (bofZ 2) false).
Proof. apply (C58_pnorm TFR (bofZ 1) (bofZ 2)); ex_tf. Qed.

Theorem C58_plnorm : forall (F : TF) (mu sigma : b64), sym_fun (t_erf F) -> b64_pos (t_SQRT_2 F) -> log_ok F -> b64_fin mu -> b64_pos sigma -> b64_cdf (fun x => plnorm (N:=B64_Num F) x mu sigma false).
Proof. exact t_plnorm. Qed.
Print Assumptions C58_plnorm.
Example C58_plnorm_ex : b64_cdf (fun x => plnorm (N:=B64_Num TFR) x (bofZ 1) (bofZ 2) false).
Proof. apply (C58_plnorm TFR (bofZ 1) (bofZ 2)); ex_tf. Qed.

Theorem C58_pcauchy : forall (F : TF) (mu sigma : b64), atan_ok F -> b64_pos (t_PI F) -> b64_fin mu -> b64_pos sigma -> b64_cdf (fun x => pcauchy (N:=B64_Num F) x mu sigma false).
Proof. exact t_pcauchy. Qed.
Print Assumptions C58_pcauchy.
Example C58_pcauchy_ex : b64_cdf (fun x => pcauchy (N:=B64_Num TFR) x (bofZ 1) (bofZ 2) false).
Proof. apply (C58_pcauchy TFR (bofZ 1) (bofZ 2)); ex_tf. Qed.

Theorem C58_plaplace : forall (F : TF) (mu sigma : b64), exp_ok F -> b64_fin mu -> b64_pos sigma -> b64_cdf (fun x => plaplace (N:=B64_Num F) x mu sigma false).
Proof. exact t_plaplace. Qed.
Print Assumptions C58_plaplace.
Example C58_plaplace_ex : b64_cdf (fun x => plaplace (N:=B64_Num TFR) x (bofZ 1) (bofZ 2) false).
Proof. apply (C58_plaplace TFR (bofZ 1) (bofZ 2)); ex_tf. Qed.

Theorem C58_plogis : forall (F : TF) (mu sigma : b64), sym_fun (t_tanh F) -> b64_fin mu -> b64_pos sigma -> b64_fin (bmul (bofZ 2) sigma) -> b64_cdf (fun x => plogis (N:=B64_Num F) x mu sigma false).
Proof. exact t_plogis. Qed.
Print Assumptions C58_plogis.
Example C58_plogis_ex : b64_cdf (fun x => plogis (N:=B64_Num TFR) x (bofZ 1) (bofZ 2) false).
Proof. apply (C58_plogis TFR (bofZ 1) (bofZ 2)); ex_tf. Qed.

Theorem C58_pt_1 : forall (F : TF), atan_ok F -> b64_pos (t_PI F) -> b64_cdf (fun x => pt (N:=B64_Num F) x (bofZ 1) false).
Proof. exact t_pt_1. Qed.
Print Assumptions C58_pt_1.
Example C58_pt_1_ex : b64_cdf (fun x => pt (N:=B64_Num TFR) x (bofZ 1) false).
Proof. apply (C58_pt_1 TFR); ex_tf. Qed.

Theorem C58_pt_inf : forall (F : TF), sym_fun (t_erf F) -> b64_pos (t_SQRT_2 F) -> b64_cdf (fun x => pt (N:=B64_Num F) x plus_inf false).
Proof. exact t_pt_inf. Qed.
Print Assumptions C58_pt_inf.
Example C58_pt_inf_ex : b64_cdf (fun x => pt (N:=B64_Num TFR) x plus_inf false).
Proof. apply (C58_pt_inf TFR); ex_tf. Qed.

Theorem C58_pexp : forall (F : TF) (rate : b64), expm1_ok F -> b64_pos rate -> b64_cdf (fun x => pexp (N:=B64_Num F) x rate false).
Proof. exact t_pexp. Qed.
Print Assumptions C58_pexp.
Example C58_pexp_ex : b64_cdf (fun x => pexp (N:=B64_Num TFR) x (bofZ 3) false).
Proof. apply (C58_pexp TFR (bofZ 3)); ex_tf. Qed.

Theorem C58_pweibull : forall (F : TF) (shape scale : b64), expm1_ok F -> pow_ok F -> big_eps shape -> big_eps scale -> b64_cdf (fun x => pweibull (N:=B64_Num F) x shape scale false).
Proof. exact t_pweibull. Qed.
Print Assumptions C58_pweibull.
Example C58_pweibull_ex : b64_cdf (fun x => pweibull (N:=B64_Num TFR) x (bofZ 3) (bofZ 2) false).
Proof. apply (C58_pweibull TFR (bofZ 3) (bofZ 2)); ex_tf. Qed.

Theorem C58_pgamma : forall (F : TF) (shape scale : b64), incgamma_ok F -> bofZ 0 ≤ shape -> shape ≺ plus_inf -> big_eps scale -> b64_cdf (fun x => pgamma (N:=B64_Num F) x shape scale false).
Proof. exact t_pgamma. Qed.
Print Assumptions C58_pgamma.
Example C58_pgamma_ex : b64_cdf (fun x => pgamma (N:=B64_Num TFR) x (bofZ 3) (bofZ 2) false).
Proof. apply (C58_pgamma TFR (bofZ 3) (bofZ 2)); ex_tf. Qed.

Theorem C58_pchisq : forall (F : TF) (dof : b64), incgamma_ok F -> b64_fin dof -> b64_pos (bdiv dof (bofZ 2)) \/ Beqb dof (bofZ 0) = true -> b64_cdf (fun x => pchisq (N:=B64_Num F) x dof false).
Proof. exact t_pchisq. Qed.
Print Assumptions C58_pchisq.
Example C58_pchisq_ex : b64_cdf (fun x => pchisq (N:=B64_Num TFR) x (bofZ 3) false).
Proof. apply (C58_pchisq TFR (bofZ 3)); ex_tf. Qed.

Theorem C58_pinvgamma : forall (F : TF) (shape rate : b64), incgamma_ok F -> bofZ 0 ≤ shape -> shape ≺ plus_inf -> b64_pos rate -> big_eps (bdiv (bofZ 1) rate) -> b64_cdf (fun x => pinvgamma (N:=B64_Num F) x shape rate false).
Proof. exact t_pinvgamma. Qed.
Print Assumptions C58_pinvgamma.
Example C58_pinvgamma_ex : b64_cdf (fun x => pinvgamma (N:=B64_Num TFR) x (bofZ 3) (bofZ 2) false).
Proof. apply (C58_pinvgamma TFR (bofZ 3) (bofZ 2)); ex_tf. Qed.

Theorem C58_pbeta : forall (F : TF) (a b : b64), incbeta_ok F -> b64_pos a -> b64_pos b -> b64_cdf (fun x => pbeta (N:=B64_Num F) x a b false).
Proof. exact t_pbeta. Qed.
Print Assumptions C58_pbeta.
Example C58_pbeta_ex : b64_cdf (fun x => pbeta (N:=B64_Num TFR) x (bofZ 3) (bofZ 2) false).
Proof. apply (C58_pbeta TFR (bofZ 3) (bofZ 2)); ex_tf. Qed.

Theorem C58_punif : forall (F : TF) (a b : b64), b64_fin a -> b64_fin b -> a ≺ b -> b64_fin (bsub b a) -> b64_cdf (fun x => punif (N:=B64_Num F) x a b false).
Proof. exact t_punif. Qed.
Print Assumptions C58_punif.
Example C58_punif_ex : b64_cdf (fun x => punif (N:=B64_Num TFR) x (bofZ 1) (bofZ 4) false).
Proof. apply (C58_punif TFR (bofZ 1) (bofZ 4)); ex_tf. Qed.

Theorem C58_pbern : forall (F : TF) (prob : b64), bofZ 0 ≤ prob -> prob ≤ bofZ 1 -> b64_cdfZ (fun x => pbern (N:=B64_Num F) x prob false).
Proof. exact t_pbern. Qed.
Print Assumptions C58_pbern.
Example C58_pbern_ex : b64_cdfZ (fun x => pbern (N:=B64_Num TFR) x (blit (1#4)) false).
Proof. apply (C58_pbern TFR (blit (1#4))); ex_tf. Qed.

Theorem C58_pradem : forall (F : TF) (prob : b64), bofZ 0 ≤ prob -> prob ≤ bofZ 1 -> b64_cdfZ (fun x => pradem (N:=B64_Num F) x prob false).
Proof. exact t_pradem. Qed.
Print Assumptions C58_pradem.
Example C58_pradem_ex : b64_cdfZ (fun x => pradem (N:=B64_Num TFR) x (blit (1#4)) false).
Proof. apply (C58_pradem TFR (blit (1#4))); ex_tf. Qed.

(** Student with any other degrees of freedom: in [0,1], on the right side of one half, non-decreasing on
    both tails (from the square root of the degrees of freedom on) and exactly symmetric; in the middle
    the argument of the incomplete beta function can go down (refuted below). *)
Theorem C58_pt : forall (F : TF) (dof : b64), incbeta_ok F -> big_eps dof -> Beqb dof (bofZ 1) = false -> Beqb dof (bofZ 2) = false ->
  forall x, x <> B754_nan -> bofZ 0 ≤ pt (N:=B64_Num F) x dof false /\ pt (N:=B64_Num F) x dof false ≤ bofZ 1 /\
    (x ≤ bofZ 0 -> pt (N:=B64_Num F) x dof false ≤ blit (1#2)) /\ (bofZ 0 ≺ x -> blit (1#2) ≤ pt (N:=B64_Num F) x dof false).
Proof. exact t_pt. Qed.
Print Assumptions C58_pt.
Example C58_pt_ex : blit (1#2) ≤ pt (N:=B64_Num TFR) (bofZ 3) (bofZ 5) false.
Proof. refine (proj2 (proj2 (proj2 (C58_pt TFR (bofZ 5) TFR_incbeta _ _ _ (bofZ 3) _))) _); [split; vm_compute; reflexivity|vm_compute; reflexivity|vm_compute; reflexivity|discriminate|vm_compute; reflexivity]. Qed.

Theorem C58_pt_tail : forall (F : TF) (dof : b64), incbeta_ok F -> big_eps dof -> Beqb dof (bofZ 1) = false -> Beqb dof (bofZ 2) = false ->
  forall x y, b64_pos x -> x ≤ y -> dof ≤ bmul x x ->
    pt (N:=B64_Num F) x dof false ≤ pt (N:=B64_Num F) y dof false /\ pt (N:=B64_Num F) (Bopp y) dof false ≤ pt (N:=B64_Num F) (Bopp x) dof false.
Proof. exact t_pt_tail. Qed.
Print Assumptions C58_pt_tail.
Example C58_pt_tail_ex : pt (N:=B64_Num TFR) (bofZ 3) (bofZ 5) false ≤ pt (N:=B64_Num TFR) (bofZ 7) (bofZ 5) false.
Proof. refine (proj1 (C58_pt_tail TFR (bofZ 5) TFR_incbeta _ _ _ (bofZ 3) (bofZ 7) _ _ _)); try (split; vm_compute; reflexivity); vm_compute; reflexivity. Qed.

Theorem C58_pt_symmetric : forall (F : TF) (dof : b64), incbeta_ok F -> big_eps dof -> Beqb dof (bofZ 1) = false -> Beqb dof (bofZ 2) = false ->
  forall x, b64_pos x -> pt (N:=B64_Num F) x dof false = bsub (bofZ 1) (pt (N:=B64_Num F) (Bopp x) dof false).
Proof. exact t_pt_sym. Qed.
Print Assumptions C58_pt_symmetric.
Example C58_pt_symmetric_ex : pt (N:=B64_Num TFR) (bofZ 3) (bofZ 5) false = bsub (bofZ 1) (pt (N:=B64_Num TFR) (Bopp (bofZ 3)) (bofZ 5) false).
Proof. refine (C58_pt_symmetric TFR (bofZ 5) TFR_incbeta _ _ _ (bofZ 3) _); try (split; vm_compute; reflexivity); vm_compute; reflexivity. Qed.

(** The binomial sum: never a NaN, not negative, non-decreasing below n and one from n on; it can exceed
    one in between (refuted below). *)
Theorem C58_pbinom : forall (F : TF) (n : Z) (prob : b64), log_std F -> exp_all_ok F -> log_binom_ok F -> 0 <= n <= 2 ^ 53 -> bofZ 0 ≤ prob -> prob ≤ bofZ 1 ->
  (forall x, bofZ 0 ≤ pbinom (N:=B64_Num F) x n prob false) /\ (forall x y, x <= y < n -> pbinom (N:=B64_Num F) x n prob false ≤ pbinom (N:=B64_Num F) y n prob false) /\
  (forall x, n <= x -> pbinom (N:=B64_Num F) x n prob false = bofZ 1).
Proof. exact t_pbinom. Qed.
Print Assumptions C58_pbinom.
Example C58_pbinom_ex : pbinom (N:=B64_Num TFR) 2 10 (blit (1#4)) false ≤ pbinom (N:=B64_Num TFR) 7 10 (blit (1#4)) false.
Proof.
  refine (proj1 (proj2 (C58_pbinom TFR 10 (blit (1#4)) TFR_log_std TFR_exp_all TFR_log_binom _ _ _)) 2 7 _); [split; discriminate|vm_compute; reflexivity|vm_compute; reflexivity|split; [discriminate|reflexivity]].
Qed.

(** The correctly rounded functions satisfy every hypothesis used above. *)

Theorem C58_correctly_rounded : sym_fun (t_erf TFR) /\ sym_fun (t_tanh TFR) /\ b64_pos (t_SQRT_2 TFR) /\ b64_pos (t_PI TFR) /\ atan_ok TFR /\
  log_ok TFR /\ exp_ok TFR /\ expm1_ok TFR /\ pow_ok TFR /\ incgamma_ok TFR /\ incbeta_ok TFR.
Proof. exact tfr_all. Qed.
Print Assumptions C58_correctly_rounded.
(** and [TFR] is not degenerate: its square root of two lies between 1 and 2 *)
Example C58_correctly_rounded_ex : b64_pos (t_SQRT_2 TFR).
Proof. apply C58_correctly_rounded. Qed.

(** ** Where it fails *)

Theorem C58_pt_2_refuted : forall F : TF, ~ b64_cdf (fun x => pt (N:=B64_Num F) x (bofZ 2) false).
Proof. exact t_pt_2_refuted. Qed.
Print Assumptions C58_pt_2_refuted.
(** x*x overflows at 2^600, where the value falls back to 1/2 *)
Example C58_pt_2_ex : pt (N:=B64_Num TFR) t2_big (bofZ 2) false = blit (1#2) /\ ~ b64_cdf (fun x => pt (N:=B64_Num TFR) x (bofZ 2) false).
Proof. split; [exact (proj1 (pt2_half TFR))|apply C58_pt_2_refuted]. Qed.

Theorem C58_pt_2_dip_refuted : forall F : TF, exists x y, b64_pos x /\ x ≺ y /\ y ≺ bofZ 500 /\ pt (N:=B64_Num F) y (bofZ 2) false ≺ pt (N:=B64_Num F) x (bofZ 2) false.
Proof. exact t_pt_2_dip_refuted. Qed.
Print Assumptions C58_pt_2_dip_refuted.
Example C58_pt_2_dip_ex : pt (N:=B64_Num TFR) t2_b (bofZ 2) false ≺ pt (N:=B64_Num TFR) t2_a (bofZ 2) false.
Proof. exact (proj2 (pt2_dip TFR)). Qed.

Theorem C58_plogis_refuted : forall F : TF, t_tanh F B754_nan = B754_nan -> exists mu sigma, b64_fin mu /\ b64_pos sigma /\ ~ b64_cdf (fun x => plogis (N:=B64_Num F) x mu sigma false).
Proof. exact t_plogis_refuted. Qed.
Print Assumptions C58_plogis_refuted.
Example C58_plogis_refuted_ex : t_tanh TFR B754_nan = B754_nan /\ exists mu sigma, b64_fin mu /\ b64_pos sigma /\ ~ b64_cdf (fun x => plogis (N:=B64_Num TFR) x mu sigma false).
Proof. split; [reflexivity|]. apply C58_plogis_refuted. reflexivity. Qed.

Theorem C58_pf_refuted : forall F : TF, (forall a b, t_incbeta F a b B754_nan = B754_nan) -> exists df1 df2, b64_pos df1 /\ b64_pos df2 /\ ~ b64_cdf (fun x => pf (N:=B64_Num F) x df1 df2 false).
Proof. exact t_pf_refuted. Qed.
Print Assumptions C58_pf_refuted.
Example C58_pf_refuted_ex : exists df1 df2, b64_pos df1 /\ b64_pos df2 /\ ~ b64_cdf (fun x => pf (N:=B64_Num TFR) x df1 df2 false).
Proof. apply C58_pf_refuted. reflexivity. Qed.

Theorem C58_pf_dip_refuted : forall F : TF, (forall x, t_incbeta F (bofZ 1) (bofZ 1) x = x) -> ~ b64_cdf (fun x => pf (N:=B64_Num F) x (bofZ 2) (bofZ 2) false).
Proof. exact t_pf_dip_refuted. Qed.
Print Assumptions C58_pf_dip_refuted.
(** the incomplete beta function with both parameters 1 is the identity *)
Example C58_pf_dip_ex : pf (N:=B64_Num TFX) f_b (bofZ 2) (bofZ 2) false ≺ pf (N:=B64_Num TFX) f_a (bofZ 2) (bofZ 2) false /\ f_a ≺ f_b.
Proof. split; vm_compute; reflexivity. Qed.

Theorem C58_pinvgauss_refuted : forall F : TF, t_SQRT_2 F = sqrt2d -> t_exp F (bofZ 800) = plus_inf -> (forall z, z ≤ bofZ (-20) -> t_erf F z = bofZ (-1)) -> t_erf F (bofZ 0) = bofZ 0 ->
  ~ b64_cdf (fun x => pinvgauss (N:=B64_Num F) x (bofZ 1) (bofZ 400) false).
Proof. exact t_pinvgauss_refuted. Qed.
Print Assumptions C58_pinvgauss_refuted.
Example C58_pinvgauss_ex : ~ b64_cdf (fun x => pinvgauss (N:=B64_Num TFX) x (bofZ 1) (bofZ 400) false).
Proof.
  apply C58_pinvgauss_refuted; [reflexivity|vm_compute; reflexivity| |vm_compute; reflexivity].
  intros z H. cbn [t_erf TFX]. now rewrite H.
Qed.

Theorem C58_ppois_refuted : forall F : TF, t_exp F (Bopp po_r) = po_e -> t_powZ F po_r 1 = po_r -> t_powZ F po_r 2 = bmul po_r po_r ->
  t_factorial F 1 = bofZ 1 -> t_factorial F 2 = bofZ 2 -> ~ b64_cdfZ (fun x => ppois (N:=B64_Num F) x po_r false).
Proof. exact t_ppois_refuted. Qed.
Print Assumptions C58_ppois_refuted.
(** po_r is about 8.3e-9 and po_e the double nearest to exp(-po_r) *)
Example C58_ppois_ex : ~ b64_cdfZ (fun x => ppois (N:=B64_Num TFX) x po_r false).
Proof. apply (C58_ppois_refuted TFX); apply b64_eq; vm_compute; reflexivity. Qed.

(** Correctly rounded functions: consecutive arguments near 0.9187 with four degrees of freedom, in decreasing order. *)
Theorem C58_pt_4_refuted : exists x y, b64_pos x /\ x ≺ y /\ y ≺ bofZ 1 /\ pt (N:=B64_Num TFR) y (bofZ 4) false ≺ pt (N:=B64_Num TFR) x (bofZ 4) false /\
  pt (N:=B64_Num TFR) (Bopp x) (bofZ 4) false ≺ pt (N:=B64_Num TFR) (Bopp y) (bofZ 4) false.
Proof. exact t_pt_4_refuted. Qed.
Print Assumptions C58_pt_4_refuted.
Example C58_pt_4_ex : t4_a ≺ t4_b /\ pt (N:=B64_Num TFR) t4_b (bofZ 4) false ≺ pt (N:=B64_Num TFR) t4_a (bofZ 4) false.
Proof. exact pt4_dip. Qed.

(** Three trials with success probability 2^-54: the first two masses add up to more than one. *)
Theorem C58_pbinom_refuted : exists n prob, 0 <= n <= 2 ^ 53 /\ bofZ 0 ≤ prob /\ prob ≤ bofZ 1 /\ bofZ 1 ≺ pbinom (N:=B64_Num TFR) 1 n prob false /\
  ~ b64_cdfZ (fun x => pbinom (N:=B64_Num TFR) x n prob false).
Proof. exact t_pbinom_refuted. Qed.
Print Assumptions C58_pbinom_refuted.
Example C58_pbinom_refuted_ex : bofZ 1 ≺ pbinom (N:=B64_Num TFR) 1 3 p54 false /\ pbinom (N:=B64_Num TFR) 3 3 p54 false = bofZ 1.
Proof. exact pbinom_above. Qed.
