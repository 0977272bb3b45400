(** Generated by a script: the statements of Props_C68.v for binders in the order used there. *)
From Coq Require Import ZArith QArith Reals Lra Lia.
From Verif Require Import Erf GammaFn BetaFn NormR Spec SpecSF RealElem.
From Verif Require Import Num Prob Dens Quant B64 SpecB64 SpecAcc SpecAccQ SpecAccD SpecTrip SpecB64D B64R B64Ord B64Cdf B64Cdf2 B64Cdf3 B64CR B64Acc B64AccW B64AccW4 B64AccQW B64Mag B64Thm3 B64Thm4 B64Trip B64Trip2 B64Trip3 B64TripLow B64TripBad B64AccT B64AccF B64AccIG B64AccBin.
From Flocq Require Import Core IEEE754.BinarySingleNaN.
Local Open Scope R_scope.

Lemma big_ex : IZR (2 ^ 100) <= big. Proof. unfold big. change (IZR (2 ^ 100)) with (bpow radix2 100). apply bpow_le; lia. Qed.
Lemma big_inv_ex : 0 < / big <= / IZR (2 ^ 100).
Proof. pose proof big_ex. assert (0 < IZR (2 ^ 100)) by (apply IZR_lt; reflexivity). split; [apply Rinv_0_lt_compat|apply Rinv_le_contravar]; lra. Qed.
Lemma usual_ex : usual (bofZ 1) (bofZ 2).
Proof.
  destruct (bofZ_R 1 ltac:(sm)) as [A1 F1], (bofZ_R 2 ltac:(sm)) as [A2 F2]. pose proof big_ex. pose proof big_inv_ex. unfold usual, positive, finite. rewrite A1, A2, Rabs_pos_eq by lra.
  assert (1000 <= IZR (2 ^ 100)) by (apply IZR_le; discriminate). assert (/ IZR (2 ^ 100) <= / 1000) by (apply Rinv_le_contravar; lra). repeat split; auto; lra.
Qed.
Lemma cauchy_ex0 : cauchy_qf 0 1 (/ 2) = 0.
Proof. unfold cauchy_qf. replace (/ 2 - 1 / 2) with 0 by field. rewrite ?Rmult_0_r, tan_0. ring. Qed.
Definition lowp : b64 := btwo (-100).
Lemma lowp_prob : prob lowp.
Proof. destruct (btwo_R (-100) ltac:(lia)) as [B A]. split; [exact B|]. unfold lowp. rewrite A. split; [apply bpow_gt_0|apply (bpow_lt radix2 (-100) 0); lia]. Qed.
Lemma ext_em : t_erf_inv TFR (bofZ (-1)) = minus_inf.
Proof. destruct (bofZ_R (-1) ltac:(sm)) as [A F]. cbn [t_erf_inv TFR]. rewrite CR_fin by auto. rewrite A. unfold extb. destruct Rle_dec; [|lra]. apply rdB_minf. Qed.
Lemma ext_l0 : t_log TFR (bofZ 0) = minus_inf.
Proof. destruct (bofZ_R 0 ltac:(sm)) as [A F]. cbn [t_log TFR]. rewrite CR_fin by auto. rewrite A. unfold extl. destruct Rle_dec; [|lra]. apply rdB_minf. Qed.
Lemma ext_x0 : t_exp TFR minus_inf = bofZ 0. Proof. reflexivity. Qed.
Ltac ext_num := let BE := fresh in let BI := fresh in pose proof big_ex as BE; pose proof big_inv_ex as BI; change (IZR (2 ^ 100)) with 1267650600228229401496703205376 in BE, BI; try change (IZR (2 ^ 50)) with 1125899906842624; try change (IZR (2 ^ 51)) with 2251799813685248; rewrite ?half_V, ?cauchy_ex0; exq_num.
Lemma ext_ig : e2 * (exp (2 * B2R (bofZ 1) / B2R (bofZ 2)) + sqrt (B2R (bofZ 1) * B2R (bofZ 4)) / B2R (bofZ 2)) <= / 1000.
Proof.
  rewrite (proj1 (bofZ_R 1 ltac:(sm))), (proj1 (bofZ_R 2 ltac:(sm))), (proj1 (bofZ_R 4 ltac:(sm))). replace (2 * 1 / 2) with 1 by lra. replace (1 * 4) with (2 * 2) by lra. rewrite sqrt_square by lra.
  pose proof exp_le_3. unfold e2. rewrite ulp1_val. lra.
Qed.
Lemma ext_bin : 2000 * e2 * (3 + 10 * (2 + Rabs (ln (B2R (blit (1#2)))) + Rabs (ln (1 - B2R (blit (1#2)))))) <= 1.
Proof.
  rewrite half_V. replace (1 - / 2) with (/ 2) by lra. rewrite ln_Rinv, Rabs_Ropp by lra. pose proof ln_lt_2. rewrite Rabs_pos_eq by lra.
  assert (L2 : ln 2 <= ln (exp 1)) by (pose proof (exp_ineq1 1 ltac:(lra)); left; apply ln_increasing; lra). rewrite ln_exp in L2.
  unfold e2. rewrite ulp1_val. lra.
Qed.
Ltac ext := first [exact usual_ex | exact ext_bin | exact TFR_log_binom_acc | exact ext_ig | exact TFR_exp_up_acc | exact lowp_prob | exact ext_em | exact ext_l0 | exact ext_x0 | exact TFR_erf_acc | exact TFR_tanh_acc | exact TFR_atan_acc | exact TFR_exp_acc | exact TFR_expm1_acc | exact TFR_pow_sign | exact TFR_incgamma_acc | exact TFR_incbeta_acc | solve [exq] | solve [ext_num] | solve [pose proof inv_ln2; ext_num] | solve [ex_Z; rewrite Rabs_pos_eq by lra; ext_num] | solve [ex_Z; rewrite Rabs_left by lra; ext_num] | solve [ex_Z; lra] | solve [ex_Z; unfold e2; pose proof ulp1_val; lra] | idtac].

Lemma a_pt_2 : forall (F : TF) (e : R) (x : b64), unit_ok e -> finite x -> Rabs (B2R x) <= big -> within (6 * ulp1) (pt (N:=B64_Num F) x (bofZ 2) false) (t_cdf 2 (B2R x)).
Proof. intros F e x He. exact (pt2_acc F e He x). Qed.

Lemma a_pt : forall (F : TF) (e : R) (x dof : b64), unit_ok e -> incbeta_acc F e -> finite x -> finite dof -> / big <= Rabs (B2R x) <= big -> / 1000000 <= B2R dof <= 1000000 -> B2R dof <> 1 -> B2R dof <> 2 ->
  within (12 * e + 8 * B2R dof * ulp1) (pt (N:=B64_Num F) x dof false) (t_cdf (B2R dof) (B2R x)).
Proof. intros F e x dof He A B C D G H1 H2. exact (pt_main_acc F e He x dof A B C D G H1 H2). Qed.

Lemma a_pt_tail : forall (F : TF) (e : R) (x dof : b64), unit_ok e -> incbeta_acc F e -> finite x -> finite dof -> / big <= Rabs (B2R x) <= big -> / 1000000 <= B2R dof <= 1000000 -> B2R dof <> 1 -> B2R dof <> 2 -> B2R x < 0 -> 2 * B2R dof <= B2R x ^ 2 ->
  near (e + ulp1 + 14 * B2R dof * ulp1) (5 * tiny) (pt (N:=B64_Num F) x dof false) (t_cdf (B2R dof) (B2R x)).
Proof. intros F e x dof He A B C D G H1 H2 I J. exact (pt_tail_acc F e He x dof A B C D G H1 H2 I J). Qed.

Lemma a_pf : forall (F : TF) (e : R) (x df1 df2 : b64), unit_ok e -> incbeta_acc F e -> big_eps x -> big_eps df1 -> big_eps df2 -> B2R df1 <= big -> 2 <= B2R df2 <= big -> 5000 * e * (1 + B2R df1 * B2R x / B2R df2) <= 1 ->
  near (e + 6 * B2R df1 * ulp1) tiny (pf (N:=B64_Num F) x df1 df2 false) (f_cdf (B2R df1) (B2R df2) (B2R x)).
Proof. intros F e x df1 df2 He. exact (pf_acc F e He x df1 df2). Qed.

Lemma a_pf_low : forall (F : TF) (e : R) (x df1 df2 : b64), unit_ok e -> incbeta_acc F e -> big_eps x -> big_eps df1 -> big_eps df2 -> B2R df1 <= big -> B2R df2 <= big -> B2R df1 * B2R x / B2R df2 <= 2 ->
  near (e + 22 * B2R df1 * ulp1) tiny (pf (N:=B64_Num F) x df1 df2 false) (f_cdf (B2R df1) (B2R df2) (B2R x)).
Proof. intros F e x df1 df2 He. exact (pf_acc_low F e He x df1 df2). Qed.

Lemma a_pinvgauss : forall (F : TF) (e : R) (x mu lambda : b64), unit_ok e -> const_acc e (t_SQRT_2 F) (sqrt 2) -> erf_acc F e -> exp_up_acc F e -> finite x -> finite mu -> finite lambda -> / big <= B2R x <= big -> / big <= B2R mu <= big -> / big <= B2R lambda <= big ->
  let V := exp (2 * B2R lambda / B2R mu) in let G := sqrt (B2R lambda * B2R x) / B2R mu in e * (V + G) <= / 1000 ->
  within ((12 + 5 * G + 14 * V) * e) (pinvgauss (N:=B64_Num F) x mu lambda false) (invgauss_cdf (B2R mu) (B2R lambda) (B2R x)).
Proof. intros F e x mu lambda He. exact (pinvgauss_acc F e He x mu lambda). Qed.

Lemma a_pinvgauss_bad : exists x mu lambda : b64, positive x /\ positive mu /\ positive lambda /\ ~ within (/ 200) (pinvgauss (N:=B64_Num TFR) x mu lambda false) (invgauss_cdf (B2R mu) (B2R lambda) (B2R x)).
Proof. exact pinvgauss_refuted. Qed.

Lemma a_pbinom : forall (F : TF) (e : R) (x n : Z) (p : b64), unit_ok e -> log_binom_acc F e -> log_acc F e -> exp_up_acc F e -> (2 <= n <= 2 ^ 53)%Z -> (0 <= x)%Z -> finite p -> 0 < B2R p < 1 ->
  let W := 3 + IZR n * (2 + Rabs (ln (B2R p)) + Rabs (ln (1 - B2R p))) in 2000 * e * W <= 1 ->
  within (11 * e * W) (pbinom (N:=B64_Num F) x n p false) (sum_f_R0 (binom_pmf (Z.to_nat n) (B2R p)) (Z.to_nat x)).
Proof. intros F e x n p He LB LA XA Hn Hx Fp Hp W HW. exact (pbinom_acc F e He n p LB LA XA Hn Fp Hp HW x Hx). Qed.

Lemma tr_norm : forall (F : TF) (e : R) (p mu sigma : b64), unit_ok e -> const_acc e (t_SQRT_2 F) (sqrt 2) -> erf_acc F e -> erf_inv_acc F e -> t_erf_inv F (bofZ (-1)) = minus_inf -> prob p -> usual mu sigma -> 
  within (11 * e + 5 * e * offset mu sigma) (pnorm (N:=B64_Num F) (qnorm (N:=B64_Num F) p mu sigma) mu sigma false) (B2R p).
Proof. intros F e p mu sigma He. exact (norm_all F e He p mu sigma). Qed.

Lemma tr_logis : forall (F : TF) (e : R) (p mu sigma : b64), unit_ok e -> log_acc F e -> tanh_acc F e -> prob p -> / huge <= B2R p -> usual mu sigma -> 
  within (10 * e + 2 * e * offset mu sigma) (plogis (N:=B64_Num F) (qlogis (N:=B64_Num F) p mu sigma) mu sigma false) (B2R p).
Proof. intros F e p mu sigma He. exact (logis_trip64 F e He p mu sigma). Qed.

Lemma tr_laplace : forall (F : TF) (e : R) (p mu sigma : b64), unit_ok e -> log_acc F e -> exp_acc F e -> t_log F (bofZ 0) = minus_inf -> prob p -> usual mu sigma -> 
  within (12 * e + 3 * e * offset mu sigma) (plaplace (N:=B64_Num F) (qlaplace (N:=B64_Num F) p mu sigma) mu sigma false) (B2R p).
Proof. intros F e p mu sigma He. exact (laplace_all F e He p mu sigma). Qed.

Lemma tr_cauchy : forall (F : TF) (e : R) (p mu sigma : b64), unit_ok e -> tan_acc F e -> atan_acc F e -> const_acc e (t_PI F) PI -> prob p -> usual mu sigma -> 200 * e * Rabs (cauchy_qf 0 1 (B2R p)) <= 1 -> 
  within (18 * e + 2 * e * offset mu sigma) (pcauchy (N:=B64_Num F) (qcauchy (N:=B64_Num F) p mu sigma) mu sigma false) (B2R p).
Proof. intros F e p mu sigma He. exact (cauchy_trip64 F e He p mu sigma). Qed.

Lemma tr_lnorm : forall (F : TF) (e : R) (p mu sigma : b64), unit_ok e -> exp_all_acc F e -> log_acc F e -> const_acc e (t_SQRT_2 F) (sqrt 2) -> erf_acc F e -> erf_inv_acc F e -> t_erf_inv F (bofZ (-1)) = minus_inf -> t_exp F minus_inf = bofZ 0 -> prob p -> usual mu sigma -> Rabs (B2R mu) + 10 * B2R sigma <= 30 -> 
  within (21 * e + 5 * e * ((1 + Rabs (B2R mu)) / B2R sigma)) (plnorm (N:=B64_Num F) (qlnorm (N:=B64_Num F) p mu sigma) mu sigma false) (B2R p).
Proof. intros F e p mu sigma He. exact (lnorm_all F e He p mu sigma). Qed.

Lemma tr_exp : forall (F : TF) (e : R) (p rate : b64), unit_ok e -> log_acc F e -> expm1_acc F e -> prob p -> positive rate -> / big <= B2R rate <= big -> 
  within (8 * e) (pexp (N:=B64_Num F) (qexp (N:=B64_Num F) p rate) rate false) (B2R p).
Proof. intros F e p rate He. exact (exp_trip64 F e He p rate). Qed.

Lemma tr_unif : forall (F : TF) (e : R) (p a b : b64), unit_ok e -> prob p -> finite a -> finite b -> Rabs (B2R a) <= big -> / big <= B2R b - B2R a <= big -> 
  within (9 * ulp1 + 5 * ulp1 * (Rabs (B2R a) / (B2R b - B2R a))) (punif (N:=B64_Num F) (qunif (N:=B64_Num F) p a b) a b false) (B2R p).
Proof. intros F e p a b He. exact (unif_trip64 F e He p a b). Qed.

Lemma tr_t1 : forall (F : TF) (e : R) (p : b64) (q : R), unit_ok e -> tan_acc F e -> atan_acc F e -> const_acc e (t_PI F) PI -> prob p -> t_cdf 1 q = B2R p -> 200 * e * Rabs q <= 1 -> 
  within (16 * e) (pt (N:=B64_Num F) (qt (N:=B64_Num F) p (bofZ 1)) (bofZ 1) false) (B2R p).
Proof. intros F e p  q He. exact (t1_trip64 F e He p  q). Qed.

Lemma tr_t2 : forall (F : TF) (e : R) (p : b64) (q : R), unit_ok e -> prob p -> / huge <= B2R p -> t_cdf 2 q = B2R p -> Rabs q <= big / 2 -> 
  within (11 * ulp1) (pt (N:=B64_Num F) (qt (N:=B64_Num F) p (bofZ 2)) (bofZ 2) false) (B2R p).
Proof. intros F e p  q He. exact (t2_trip64 F e He p  q). Qed.

Lemma tr_tinf : forall (F : TF) (e : R) (p : b64), unit_ok e -> const_acc e (t_SQRT_2 F) (sqrt 2) -> erf_acc F e -> erf_inv_acc F e -> t_erf_inv F (bofZ (-1)) = minus_inf -> prob p -> 
  within (11 * e) (pt (N:=B64_Num F) (qt (N:=B64_Num F) p plus_inf) plus_inf false) (B2R p).
Proof. intros F e p He. exact (tinf_all F e He p). Qed.

Lemma tr_invgamma : forall (F : TF) (e : R) (p shape rate : b64) (q : R), unit_ok e -> incgamma_acc F e -> incgamma_inv_acc F e -> prob p -> / 2 <= B2R p -> positive shape -> positive rate -> B2R shape <= 1000000 -> B2R shape * e <= / 1000 -> / big <= q <= IZR (2 ^ 50) -> / big <= B2R rate <= IZR (2 ^ 51) -> invgamma_cdf (B2R shape) (B2R rate) q = B2R p -> 
  within (4 * e + 10 * B2R shape * e) (pinvgamma (N:=B64_Num F) (qinvgamma (N:=B64_Num F) p shape rate) shape rate false) (B2R p).
Proof. intros F e p shape rate q He. exact (invgamma_trip64 F e He p shape rate q). Qed.

Lemma tr_gamma : forall (F : TF) (e : R) (p shape scale : b64) (q : R), unit_ok e -> incgamma_acc F e -> incgamma_inv_acc F e -> prob p -> positive shape -> big_eps scale -> B2R scale <= big -> 2 * ulp1 <= q <= big -> gamma_cdf (B2R shape) (B2R scale) q = B2R p -> 
  near (e + 5 * B2R shape * e) (tiny) (pgamma (N:=B64_Num F) (qgamma (N:=B64_Num F) p shape scale) shape scale false) (B2R p).
Proof. intros F e p shape scale q He. exact (gamma_trip64 F e He p shape scale q). Qed.

Lemma tr_chisq : forall (F : TF) (e : R) (p dof : b64) (q : R), unit_ok e -> incgamma_acc F e -> incgamma_inv_acc F e -> prob p -> finite dof -> / huge <= B2R dof <= huge -> 2 * ulp1 <= q <= big -> chisq_cdf (B2R dof) q = B2R p -> 
  near (e + 3 / 2 * B2R dof * e) (tiny) (pchisq (N:=B64_Num F) (qchisq (N:=B64_Num F) p dof) dof false) (B2R p).
Proof. intros F e p dof q He. exact (chisq_trip64 F e He p dof q). Qed.

Lemma tr_weibull : forall (F : TF) (e : R) (p shape scale : b64) (q : R), unit_ok e -> log1p_acc F e -> expm1_acc F e -> pow_acc F e -> pow_sign F -> prob p -> / huge <= B2R p -> big_eps shape -> big_eps scale -> 2000000 * e <= B2R shape -> B2R shape * e <= / 100 -> B2R shape <= 1000000000 -> B2R scale <= big -> 2 * ulp1 <= q <= big -> weibull_cdf (B2R shape) (B2R scale) q = B2R p -> 
  near (5 * e + 6 * B2R shape * e + 3 * ulp1 * Rabs (ln (- ln (1 - B2R p)))) (4 * tiny) (pweibull (N:=B64_Num F) (qweibull (N:=B64_Num F) p shape scale) shape scale false) (B2R p).
Proof. intros F e p shape scale q He. exact (weibull_trip64 F e He p shape scale q). Qed.

Lemma tr_beta : forall (F : TF) (e : R) (p a b : b64) (q : R), unit_ok e -> incbeta_acc F e -> incbeta_inv_acc F e -> prob p -> positive a -> positive b -> 1 <= B2R b -> / big <= q <= 1 - 3 * e -> beta_cdf (B2R a) (B2R b) q = B2R p -> 
  near (e + 2 * B2R a * e) (tiny) (pbeta (N:=B64_Num F) (qbeta (N:=B64_Num F) p a b) a b false) (B2R p).
Proof. intros F e p a b q He. exact (beta_trip64 F e He p a b q). Qed.

Lemma tr_f : forall (F : TF) (e : R) (p df1 df2 : b64) (q : R), unit_ok e -> incbeta_acc F e -> incbeta_inv_acc F e -> prob p -> big_eps df1 -> big_eps df2 -> B2R df1 <= big -> 2 <= B2R df2 <= big -> 2 * ulp1 <= q -> 6000 * e * (1 + B2R df1 * q / B2R df2) <= 1 -> f_cdf (B2R df1) (B2R df2) q = B2R p -> 
  near (e + 12 * B2R df1 * e) (tiny) (pf (N:=B64_Num F) (qf (N:=B64_Num F) p df1 df2) df1 df2 false) (B2R p).
Proof. intros F e p df1 df2 q He. exact (f_trip64 F e He p df1 df2 q). Qed.

Lemma tr_norm_offset_refuted : forall (F : TF) (e : R), unit_ok e -> const_acc e (t_SQRT_2 F) (sqrt 2) -> erf_acc F e -> erf_inv_acc F e -> 
  exists p mu sigma : b64, prob p /\ / 4 <= B2R p /\ usual mu sigma /\ ~ within (/ 8) (pnorm (N:=B64_Num F) (qnorm (N:=B64_Num F) p mu sigma) mu sigma false) (B2R p).
Proof. intros F e He A B C. exists (blit (3#4)), far, (bofZ 1). split; [apply q34_prob|]. rewrite q34_V. split; [lra|]. split; [apply usual_far|]. intros [_ D]. destruct (norm_lost F e He A B C) as [_ D']. apply Rabs_le_inv in D, D'. destruct He as [_ He]. lra. Qed.

Lemma tr_weibull_small_refuted : forall (F : TF) (e : R), unit_ok e -> log1p_acc F e -> pow_acc F e -> 
  exists p shape scale : b64, prob p /\ big_eps shape /\ big_eps scale /\ pweibull (N:=B64_Num F) (qweibull (N:=B64_Num F) p shape scale) shape scale false = bofZ 0 /\ B2R p = / 2.
Proof. intros F e He A0 A1. exists (blit (1#2)), small, (bofZ 1). split; [apply half_prob|]. split; [apply small_eps|]. split; [apply one_eps|]. split; [now apply (weibull_lost F e)|apply half_V]. Qed.

Lemma tr_gamma_small_refuted : forall (F : TF) (e : R), unit_ok e -> incgamma_inv_acc F e -> 
  exists p shape scale : b64, prob p /\ big_eps shape /\ big_eps scale /\ pgamma (N:=B64_Num F) (qgamma (N:=B64_Num F) p shape scale) shape scale false = bofZ 0 /\ B2R p = / 2.
Proof. intros F e He A0. exists (blit (1#2)), small, (bofZ 1). split; [apply half_prob|]. split; [apply small_eps|]. split; [apply one_eps|]. split; [now apply (gamma_lost F e)|apply half_V]. Qed.

Lemma tr_beta_small_refuted : forall (F : TF) (e : R), unit_ok e -> incbeta_acc F e -> 
  exists p a b : b64, prob p /\ positive a /\ positive b /\ forall x : b64, finite x -> ~ within (/ 4) (pbeta (N:=B64_Num F) x a b false) (B2R p).
Proof. intros F e He A. exists (blit (1#2)), (bofZ 1), small. split; [apply half_prob|]. split; [apply one_pos|]. split; [apply small_pos|]. intros x Fx. rewrite half_V. now apply (beta_none F e). Qed.
