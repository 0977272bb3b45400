(** Correctly rounded functions satisfy the accuracy hypotheses of the quantile functions, and the
    places where the accuracy of a quantile is lost even with them. *)
From Coq Require Import ZArith QArith Reals Bool Lra Lia.
From Verif Require Import RealElem RealAcc RealAccQ Erf GammaFn BetaFn NormR Spec SpecSF.
From Verif Require Import Num Sanity Prob Dens Quant B64 B64R B64Ord SpecB64 SpecAcc SpecAccQ B64Cdf B64Cdf2 B64Cdf3 B64Unif B64Quant B64Quant2 B64CR B64CR2 B64CdfBad B64Acc B64AccCdf B64AccCdf2 B64AccCdf3 B64AccW B64AccQ B64AccQ2 B64AccQ3 B64AccQ4.
From Flocq Require Import Core IEEE754.BinarySingleNaN.
Local Open Scope R_scope.
Notation exp := Rtrigo_def.exp.

Lemma TFR_exp_all_acc : exp_all_acc TFR e2.
Proof. apply CR_computes. intros x _ D. split; auto. rewrite Rabs_pos_eq; auto. left. apply exp_pos. Qed.
Lemma TFR_log1p_acc : log1p_acc TFR e2.
Proof.
  apply CR_computes. intros x Fx Dx. pose proof huge_2.
  assert (B : Rabs (ln (1 + B2R x)) <= 1000000).
  { assert (Fo : finite (Bopp x)) by (unfold finite; now rewrite is_finite_Bopp). assert (Q : bpow radix2 (-53) <= 1 + B2R x).
    { pose proof (below_1 (Bopp x) Fo) as Q. rewrite B2R_Bopp in Q. specialize (Q ltac:(lra)). lra. }
    pose proof (bpow_gt_0 radix2 (-53)) as P0. apply ln_mono' in Q; auto. rewrite ln_bpow in Q. pose proof ln2_01.
    assert (ln (1 + B2R x) <= 0) by (rewrite <- ln_1; apply ln_mono'; lra). apply Rabs_le. lra. }
  split; [|lra]. unfold extl. destruct Rle_dec; [lra|]. apply cl_id. lra.
Qed.
Lemma TFR_tan_acc : tan_acc TFR e2.
Proof.
  apply CR_computes. intros x _ [D B]. split; auto. unfold extb. destruct Rle_dec; [lra|]. destruct Rle_dec; [lra|]. now apply cl_id.
Qed.
(** the error function is within 2^-53 of one beyond 64 *)
Lemma erf_64 q : 64 <= q -> 1 - bpow radix2 (-53) < erfR q.
Proof.
  intros H. pose proof (erf_tail q ltac:(lra)) as T. assert (M : exp (- q ^ 2) <= exp (- (64))) by (apply exp_le; nra). pose proof exp_m64 as [_ X].
  assert (Y : 2 * bpow radix2 (-64) < bpow radix2 (-53)) by (change 2 with (bpow radix2 1); rewrite <- bpow_plus; apply bpow_lt; lia). pose proof (bpow_gt_0 radix2 (-64)). lra.
Qed.
Lemma erf_arg x q : finite x -> erfR q = B2R x -> Rabs q <= 64.
Proof.
  intros Fx E. pose proof (erfR_range q) as R1. assert (Fo : finite (Bopp x)) by (unfold finite; now rewrite is_finite_Bopp).
  apply Rabs_le. split; apply Rnot_lt_le; intros L.
  - pose proof (erf_64 (- q) ltac:(lra)) as G. rewrite erfR_odd, E in G. pose proof (below_1 (Bopp x) Fo) as Q. rewrite B2R_Bopp in Q. lra.
  - pose proof (erf_64 q ltac:(lra)) as G. rewrite E in G. pose proof (below_1 x Fx ltac:(lra)). lra.
Qed.
Lemma rdB_e2 r : Rabs r <= huge -> near e2 tiny (rdB r) r.
Proof. intros H. pose proof huge_1. pose proof ulp1_val. eapply near_le; [apply rdB_near; lra|unfold e2; lra|lra]. Qed.
Lemma TFR_erf_inv_acc : erf_inv_acc TFR e2.
Proof.
  intros x q Fx E. pose proof (erf_arg x q Fx E) as A. pose proof huge_1. pose proof (erfR_range q). cbn [t_erf_inv TFR]. rewrite CR_fin by auto.
  unfold extb. destruct Rle_dec; [lra|]. destruct Rle_dec; [lra|]. rewrite <- E, erf_sup, cl_id by lra. apply rdB_e2. lra.
Qed.
Lemma TFR_incgamma_inv_acc : incgamma_inv_acc TFR e2.
Proof.
  intros a p q [Fa Pa] Fp Hq E. cbn [t_incgamma_inv TFR]. rewrite CR_fin by auto. pose proof (PG_range (B2R a) q Pa ltac:(lra)) as R1. pose proof huge_2 as [_ M].
  assert (L1 : 0 < PG (B2R a) q) by (apply Rle_lt_trans with (PG (B2R a) 0); [apply PG_range; lra|apply PG_slt; lra]).
  assert (L2 : PG (B2R a) q < 1) by lra.
  unfold invG. rewrite <- E. destruct Rle_dec; [lra|]. destruct Rle_dec; [lra|].
  destruct (PG_sup (B2R a) (PG (B2R a) q) Pa ltac:(lra)) as (x & Px & Ex & ->). apply PG_inj in Ex; try lra. subst x. rewrite Rmin_right by lra. apply rdB_e2. rewrite Rabs_pos_eq; lra.
Qed.
Lemma TFR_incbeta_inv_acc : incbeta_inv_acc TFR e2.
Proof.
  intros a b p q [Fa Pa] [Fb Pb] Fp Hq E. cbn [t_incbeta_inv TFR]. rewrite CR_fin by auto. pose proof huge_1.
  assert (L1 : 0 < IB (B2R a) (B2R b) q) by (apply Rle_lt_trans with (IB (B2R a) (B2R b) 0); [apply IB_range; lra|apply IB_slt; lra]).
  assert (L2 : IB (B2R a) (B2R b) q < 1) by (apply Rlt_le_trans with (IB (B2R a) (B2R b) 1); [apply IB_slt; lra|apply IB_range; lra]).
  unfold invB. rewrite <- E. destruct Rle_dec; [lra|]. destruct Rle_dec; [lra|].
  destruct (IB_sup (B2R a) (B2R b) (IB (B2R a) (B2R b) q) Pa Pb ltac:(lra)) as (x & Px & Ex & ->). apply IB_inj in Ex; try lra. subst x. apply rdB_e2. rewrite Rabs_pos_eq; lra.
Qed.

(** ** where the accuracy is lost *)
Notation NR := (B64_Num TFR).
Lemma rnd_maxR : rnd maxR = maxR.
Proof. apply rnd_fmt. unfold maxR. rewrite <- (Rmult_1_l (bpow radix2 1024)). apply (fmt_dyadic 1 1024); lia. Qed.
Lemma rdB_inf : rdB (2 * maxR) = B754_infinity false.
Proof.
  destruct (rdB_ev (2 * maxR)) as [N E]. apply ev_max; auto. rewrite E. apply rc_hi. rewrite <- rnd_maxR at 1. apply rnd_le. pose proof maxR_pos. lra.
Qed.
Lemma rdB_minf : rdB (- (2 * maxR)) = B754_infinity true.
Proof.
  destruct (rdB_ev (- (2 * maxR))) as [N E]. apply ev_min; auto. rewrite E. assert (L : rnd (- (2 * maxR)) <= - maxR).
  { unfold rnd. rewrite round_NE_opp. fold (rnd (2 * maxR)). apply Ropp_le_contravar. rewrite <- rnd_maxR at 1. apply rnd_le. pose proof maxR_pos. lra. }
  pose proof maxR_pos. unfold rc. rewrite Rmin_right by lra. apply Rmax_left. lra.
Qed.
Definition p60 : b64 := bz 1 (-60).
Lemma p60_prob : prob p60. Proof. split; [vm_compute; reflexivity|]. replace (B2R p60) with (bpow radix2 (-60)) by (vm_compute; lra). pose proof (bpow_gt_0 radix2 (-60)). split; auto. change 1 with (bpow radix2 0). apply bpow_lt. lia. Qed.
Lemma one_pos : bpos (bofZ 1). Proof. destruct (bofZ_R 1 ltac:(sm)); split; auto; lra. Qed.
Lemma qexp_lost : exists p q, prob p /\ exp_cdf 1 q = B2R p /\ 0 < q /\ B2R (qexp (N:=NR) p (bofZ 1)) = 0.
Proof.
  exists p60, (exp_qf 1 (B2R p60)). pose proof p60_prob as O. split; auto. destruct O as [Fp Rp]. split; [apply exp_cdf_qf; lra|]. split.
  - unfold exp_qf. assert (ln (1 - B2R p60) < 0) by (rewrite <- ln_1; apply ln_increasing; lra). lra.
  - rewrite qexp_fin by (apply one_pos || exact p60_prob). replace (bsub (bofZ 1) p60) with (bofZ 1) by (apply b64_eq; vm_compute; reflexivity).
    destruct (bofZ_R 1 ltac:(sm)) as [A1 F1]. cbn [t_log TFR]. rewrite CR_fin by auto. rewrite A1. unfold extl. destruct Rle_dec; [lra|]. rewrite ln_1. pose proof huge_1. rewrite cl_id by (rewrite Rabs_R0; lra).
    destruct (rdB_R 0) as [F0 V0]; [rewrite Rabs_R0; lra|]. rewrite rnd_0 in V0.
    destruct (bdiv_R (Bopp (rdB 0)) (bofZ 1)) as [E _]; [now rewrite is_finite_Bopp|rewrite A1; lra|apply rnd_bound; rewrite B2R_Bopp, V0, A1; unfold Rdiv; rewrite Ropp_0, Rmult_0_l, Rabs_R0; lra|].
    rewrite E, B2R_Bopp, V0. unfold Rdiv. rewrite Ropp_0, Rmult_0_l. apply rnd_0.
Qed.
Lemma mul_minf s : bpos s -> bmul s (B754_infinity true) = B754_infinity true.
Proof. intros P. destruct (bpos_shape s P) as (m & e & Bd & ->). reflexivity. Qed.
Lemma qnorm_lost : exists p q, prob p /\ norm_cdf 0 1 q = B2R p /\ qnorm (N:=NR) p (bofZ 0) (bofZ 1) = B754_infinity true.
Proof.
  pose proof p60_prob as O. pose proof O as [Fp Rp]. destruct (erfR_surj (2 * B2R p60 - 1) ltac:(lra)) as [z Hz]. exists p60, (z * R_sqrt.sqrt 2). split; auto. pose proof sqrt2_rng. split.
  - unfold norm_cdf. replace ((z * R_sqrt.sqrt 2 - 0) / (R_sqrt.sqrt 2 * 1)) with z by (field; lra). rewrite Hz. lra.
  - rewrite qnorm_fin by (apply one_pos || auto; reflexivity). replace (bsub (bmul (bofZ 2) p60) (bofZ 1)) with (bofZ (-1)) by (apply b64_eq; vm_compute; reflexivity).
    destruct (bofZ_R (-1) ltac:(sm)) as [A F1]. cbn [t_erf_inv TFR]. rewrite CR_fin by auto. rewrite A. unfold extb. destruct Rle_dec; [|lra]. rewrite rdB_minf.
    rewrite mul_minf; [reflexivity|]. pose proof e2_ok as [_ U2]. pose proof ulp1_val. destruct (bofZ_R 1 ltac:(sm)) as [A1 F1']. pose proof huge_1. pose proof tiny_small.
    pose proof (near_mul e2 0 0 0 _ _ _ _ TFR_SQRT_2_acc (near_exact _ F1') ltac:(lra)) as N. rewrite A1, Rmult_1_r in N.
    destruct N as (Fm & t & s & T & S & E); try lra; [rewrite Rabs_pos_eq; lra|]. split; auto. rewrite E. pose proof (exp_2 t _ T ltac:(lra)). apply Rabs_le_inv in S. nra.
Qed.
Lemma qlaplace_lost : exists p q, prob p /\ laplace_cdf 0 1 q = B2R p /\ qlaplace (N:=NR) p (bofZ 0) (bofZ 1) = B754_infinity true.
Proof.
  pose proof p60_prob as O. pose proof O as [Fp Rp]. exists p60, (laplace_qf 0 1 (B2R p60)). split; auto. split; [apply laplace_cdf_qf; lra|].
  rewrite qlaplace_fin by (apply one_pos || auto; reflexivity).
  replace (sgn (N:=NR) (bsub p60 (blit (1#2)))) with (-1)%Z by (vm_compute; reflexivity).
  replace (bsub (bofZ 1) (bmul (bofZ 2) (Babs (bsub p60 (blit (1#2)))))) with (bofZ 0) by (apply b64_eq; vm_compute; reflexivity).
  destruct (bofZ_R 0 ltac:(sm)) as [A F1]. cbn [t_log TFR]. rewrite CR_fin by auto. rewrite A. unfold extl. destruct Rle_dec; [|lra]. rewrite rdB_minf. apply b64_eq. vm_compute. reflexivity.
Qed.
Lemma qinvgamma_lost : exists p q, prob p /\ 0 < q /\ invgamma_cdf 1 1 q = B2R p /\ B2R (qinvgamma (N:=NR) p (bofZ 1) (bofZ 1)) = 0.
Proof.
  pose proof p60_prob as O. pose proof O as [Fp Rp]. destruct (PG_sup 1 (1 - B2R p60) ltac:(lra) ltac:(lra)) as (x & Px & Ex & _). exists p60, (/ x). split; auto. split; [now apply Rinv_0_lt_compat|]. split.
  - unfold invgamma_cdf. replace (1 / / x) with x by (field; lra). rewrite Ex. ring.
  - rewrite qinvgamma_fin by (apply one_pos || auto). replace (bsub (bofZ 1) p60) with (bofZ 1) by (apply b64_eq; vm_compute; reflexivity).
    destruct (bofZ_R 1 ltac:(sm)) as [A F1]. cbn [t_incgamma_inv TFR]. rewrite CR_fin by auto. rewrite A. unfold invG. destruct Rle_dec; [lra|]. destruct Rle_dec; [|lra]. rewrite rdB_inf. vm_compute. reflexivity.
Qed.
(** the threshold 1 - b of the Bernoulli quantile is rounded *)
Lemma qbern_lost F : let N := B64_Num F in exists p b, prob p /\ Bltb (bofZ 0) b = true /\ Bltb b (bofZ 1) = true /\ 1 - B2R b < B2R p /\ qbern (N:=N) p b = bofZ 0 /\ qradem (N:=N) p b = bofZ (-1).
Proof.
  exists (bz 9007199254740991 (-53)), (bz 5 (-55)).
  replace (B2R (bz 9007199254740991 (-53))) with (9007199254740991 / 9007199254740992) by (vm_compute; lra). replace (B2R (bz 5 (-55))) with (5 / 36028797018963968) by (vm_compute; lra).
  split; [split; [vm_compute; reflexivity|]; replace (B2R (bz 9007199254740991 (-53))) with (9007199254740991 / 9007199254740992) by (vm_compute; lra); lra|].
  repeat split; try (vm_compute; reflexivity); lra.
Qed.
