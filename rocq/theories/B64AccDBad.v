(** Densities whose logarithmic form is lost in double precision even with correctly rounded functions. *)
From Coq Require Import ZArith QArith Reals Bool Lra Lia.
From Verif Require Import Erf GammaFn BetaFn NormR Spec SpecSF.
From Verif Require Import Num Sanity Dens B64 SpecB64 SpecB64D SpecAcc SpecAccD B64R B64Ord B64Cdf B64Cdf2 B64Cdf3 B64CdfBad B64CR B64Acc B64AccCdf B64AccCdf2 B64AccCdf3 B64AccW B64AccQW B64AccLog B64AccDens B64AccDens2.
From Flocq Require Import Core IEEE754.BinarySingleNaN.
Local Open Scope R_scope.
Notation exp := Rtrigo_def.exp.
Notation NR := (B64_Num TFR).
Lemma sub_pinf y : finite y -> bsub y (B754_infinity false) = B754_infinity true.
Proof. destruct y; intros H; try discriminate; reflexivity. Qed.
Lemma rdB_over r : maxR <= r -> rdB r = B754_infinity false.
Proof. intros H. destruct (rdB_ev r) as [N E]. apply ev_max; auto. rewrite E. apply rc_hi. rewrite <- rnd_maxR at 1. now apply rnd_le. Qed.
Lemma exp_over : maxR <= exp 2000.
Proof.
  unfold maxR. rewrite <- (exp_ln (bpow radix2 1024)) by apply bpow_gt_0. apply exp_mono. rewrite ln_bpow. pose proof ln2_01. lra.
Qed.
Lemma log_one : finite (t_log TFR (bofZ 1)).
Proof. destruct (bofZ_R 1 ltac:(sm)) as [A Fo]. apply (TFR_log_acc (bofZ 1) Fo). rewrite A. lra. Qed.
(** exp of the negated argument overflows: minus infinity instead of about -2000 *)
Lemma dlogis_lost : exists x, finite x /\ B2R x = -2000 /\ dlogis (N:=NR) x (bofZ 0) (bofZ 1) true = B754_infinity true /\ -2001 <= ln (logis_pdf 0 1 (B2R x)) <= -1999.
Proof.
  exists (bofZ (-2000)). destruct (bofZ_R (-2000) ltac:(sm)) as [A Fx]. split; [exact Fx|]. split; [exact A|]. split.
  - assert (D : dlogis (N:=NR) (bofZ (-2000)) (bofZ 0) (bofZ 1) true = bsub (bsub (bofZ 2000) (t_log TFR (bofZ 1))) (bmul (bofZ 2) (t_log TFR (badd (bofZ 1) (t_exp TFR (bofZ 2000)))))).
    { unfold dlogis. assert (E1 : logis_sanity3 (N:=NR) (bofZ (-2000)) (bofZ 0) (bofZ 1) = true) by (vm_compute; reflexivity). assert (E2 : any_inf3 (N:=NR) (bofZ (-2000)) (bofZ 0) (bofZ 1) = false) by (vm_compute; reflexivity). rewrite E1, E2. cbn [negb exp_if].
      unfold dlogis_log_compute. assert (E3 : Bopp (bdiv (bsub (bofZ (-2000)) (bofZ 0)) (bofZ 1)) = bofZ 2000) by (apply b64_eq; vm_compute; reflexivity).
      change (bsub (bsub (Bopp (bdiv (bsub (bofZ (-2000)) (bofZ 0)) (bofZ 1))) (t_log TFR (bofZ 1))) (bmul (bofZ 2) (t_log TFR (badd (bofZ 1) (t_exp TFR (Bopp (bdiv (bsub (bofZ (-2000)) (bofZ 0)) (bofZ 1)))))))
        = bsub (bsub (bofZ 2000) (t_log TFR (bofZ 1))) (bmul (bofZ 2) (t_log TFR (badd (bofZ 1) (t_exp TFR (bofZ 2000)))))). rewrite E3. reflexivity. }
    rewrite D. destruct (bofZ_R 2000 ltac:(sm)) as [B F2].
    assert (X : t_exp TFR (bofZ 2000) = B754_infinity false). { cbn [t_exp TFR]. rewrite CR_fin by auto. rewrite B. apply rdB_over. exact exp_over. }
    rewrite X. replace (badd (bofZ 1) (B754_infinity false)) with (B754_infinity false : b64) by (apply b64_eq; vm_compute; reflexivity). cbn [t_log TFR CR].
    replace (bmul (bofZ 2) (B754_infinity false)) with (B754_infinity false : b64) by (apply b64_eq; vm_compute; reflexivity). apply sub_pinf.
    pose proof e2_ok as U. pose proof huge_2. destruct (bofZ_R 1 ltac:(sm)) as [A1 Fo]. pose proof (TFR_log_acc (bofZ 1) Fo ltac:(rewrite A1; lra)) as N. cbv beta in N. rewrite A1, ln_1 in N. destruct N as (Fl & t & s & T & Hs & E). rewrite Rmult_0_l, Rplus_0_l in E.
    apply (near_sub (bofZ 2000) (CR (extl 0 ln) mI pI (bofZ 1)) F2 Fl). rewrite B. change (CR (extl 0 ln) mI pI (bofZ 1)) with (t_log TFR (bofZ 1)). rewrite E. pose proof tiny_small. pose proof ulp1_val. apply Rabs_le_inv in Hs. apply Rabs_le. lra.
  - destruct (ln_logis_pdf 0 1 (B2R (bofZ (-2000))) ltac:(lra)) as [E _]. cbv zeta in E. rewrite E, A, ln_1. replace ((-2000 - 0) / 1) with (-2000) by field. replace (- -2000) with 2000 by lra.
    assert (L : 2000 <= ln (1 + exp 2000) <= 2000 + / 2).
    { pose proof (exp_pos 2000). split; [rewrite <- (ln_exp 2000) at 1; apply ln_mono; lra|]. rewrite <- (ln_exp (2000 + / 2)). apply ln_mono; [lra|]. rewrite exp_plus. pose proof (exp_ineq1_le (/ 2)) as Q. pose proof (exp_ineq1_le 2000). nra. }
    lra.
Qed.
Lemma mul_pinf c : bpos c -> bmul c (B754_infinity false) = B754_infinity false.
Proof. intros P. destruct (bpos_shape c P) as (m & e & B & ->). reflexivity. Qed.
(** the square of the argument overflows: 0 instead of a representable number, and minus infinity for its logarithm *)
Lemma dcauchy_lost : exists x, finite x /\ dcauchy (N:=NR) x (bofZ 0) (bofZ 1) true = B754_infinity true /\ B2R (dcauchy (N:=NR) x (bofZ 0) (bofZ 1) false) = 0 /\ bpow radix2 (-1030) <= cauchy_pdf 0 1 (B2R x).
Proof.
  exists (btwo 513). assert (Fx : finite (btwo 513)) by reflexivity. assert (A : B2R (btwo 513) = bpow radix2 513) by (unfold btwo; vm_compute; lra). split; [exact Fx|].
  assert (PP : bpos (bmul (bofZ 1) (t_PI TFR))).
  { destruct (bofZ_R 1 ltac:(sm)) as [A1 F1]. pose proof e2_ok as [U1 U2]. pose proof ulp1_val. pose proof huge_2. pose proof PI2_1. pose proof PI_4. pose proof tiny_small.
    assert (N : near (0 + e2 + ulp1) (2 * 0 + tiny) (bmul (bofZ 1) (t_PI TFR)) (B2R (bofZ 1) * Rtrigo1.PI)) by (apply (near_mul 0 0 e2 0); [now apply near_exact|exact TFR_PI_acc|lra|rewrite A1, Rabs_pos_eq; lra|lra|lra]).
    destruct N as (Fm & t & s & T & S & E). split; [exact Fm|]. rewrite E, A1. pose proof (exp_2 t _ T ltac:(lra)). apply Rabs_le_inv in S. nra. }
  assert (D : forall lf, dcauchy (N:=NR) (btwo 513) (bofZ 0) (bofZ 1) lf = log_if (N:=NR) (bofZ 0) lf).
  { intros lf. unfold dcauchy. assert (E1 : cauchy_sanity3 (N:=NR) (btwo 513) (bofZ 0) (bofZ 1) = true) by (vm_compute; reflexivity). assert (E2 : any_inf3 (N:=NR) (btwo 513) (bofZ 0) (bofZ 1) = false) by (vm_compute; reflexivity). rewrite E1, E2. cbn [negb]. f_equal.
    unfold dcauchy_compute. change (bdiv (bofZ 1) (bmul (bmul (bofZ 1) (t_PI TFR)) (badd (bofZ 1) (bmul (bdiv (bsub (btwo 513) (bofZ 0)) (bofZ 1)) (bdiv (bsub (btwo 513) (bofZ 0)) (bofZ 1))))) = bofZ 0).
    replace (badd (bofZ 1) (bmul (bdiv (bsub (btwo 513) (bofZ 0)) (bofZ 1)) (bdiv (bsub (btwo 513) (bofZ 0)) (bofZ 1)))) with (B754_infinity false : b64) by (apply b64_eq; vm_compute; reflexivity).
    rewrite mul_pinf by exact PP. apply b64_eq. vm_compute. reflexivity. }
  rewrite !D. cbn [log_if]. destruct (bofZ_R 0 ltac:(sm)) as [A0 F0]. split; [|split; [exact A0|]].
  - change (t_log TFR (bofZ 0) = B754_infinity true). cbn [t_log TFR]. rewrite CR_fin by auto. rewrite A0. unfold extl. destruct Rle_dec; [|lra]. apply rdB_minf.
  - rewrite A. unfold cauchy_pdf. replace ((bpow radix2 513 - 0) / 1) with (bpow radix2 513) by field. pose proof PI_4. pose proof PI2_1. assert (O : 1 <= bpow radix2 1026) by (apply (bpow_le radix2 0); lia).
    assert (E : Rpow_def.pow (bpow radix2 513) 2 = bpow radix2 1026) by (cbn [Rpow_def.pow]; rewrite Rmult_1_r, <- bpow_plus; reflexivity). rewrite E.
    unfold Rdiv. rewrite Rmult_1_l. change (-1030)%Z with (- (1030))%Z. rewrite bpow_opp. apply Rinv_le_contravar; [apply Rmult_lt_0_compat; lra|]. change 1030%Z with (4 + 1026)%Z. rewrite bpow_plus. change (bpow radix2 4) with 16. rewrite Rmult_1_r. apply Rle_trans with (4 * (1 + bpow radix2 1026)); [apply Rmult_le_compat_r; lra|lra].
Qed.
