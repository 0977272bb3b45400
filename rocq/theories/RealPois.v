(** The upper tail of the Poisson distribution far above its mean: the incomplete gamma function at a small argument. *)
From Coq Require Import Reals Lra Lia.
From Coquelicot Require Import Coquelicot.
From Verif Require Import GammaFn GammaBd.
Local Open Scope R_scope.

Lemma PG_up a y : 1 <= a -> 1 <= y -> PG a y <= Rpower y a / Gam a.
Proof.
  intros Ha Hy. pose proof (Gam_pos a ltac:(lra)) as G. unfold PG. apply Rmult_le_compat_r; [left; now apply Rinv_0_lt_compat|].
  destruct (MVT_gen (lgam a) 0 y (fun t => Rpower t (a - 1) * exp (- t))) as (c & C & E).
  - intros t T. rewrite Rmin_left, Rmax_right in T by lra. apply lgam_derive; lra.
  - intros t T. apply lgam_cont. lra.
  - rewrite Rmin_left, Rmax_right in C by lra. rewrite lgam_0, !Rminus_0_r in E. rewrite E.
    assert (P : Rpower c (a - 1) <= Rpower y (a - 1)).
    { destruct (Rle_lt_or_eq_dec 0 c (proj1 C)) as [Q|<-]; [apply Rle_Rpower_l; lra|].
      unfold Rpower. assert (L : ln 0 = 0) by (unfold ln; case (Rlt_dec 0 0); [intros Z; exfalso; exact (Rlt_irrefl 0 Z)|reflexivity]). rewrite L, Rmult_0_r.
      pose proof (ln_mono 1 y ltac:(lra) Hy) as M. rewrite ln_1 in M. assert (N : 0 <= (a - 1) * ln y) by (apply Rmult_le_pos; lra).
      destruct N as [N|N]; [left; now apply exp_increasing|rewrite <- N; lra]. }
    assert (X : 0 < exp (- c) <= 1). { split; [apply exp_pos|]. rewrite <- exp_0. destruct (Req_dec c 0) as [->|]; [rewrite Ropp_0; lra|left; apply exp_increasing; lra]. }
    replace (Rpower y a) with (Rpower y (a - 1) * y) by (rewrite <- (Rpower_1 y) at 2 by lra; rewrite <- Rpower_plus; f_equal; ring).
    assert (0 < Rpower c (a - 1)) by apply exp_pos. apply Rmult_le_compat_r; [lra|].
    apply Rle_trans with (Rpower c (a - 1) * 1); [apply Rmult_le_compat_l; lra|lra].
Qed.
Lemma exp_78 : exp (-78) <= / 2 ^ 61.
Proof.
  assert (B : forall n, 2 ^ n <= exp (INR n)).
  { induction n as [|n IH]; [cbn; rewrite exp_0; lra|]. rewrite S_INR, exp_plus. cbn [pow]. pose proof (exp_ineq1_le 1) as A. pose proof (exp_pos (INR n)).
    apply Rle_trans with (exp (INR n) * 2); [lra|apply Rmult_le_compat_l; lra]. }
  specialize (B 78%nat). replace (INR 78) with 78 in B by (cbn; lra). change (-78) with (Ropp 78). rewrite exp_Ropp. apply Rinv_le_contravar; [apply pow_lt; lra|].
  eapply Rle_trans; [|exact B]. apply Rle_pow; [lra|lia].
Qed.
Lemma PG_tiny a x : 64 <= a -> 16 * x <= a -> 0 <= x -> PG a x <= / 2 ^ 61.
Proof.
  intros Ha Hx Px. set (y := Rmax x 1). assert (Y : 1 <= y /\ x <= y /\ 16 * y <= a) by (unfold y; repeat split; [apply Rmax_r|apply Rmax_l|unfold Rmax; destruct Rle_dec; lra]).
  eapply Rle_trans; [apply (PG_le a x y); lra|]. eapply Rle_trans; [apply PG_up; lra|]. eapply Rle_trans; [|apply exp_78].
  pose proof (Gam_pos a ltac:(lra)) as G. pose proof (Gam_lower a ltac:(lra)) as L.
  assert (E : Rpower y a / Gam a = exp (a * ln y - ln (Gam a))) by (unfold Rminus; rewrite exp_plus, exp_Ropp, exp_ln by auto; reflexivity). rewrite E.
  assert (Q : a * ln y - ln (Gam a) <= -78).
  { assert (L2 : 5 / 8 <= ln 2).
    { assert (K : exp (5 / 8) <= 2). { pose proof (exp_ineq1_le (- (5 / 64))) as Z. assert (Z2 : exp (5 / 64) <= 64 / 59). { rewrite exp_Ropp in Z. pose proof (exp_pos (5 / 64)). apply (Rmult_le_reg_r (59 / 64)); [lra|]. apply Rle_trans with (exp (5 / 64) * / exp (5 / 64)); [apply Rmult_le_compat_l; lra|rewrite Rinv_r; lra]. }
        replace (5 / 8) with (INR 8 * (5 / 64)) by (cbn; lra). assert (EP : forall n r, exp (INR n * r) = exp r ^ n) by (induction n as [|n IH]; intros r; [rewrite Rmult_0_l; apply exp_0|rewrite S_INR, Rmult_plus_distr_r, exp_plus, IH, Rmult_1_l; cbn [pow]; ring]).
        rewrite EP. pose proof (exp_pos (5 / 64)). apply Rle_trans with ((64 / 59) ^ 8); [apply pow_incr; lra|cbn; lra]. }
      rewrite <- (ln_exp (5 / 8)). apply ln_mono; auto. apply exp_pos. }
    assert (LY : ln y <= ln a - 4 * ln 2). { replace (4 * ln 2) with (ln 16) by (replace 16 with (2 ^ 4) by lra; rewrite ln_pow by lra; cbn; ring). apply Rle_trans with (ln (a / 16)); [apply ln_mono; lra|]. unfold Rdiv. rewrite ln_mult, ln_Rinv by lra. lra. }
    assert (LA : ln a <= a / 4 + 1). { pose proof (ln_le_lin (a / 4) ltac:(lra)) as Z. unfold Rdiv in Z. rewrite ln_mult, ln_Rinv in Z by lra. replace 4 with (2 ^ 2) in Z at 1 by lra. rewrite ln_pow in Z by lra. cbn [INR] in Z. pose proof ln2_le. lra. }
    assert (A1 : a * ln y <= a * (ln a - 4 * ln 2)) by (apply Rmult_le_compat_l; lra).
    assert (A2 : a * (5 / 8) <= a * ln 2) by (apply Rmult_le_compat_l; lra).
    replace (a * (ln a - 4 * ln 2)) with (a * ln a - 4 * (a * ln 2)) in A1 by ring. replace ((a - 1) * ln a - a - 1) with (a * ln a - ln a - a - 1) in L by ring. lra. }
  destruct (Req_dec (a * ln y - ln (Gam a)) (-78)) as [->|N]; [lra|left; apply exp_increasing; lra].
Qed.
