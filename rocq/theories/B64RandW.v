(** Witnesses for the samplers in binary64: the correctly rounded functions, and the uniform draws of
    std::mt19937_64 as libstdc++ makes them. *)
From Coq Require Import ZArith QArith Reals Bool List Lra Lia.
From Verif Require Import Num Sanity Prob B64 B64R B64Ord SpecB64 SpecB64D B64Cdf B64CdfBad B64CR B64CR2 B64CR3 SpecAcc B64AccW Rand MT SpecRandB B64Thm.
From Flocq Require Import Core IEEE754.BinarySingleNaN.
Import ListNotations.
Local Open Scope R_scope.
Local Notation half := (blit (1#2)).

Lemma rdB_zero r : rnd r = 0 -> rdB r = B754_zero false.
Proof.
  intros H. assert (M : ZnearestE (scaled_mantissa radix2 fexp64 r) = 0%Z).
  { change (F2R (Float radix2 (ZnearestE (scaled_mantissa radix2 fexp64 r)) (cexp radix2 fexp64 r)) = 0) in H. now apply eq_0_F2R in H. }
  unfold rdB. now rewrite M.
Qed.
Lemma rdB_nz r : rdB r <> B754_zero true.
Proof.
  intros H. destruct (rdB_ev r) as [N E]. rewrite H in E. change (0 = rc r) in E. rewrite rdB_zero in H; [discriminate|].
  pose proof maxR_pos as M. destruct (Rle_or_lt maxR (rnd r)) as [L|L]; [rewrite rc_hi in E by auto; lra|]. destruct (Rle_or_lt (rnd r) (- maxR)) as [K|K]; [rewrite rc_lo in E by auto; lra|].
  rewrite rc_in in E; [lra|]. now apply Rabs_def1.
Qed.
Lemma rdB_same r y : bfin y -> B2R y = r -> r <> 0 -> rdB r = y.
Proof.
  intros Fy Ey Nz. destruct (rdB_ev r) as [N E]. assert (Q : ev (rdB r) = ev y) by (rewrite E, (ev_fin y Fy), Ey, <- Ey, <- (ev_fin y Fy); now apply rc_ev).
  assert (Fr : bfin (rdB r)) by (apply ev_lt_fin; auto; rewrite Q; now apply fin_lt). rewrite !ev_fin in Q by auto.
  apply B2R_inj; auto; [destruct (rdB r)|destruct y]; try discriminate; auto; cbn in *; try congruence; exfalso; apply Nz; congruence.
Qed.
Lemma TFR_log_cut : log_cut TFR.
Proof.
  split; [exact TFR_log_std|]. intros x L. right. assert (N : nn x) by (destruct x; try reflexivity; discriminate L). destruct (ev_Z 0 ltac:(sm)) as [N0 E0]. apply ltb_ev in L; auto. rewrite E0 in L.
  destruct (nn_cases x N) as [Fx|[->| ->]]; cbn [t_log TFR]; [|cbn [ev] in L; pose proof maxR_pos; lra|reflexivity].
  rewrite CR_fin by auto. rewrite ev_fin in L by auto. unfold extl. destruct Rle_dec; [|lra].
  destruct (rdB_ev (- (2 * maxR))) as [A B]. pose proof maxR_pos. rewrite rc_lo in B.
  - destruct (nn_cases _ A) as [Fy|[Hy|Hy]]; auto; [pose proof (fin_lt _ Fy); lra|rewrite Hy, ev_p in B; lra].
  - unfold rnd. rewrite <- (rnd_fmt (- maxR)); [apply round_le; try typeclasses eauto; lra|]. apply generic_format_opp. unfold maxR. apply generic_format_bpow. unfold fexp64, SpecFloat.fexp. cbn. lia.
Qed.
Lemma TFR_pow_unit : pow_unit TFR.
Proof.
  split; [exact TFR_pow|]. intros c P. split.
  - cbn [t_pow TFR]. rewrite CR_fin by reflexivity. destruct (bofZ_R 1 ltac:(sm)) as [A B]. apply rdB_same; auto; rewrite A; unfold powR; destruct Rle_dec; try lra; unfold Rpower; rewrite ln_1, Rmult_0_r, exp_0; lra.
  - intros x L0 L1. cbn [t_pow TFR]. destruct x as [s|s| |s m e B]; try discriminate; [destruct s; discriminate|]. rewrite CR_fin by reflexivity. apply rdB_nz.
Qed.
Lemma TFR_few : few_values TFR.
Proof.
  assert (LG : forall x, bfin x -> 0 < B2R x -> nn (t_log TFR x) /\ ev (t_log TFR x) = rc (ln (B2R x))).
  { intros x Fx P. cbn [t_log TFR]. rewrite CR_fin by auto. unfold extl. destruct Rle_dec; [lra|]. rewrite cl_id; [apply rdB_ev|]. pose proof (ln_any x Fx P). pose proof huge_2. lra. }
  assert (l2 : 1 / 2 < ln 2 < 1).
  { split. - rewrite <- (ln_exp (1/2)). apply ln_increasing; [apply exp_pos|]. pose proof (exp_le_3). assert (exp (1 / 2) * exp (1 / 2) = exp 1) by (rewrite <- exp_plus; f_equal; lra). pose proof (exp_pos (1 / 2)). nra.
    - rewrite <- (ln_exp 1). apply ln_increasing; [lra|]. pose proof (exp_ineq1 1 ltac:(lra)). lra. }
  assert (m2 : 2 / 3 < ln 2).
  { rewrite <- (ln_exp (2 / 3)). apply ln_increasing; [apply exp_pos|].
    assert (H : exp (1 / 24) <= 24 / 23).
    { pose proof (exp_ineq1_le (- (1 / 24))) as K. rewrite exp_Ropp in K. pose proof (exp_pos (1 / 24)) as P. apply Rmult_le_reg_r with (/ exp (1 / 24)); [now apply Rinv_0_lt_compat|]. rewrite Rinv_r by lra. lra. }
    replace (exp (2 / 3)) with (exp (1 / 24) ^ 16) by (rewrite <- Rpower_pow by apply exp_pos; unfold Rpower; rewrite ln_exp; f_equal; cbn; lra).
    apply Rle_lt_trans with ((24 / 23) ^ 16); [apply pow_incr; split; auto; left; apply exp_pos|lra]. }
  repeat split.
  - cbn [t_log TFR]. rewrite CR_fin by reflexivity. destruct (bofZ_R 1 ltac:(sm)) as [A B]. rewrite A. unfold extl. destruct Rle_dec; [lra|]. rewrite ln_1, cl_id by (pose proof huge_2; rewrite Rabs_R0; lra). apply rdB_zero. apply round_0. typeclasses eauto.
  - assert (H : bfin half /\ B2R half = 1 / 2) by (split; [vm_compute; reflexivity|vm_compute; lra]). destruct H as [Fh Bh]. destruct (LG half Fh ltac:(lra)) as [N E].
    assert (H : bfin (blit (-1 # 2)) /\ B2R (blit (-1 # 2)) = - (1 / 2)) by (split; [vm_compute; reflexivity|vm_compute; lra]). destruct H as [Fm Bm].
    apply leb_ev. split; auto. split; [now apply nn_fin|]. rewrite E, Bh, <- (rc_ev _ Fm), (ev_fin _ Fm), Bm. apply rc_mono. replace (1 / 2) with (/ 2) at 1 by lra. rewrite ln_Rinv by lra. lra.
  - destruct (bofZ_R 8 ltac:(sm)) as [A B]. destruct (LG (bofZ 8) B ltac:(lra)) as [N E]. apply (le_Zl 2); [sm|]. split; auto. rewrite E, A. rewrite <- (rc_Z 2) by sm. apply rc_mono. replace 8 with (2 * 2 * 2) by lra. rewrite !ln_mult by lra. lra.
  - destruct (bofZ_R 8 ltac:(sm)) as [A B]. destruct (LG (bofZ 8) B ltac:(lra)) as [N E]. apply (le_Zr 3); [sm|]. split; auto. rewrite E, A. rewrite <- (rc_Z 3) by sm. apply rc_mono. replace 8 with (2 * 2 * 2) by lra. rewrite !ln_mult by lra. lra.
  - cbn [t_powZ TFR]. rewrite CR_fin by reflexivity. destruct (bofZ_R 1 ltac:(sm)) as [A B]. apply rdB_same; auto; rewrite A; change (powerRZ 1 3) with (1 ^ 3); lra.
  - cbn [t_powZ TFR]. rewrite CR_fin by reflexivity. destruct (bofZ_R 2 ltac:(sm)) as [A B], (bofZ_R 8 ltac:(sm)) as [C D]. apply rdB_same; auto; rewrite ?C, A; change (powerRZ 2 3) with (2 ^ 3); lra.
  - cbn [t_pow TFR]. rewrite CR_fin by (vm_compute; reflexivity). replace (B2R half) with (bpow radix2 (-1)) by (vm_compute; lra). destruct (bofZ_R 2048 ltac:(sm)) as [A B]. rewrite A. unfold powR. destruct Rle_dec; [pose proof (bpow_gt_0 radix2 (-1)); lra|].
    rewrite Rpower_bpow. replace (2048 * (IZR (-1) * ln 2)) with (IZR (-2048) * ln 2) by lra. rewrite <- ln_bpow, exp_ln by apply bpow_gt_0. apply rdB_zero. unfold rnd.
    apply (round_N_small_pos radix2 fexp64 _ _ (-2047)); [split; [apply bpow_le; lia|apply bpow_lt; lia]|]. vm_compute. reflexivity.
Qed.
