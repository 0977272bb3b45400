(** Correctly rounded functions satisfy the accuracy hypotheses, and the places where accuracy is lost
    even with them. *)
From Coq Require Import ZArith QArith Reals Bool Lra Lia.
From Coquelicot Require Import Coquelicot.
From Verif Require Import RealElem RealAcc Erf GammaFn BetaFn NormR Spec SpecSF.
From Verif Require Import Num Sanity Prob B64 B64R B64Ord SpecB64 SpecAcc B64Cdf B64Cdf2 B64Cdf3 B64CR B64CdfBad B64Acc B64AccCdf B64AccCdf2 B64AccCdf3.
From Flocq Require Import Core IEEE754.BinarySingleNaN.
Local Open Scope R_scope.
Notation exp := Rtrigo_def.exp.

Definition e2 : R := 2 * ulp1.
Lemma e2_ok : unit_ok e2. Proof. unfold unit_ok, e2. rewrite ulp1_val. lra. Qed.
Lemma rdB_near r : Rabs r <= 4 * huge -> near ulp1 tiny (rdB r) r.
Proof.
  intros H. destruct (rdB_ev r) as [N E]. pose proof (rnd_bound r H) as B. rewrite rc_in in E by auto. apply Rabs_def2 in B.
  assert (Fr : bfin (rdB r)) by (apply ev_lt_fin; auto; lra). split; auto. rewrite ev_fin in E by auto.
  destruct (rnd_near r) as (t & s & T & S & Q). exists t, s. rewrite E. auto.
Qed.
Lemma rdB_R r : Rabs r <= 4 * huge -> finite (rdB r) /\ B2R (rdB r) = rnd r.
Proof.
  intros H. destruct (rdB_near r H) as [Fr _]. split; auto. destruct (rdB_ev r) as [N E]. rewrite ev_fin in E by auto. rewrite E. apply rc_in. now apply rnd_bound.
Qed.
Lemma CR_computes f lo hi (D : R -> Prop) g : (forall x, finite x -> D (B2R x) -> f (B2R x) = g (B2R x) /\ Rabs (g (B2R x)) <= huge) -> computes e2 D (CR f lo hi) g.
Proof.
  intros H x Fx Dx. destruct (H x Fx Dx) as [E B]. rewrite CR_fin by auto. rewrite E. pose proof huge_1. pose proof ulp1_val. eapply near_le; [apply rdB_near; lra|unfold e2; lra|lra].
Qed.
Lemma TFR_erf_acc : erf_acc TFR e2.
Proof. apply CR_computes. intros x _ _. split; auto. pose proof (erfR_range (B2R x)). pose proof huge_1. apply Rabs_le. lra. Qed.
Lemma TFR_tanh_acc : tanh_acc TFR e2.
Proof. apply CR_computes. intros x _ _. split; auto. pose proof (tanh_abs (B2R x)). pose proof huge_1. lra. Qed.
Lemma TFR_atan_acc : atan_acc TFR e2.
Proof. apply CR_computes. intros x _ _. split; auto. pose proof (atan_bound (B2R x)). pose proof PI_4. pose proof huge_1. apply Rabs_le. lra. Qed.
Lemma TFR_exp_acc : exp_acc TFR e2.
Proof. apply CR_computes. intros x _ D. split; auto. pose proof (exp_np _ D). pose proof huge_1. apply Rabs_le. lra. Qed.
Lemma TFR_expm1_acc : expm1_acc TFR e2.
Proof. apply CR_computes. intros x _ D. split; auto. pose proof (exp_np _ D). pose proof huge_1. apply Rabs_le. lra. Qed.
Lemma ln2_01 : 0 <= ln 2 <= 1.
Proof.
  split; [rewrite <- ln_1; apply ln_mono'; lra|]. rewrite <- (ln_exp 1). apply ln_mono'; [lra|]. pose proof (exp_ineq1_le 1). lra.
Qed.
Lemma ln_bpow k : ln (bpow radix2 k) = IZR k * ln 2.
Proof. rewrite bpow_exp. cbn [radix_val radix2]. now rewrite ln_exp. Qed.
Lemma bpos_tiny x : finite x -> 0 < B2R x -> tiny <= B2R x.
Proof.
  intros Fx Px. assert (S : is_finite_strict x = true). { destruct x; auto; cbn in Px; try lra. }
  pose proof (abs_B2R_ge_emin 53 1024 x S) as A. rewrite Rabs_pos_eq in A by lra. exact A.
Qed.
Lemma ln_any x : finite x -> 0 < B2R x -> Rabs (ln (B2R x)) <= 1100.
Proof.
  intros Fx Px. pose proof (bpos_tiny x Fx Px) as T. pose proof (fin_lt _ Fx) as [_ L]. rewrite ev_fin in L by auto. pose proof ln2_01. pose proof tiny_pos.
  assert (A1 : ln tiny <= ln (B2R x)) by (apply ln_mono'; lra). unfold tiny in A1. rewrite ln_bpow in A1.
  assert (A2 : ln (B2R x) <= ln maxR) by (apply ln_mono'; lra). unfold maxR in A2. rewrite ln_bpow in A2. apply Rabs_le. lra.
Qed.
Lemma huge_2 : 1000000 <= huge /\ huge <= 2 * maxR.
Proof. split; [unfold huge; eapply Rle_trans; [|apply bpow_le with (e1 := 20%Z); lia]; cbn; lra|]. pose proof huge_max. pose proof huge_1. lra. Qed.
Lemma cl_id r : Rabs r <= huge -> cl r = r.
Proof. intros H. pose proof huge_2 as [_ M]. apply Rabs_le_inv in H. unfold cl. rewrite Rmin_right by lra. apply Rmax_right. lra. Qed.
Lemma TFR_log_acc : log_acc TFR e2.
Proof.
  apply CR_computes. intros x Fx Dx. pose proof (ln_any x Fx Dx) as L. pose proof huge_2. split; [|lra]. unfold extl. destruct Rle_dec; [lra|]. apply cl_id. lra.
Qed.
Lemma TFR_pow_acc : pow_acc TFR e2.
Proof.
  intros c Fc. apply CR_computes. intros x Fx [Px L]. unfold powR. destruct Rle_dec; [lra|]. split; auto. rewrite Rabs_pos_eq; auto. left. apply exp_pos.
Qed.
Lemma TFR_pow_sign : pow_sign TFR.
Proof.
  intros x c Fx Fc Px. cbn [t_pow TFR]. rewrite CR_fin by auto. destruct (rdB_ev (powR (B2R c) (B2R x))) as [N E].
  assert (0 <= ev (rdB (powR (B2R c) (B2R x)))).
  { rewrite E, <- rc_0. apply rc_mono. unfold powR. destruct Rle_dec; [lra|]. left. apply exp_pos. }
  destruct (rdB (powR (B2R c) (B2R x))) eqn:Q; cbn; try lra. cbn [ev] in *. auto.
Qed.
Lemma near_pos r : 1 <= r <= 8 -> near e2 0 (rdB r) r.
Proof.
  intros H. pose proof huge_1. pose proof ulp1_val. pose proof tiny_small. replace e2 with (ulp1 + ulp1) by (unfold e2; ring).
  apply near_rel with (h := tiny); [apply rdB_near; rewrite Rabs_pos_eq; lra|lra|]. rewrite Rabs_pos_eq by lra.
  assert (8 * tiny <= ulp1); [|nra]. unfold tiny, ulp1. change 8 with (bpow radix2 3). rewrite <- bpow_plus. apply bpow_le. lia.
Qed.
Lemma TFR_SQRT_2_acc : const_acc e2 (t_SQRT_2 TFR) (R_sqrt.sqrt 2).
Proof.
  apply near_pos. pose proof (sqrt_sqrt 2 ltac:(lra)). pose proof (sqrt_pos 2). split; nra.
Qed.
Lemma TFR_PI_acc : const_acc e2 (t_PI TFR) Rtrigo1.PI.
Proof.
  cbn [t_PI TFR]. pose proof PI2_1 as P. destruct (near_pos (Rtrigo1.PI / 2) ltac:(lra)) as (Fp & t & s & T & S & E). pose proof huge_1. pose proof ulp1_val.
  apply abs_le0 in S. subst s. rewrite Rplus_0_r in E. pose proof (exp_2 t e2 T ltac:(unfold e2; lra)).
  destruct (dbl_exact (rdB (Rtrigo1.PI / 2)) Fp) as [A B]; [rewrite E, Rabs_pos_eq; nra|]. split; auto. exists t, 0. rewrite Rabs_R0, B, E. repeat split; auto; lra.
Qed.
Lemma TFR_incgamma_acc : incgamma_acc TFR e2.
Proof.
  intros a Fa Pa. apply CR_computes. intros x _ D. split; auto. pose proof (PG_range (B2R a) (B2R x) Pa ltac:(lra)). pose proof huge_1. apply Rabs_le. lra.
Qed.
Lemma TFR_incbeta_acc : incbeta_acc TFR e2.
Proof.
  intros a b Fa Fb Pa Pb. apply CR_computes. intros x _ D. split; auto. pose proof (IB_range (B2R a) (B2R b) (B2R x) Pa Pb ltac:(lra)). pose proof huge_1. apply Rabs_le. lra.
Qed.

(** ** where the accuracy is lost *)
Lemma rnd_one r : 1 - bpow radix2 (-60) <= r <= 1 -> rnd r = 1.
Proof.
  intros [A B]. apply Rle_antisym; [rewrite <- (rnd_Z 1 ltac:(sm)); now apply rnd_le|].
  set (c := blit (1 # 1152921504606846976)). assert (Fc : bfin c) by reflexivity.
  assert (Vc : B2R c = bpow radix2 (-60)) by (vm_compute; lra). destruct (bofZ_R 1 ltac:(sm)) as [A1 F1]. pose proof huge_1.
  assert (S : B2R (bsub (bofZ 1) c) = 1) by (vm_compute; lra).
  assert (P : bpow radix2 (-60) <= 1) by (change 1 with (bpow radix2 0); apply bpow_le; lia). pose proof (bpow_gt_0 radix2 (-60)).
  destruct (bsub_R (bofZ 1) c F1 Fc) as [E _]; [apply rnd_bound; rewrite A1, Vc, Rabs_pos_eq; lra|]. rewrite A1, Vc in E. rewrite <- S, E. now apply rnd_le.
Qed.
Lemma rnd_mone r : -1 <= r <= -1 + bpow radix2 (-60) -> rnd r = -1.
Proof. intros H. replace r with (- (- r)) by ring. unfold rnd. rewrite round_NE_opp. fold (rnd (- r)). rewrite rnd_one; lra. Qed.
Lemma exp_2n n : exp (- INR n) <= / 2 ^ n.
Proof.
  rewrite exp_Ropp. apply Rinv_le_contravar; [apply pow_lt; lra|]. induction n as [|n IH]; [cbn; rewrite exp_0; lra|].
  rewrite S_INR, exp_plus. change (2 ^ S n) with (2 * 2 ^ n). pose proof (exp_ineq1_le 1). assert (0 < 2 ^ n) by (apply pow_lt; lra). rewrite Rmult_comm. apply Rmult_le_compat; lra.
Qed.
Lemma exp_m64 : 0 < exp (- (64)) <= bpow radix2 (-64).
Proof. split; [apply exp_pos|]. pose proof (exp_2n 64) as H. rewrite INR_IZR_INZ in H. cbn [Z.of_nat Pos.of_succ_nat Pos.succ] in H. eapply Rle_trans; [exact H|]. cbn. lra. Qed.
Lemma erf_tail z : 1 <= z -> 1 - erfR z <= 6 / 5 * exp (- z ^ 2).
Proof.
  intros Hz. pose proof erf_c as [C0 C1]. set (c := 2 / R_sqrt.sqrt Rtrigo1.PI) in *.
  pose proof (exp_pos (- z ^ 2)). assert (1 - erfR z <= c * exp (- z ^ 2)); [|nra].
  apply Rnot_lt_le. intros L. destruct (erfR_near_1 (erfR z + c * exp (- z ^ 2)) ltac:(lra)) as (y & _ & Hy).
  assert (zy : z < y). { apply Rnot_le_lt. intros Hn. apply erfR_le in Hn. nra. }
  set (h := fun x => erfR x + c * exp (- x ^ 2)).
  assert (D : forall x, is_derive h x (c * exp (- x ^ 2) * (1 - 2 * x))).
  { intros x. unfold h. replace (c * exp (- x ^ 2) * (1 - 2 * x)) with (c * exp (- x ^ 2) + c * (- (2 * x) * exp (- x ^ 2))) by ring.
    apply (is_derive_plus erfR); [apply erfR_derive|]. auto_derive; auto. cbn [Rpow_def.pow]. ring. }
  destruct (MVT_gen h z y (fun x => c * exp (- x ^ 2) * (1 - 2 * x))) as (x & Hx & E).
  - intros x _. apply D.
  - intros x _. apply continuity_pt_filterlim. apply (ex_derive_continuous h). eexists. apply D.
  - rewrite Rmin_left, Rmax_right in Hx by lra. pose proof (exp_pos (- x ^ 2)). pose proof (exp_pos (- y ^ 2)).
    assert (c * exp (- x ^ 2) * (1 - 2 * x) * (y - z) <= 0).
    { assert (0 < c * exp (- x ^ 2)) by nra. assert (0 <= c * exp (- x ^ 2) * (2 * x - 1)) by nra. nra. }
    unfold h in E. nra.
Qed.
Lemma erf_low z : 0 <= z -> exp (- (z + 1) ^ 2) <= 1 - erfR z.
Proof.
  intros Hz. pose proof (erfR_range (z + 1)).
  assert (C : 1 <= 2 / R_sqrt.sqrt Rtrigo1.PI).
  { pose proof sqrt_PI_ge. assert (R_sqrt.sqrt Rtrigo1.PI <= 2). { pose proof PI_4. pose proof PI_RGT_0. rewrite <- (sqrt_Rsqr 2) by lra. apply sqrt_le_1; unfold Rsqr; lra. }
    apply (Rmult_le_reg_r (R_sqrt.sqrt Rtrigo1.PI)); [lra|]. unfold Rdiv. rewrite Rmult_assoc, Rinv_l by lra. lra. }
  destruct (MVT_gen erfR z (z + 1) (fun x => 2 / R_sqrt.sqrt Rtrigo1.PI * exp (- x ^ 2))) as (x & Hx & E).
  - intros x _. apply erfR_derive.
  - intros x _. apply erfR_cont.
  - rewrite Rmin_left, Rmax_right in Hx by lra. assert (exp (- (z + 1) ^ 2) <= exp (- x ^ 2)) by (apply exp_le; nra). pose proof (exp_pos (- x ^ 2)). nra.
Qed.
Lemma sqrt2_b : 141 / 100 <= R_sqrt.sqrt 2 <= 142 / 100.
Proof. pose proof (sqrt_sqrt 2 ltac:(lra)). pose proof (sqrt_pos 2). split; nra. Qed.

Notation NR := (B64_Num TFR).
(** a half of one plus something that has been rounded to -1 *)
Lemma half_zero y : finite y -> B2R y = -1 -> B2R (bmul (blit (1#2)) (badd (bofZ 1) y)) = 0.
Proof.
  intros Fy Vy. destruct (bofZ_R 1 ltac:(sm)) as [A1 F1]. destruct half_R as [Hf Hr]. pose proof huge_1.
  destruct (badd_R (bofZ 1) y F1 Fy) as [E G]; [apply rnd_bound; rewrite A1, Vy; replace (1 + -1) with 0 by ring; rewrite Rabs_R0; lra|].
  rewrite A1, Vy in E. replace (1 + -1) with 0 in E by ring. rewrite rnd_0 in E.
  destruct (bmul_R (blit (1#2)) _ Hf G) as [E2 G2]; [apply rnd_bound; rewrite E, Rmult_0_r, Rabs_R0; lra|]. rewrite E2, E, Rmult_0_r. apply rnd_0.
Qed.
Lemma pnorm_tail_zero : B2R (pnorm (N:=NR) (bofZ (-12)) (bofZ 0) (bofZ 1) false) = 0 /\ exp (- (100)) <= norm_cdf 0 1 (-12).
Proof.
  pose proof sqrt2_b as Q. split.
  - assert (P1 : bpos (bofZ 1)) by (destruct (bofZ_R 1 ltac:(sm)); split; auto; lra).
    rewrite pnorm_fin by (auto; reflexivity).
    replace (bdiv (bsub (bofZ (-12)) (bofZ 0)) (bofZ 1)) with (bofZ (-12)) by (apply b64_eq; vm_compute; reflexivity).
    destruct (bofZ_R (-12) ltac:(sm)) as [A F0]. pose proof huge_1. pose proof ulp1_val. pose proof tiny_small. pose proof tiny_pos.
    pose proof (near_div 0 0 e2 0 _ _ _ _ (near_exact (bofZ (-12)) F0) TFR_SQRT_2_acc ltac:(lra) ltac:(unfold e2; lra)) as N. rewrite A in N.
    assert (D : -12 / R_sqrt.sqrt 2 <= - (84 / 10)). { apply (Rmult_le_reg_r (R_sqrt.sqrt 2)); [lra|]. unfold Rdiv at 1. rewrite Rmult_assoc, Rinv_l; lra. }
    assert (D2 : - (12) <= -12 / R_sqrt.sqrt 2). { apply (Rmult_le_reg_r (R_sqrt.sqrt 2)); [lra|]. unfold Rdiv. rewrite Rmult_assoc, Rinv_l; lra. }
    destruct N as (Fq & t & s & T & S & E); [apply Rabs_le; lra|unfold Rdiv; lra|lra|].
    set (q := bdiv (bofZ (-12)) (t_SQRT_2 TFR)) in *.
    assert (Hq : B2R q <= - (8)).
    { assert (T2 : Rabs t <= / 1000) by (unfold e2 in T; lra). assert (/ 1000 + t >= 0) by (apply Rabs_le_inv in T2; lra). pose proof (exp_ineq1_le t). apply Rabs_le_inv in S.
      rewrite E. assert (999 / 1000 <= exp t) by lra. nra. }
    apply half_zero.
    + cbn [t_erf TFR]. rewrite CR_fin by auto. apply rdB_R. pose proof (erfR_range (B2R q)). apply Rabs_le. lra.
    + cbn [t_erf TFR]. rewrite CR_fin by auto. pose proof (erfR_range (B2R q)) as R1. rewrite (proj2 (rdB_R (erfR (B2R q)) ltac:(apply Rabs_le; lra))). apply rnd_mone. split; [lra|].
      apply erfR_le in Hq. rewrite erfR_odd in Hq. pose proof (erf_tail 8 ltac:(lra)) as T8. replace (- 8 ^ 2) with (- (64)) in T8 by lra. pose proof exp_m64 as [_ X].
      assert (Y : 2 * bpow radix2 (-64) <= bpow radix2 (-60)) by (change 2 with (bpow radix2 1); rewrite <- bpow_plus; apply bpow_le; lia). lra.
  - unfold norm_cdf. replace ((-12 - 0) / (R_sqrt.sqrt 2 * 1)) with (- (12 / R_sqrt.sqrt 2)) by (field; lra). rewrite erfR_odd.
    assert (D : 0 <= 12 / R_sqrt.sqrt 2 <= 852 / 100). { split; [apply Rle_mult_inv_pos; lra|]. apply (Rmult_le_reg_r (R_sqrt.sqrt 2)); [lra|]. unfold Rdiv at 1. rewrite Rmult_assoc, Rinv_l; lra. }
    set (z := 12 / R_sqrt.sqrt 2) in *. pose proof (erf_low z ltac:(lra)) as L.
    assert (M : exp (- (100)) <= exp (-1) * exp (- (z + 1) ^ 2)). { rewrite <- exp_plus. apply exp_le. nra. }
    assert (exp (-1) <= / 2). { change (-1) with (- (1)). rewrite exp_Ropp. pose proof (exp_ineq1_le 1). apply Rinv_le_contravar; lra. } pose proof (exp_pos (- (z + 1) ^ 2)). nra.
Qed.
Lemma plogis_tail_zero : B2R (plogis (N:=NR) (bofZ (-64)) (bofZ 0) (bofZ 1) false) = 0 /\ exp (- (65)) <= logis_cdf 0 1 (-64).
Proof.
  pose proof exp_m64 as [X0 X]. split.
  - assert (P1 : bpos (bofZ 1)) by (destruct (bofZ_R 1 ltac:(sm)); split; auto; lra).
    rewrite plogis_fin by (auto; reflexivity).
    replace (bdiv (bsub (bofZ (-64)) (bofZ 0)) (bmul (bofZ 2) (bofZ 1))) with (bofZ (-32)) by (apply b64_eq; vm_compute; reflexivity).
    destruct (bofZ_R (-32) ltac:(sm)) as [A F0]. pose proof huge_1. pose proof (tanh_abs (-32)) as TA.
    cbn [t_tanh TFR]. rewrite CR_fin by auto. rewrite A. destruct (rdB_R (Rtrigo_def.tanh (-32))) as [Fy Vy]; [lra|].
    apply half_zero; auto. rewrite Vy. apply rnd_mone. apply Rabs_le_inv in TA. split; [lra|].
    rewrite tanh_val. replace (2 * -32) with (- (64)) by lra.
    assert (Y : 2 * bpow radix2 (-64) <= bpow radix2 (-60)) by (change 2 with (bpow radix2 1); rewrite <- bpow_plus; apply bpow_le; lia).
    assert (V : 1 - exp (- (64)) <= / (exp (- (64)) + 1)). { apply (Rmult_le_reg_r (exp (- (64)) + 1)); [lra|]. rewrite Rinv_l by lra. nra. }
    unfold Rdiv. lra.
  - unfold logis_cdf. replace (- ((-64 - 0) / 1)) with 64 by field. replace (- (65)) with (- (1 + 64)) by lra. rewrite exp_Ropp. unfold Rdiv. rewrite Rmult_1_l.
    pose proof (exp_pos 64). apply Rinv_le_contravar; [lra|]. rewrite exp_plus. pose proof (exp_ineq1_le 1). pose proof (exp_ineq1_le 64). nra.
Qed.
Lemma plaplace_tail_zero : B2R (plaplace (N:=NR) (bofZ (-64)) (bofZ 0) (bofZ 1) false) = 0 /\ laplace_cdf 0 1 (-64) = exp (- (64)) / 2.
Proof.
  pose proof exp_m64 as [X0 X]. split.
  - assert (P1 : bpos (bofZ 1)) by (destruct (bofZ_R 1 ltac:(sm)); split; auto; lra).
    rewrite plaplace_fin by (auto; reflexivity).
    replace (bdiv (Bopp (Babs (bsub (bofZ (-64)) (bofZ 0)))) (bofZ 1)) with (bofZ (-64)) by (apply b64_eq; vm_compute; reflexivity).
    replace (sgn (N:=NR) (bsub (bofZ (-64)) (bofZ 0))) with (-1)%Z by (vm_compute; reflexivity).
    destruct (bofZ_R (-64) ltac:(sm)) as [A F0], (bofZ_R 1 ltac:(sm)) as [A1 F1], half_R as [Hf Hr]. pose proof huge_1 as Hg. cbn [t_exp TFR]. rewrite CR_fin by auto. rewrite A.
    replace (exp (-64)) with (exp (- (64))) by (f_equal; lra).
    assert (Y : bpow radix2 (-64) <= bpow radix2 (-60)) by (apply bpow_le; lia).
    assert (Y1 : bpow radix2 (-60) <= 1) by (change 1 with (bpow radix2 0); apply bpow_le; lia).
    destruct (rdB_R (exp (- (64)))) as [Fy Vy]; [rewrite Rabs_pos_eq; lra|].
    assert (U : 0 <= B2R (rdB (exp (- (64)))) <= bpow radix2 (-64)).
    { rewrite Vy. split; [rewrite <- rnd_0; apply rnd_le; lra|]. rewrite <- (rnd_fmt (bpow radix2 (-64))); [now apply rnd_le|].
      rewrite <- (Rmult_1_l (bpow radix2 (-64))). apply (fmt_dyadic 1 (-64)); lia. }
    destruct (bsub_R (bofZ 1) _ F1 Fy) as [E G]; [apply rnd_bound; rewrite A1, Rabs_pos_eq; lra|]. rewrite A1, rnd_one in E by lra.
    destruct (half_sgn (-1)) as [Fh Vh]; [auto|].
    destruct (bmul_R _ _ Fh G) as [E3 G3]; [apply rnd_bound; rewrite Vh, E, Rabs_left; lra|]. rewrite Vh, E in E3. replace (/ 2 * -1 * 1) with (IZR (-1) * bpow radix2 (-1)) in E3 by (cbn; lra). rewrite rnd_dyadic in E3 by lia.
    replace (IZR (-1) * bpow radix2 (-1)) with (- / 2) in E3 by (cbn; lra).
    destruct (badd_R (blit (1#2)) _ Hf G3) as [E4 _]; [apply rnd_bound; rewrite Hr, E3, Rplus_opp_r, Rabs_R0; lra|]. rewrite E4, Hr, E3, Rplus_opp_r. apply rnd_0.
  - unfold laplace_cdf, Rsign. replace (-64 - 0) with (- (64)) by lra. repeat destruct Rlt_dec; try lra. rewrite Rabs_left by lra. replace (- - - (64) / 1) with (- (64)) by lra. lra.
Qed.

(** below the machine epsilon the functions with a positive support return zero, whatever the parameters *)
Section Low.
Variable F : TF.
Notation NB := (B64_Num F).
Definition lowx : b64 := blit (1 # 18446744073709551616).
Lemma lowx_R : B2R lowx = bpow radix2 (-64). Proof. vm_compute. lra. Qed.
Lemma Rpower_bpow k c : Rpower (bpow radix2 k) c = exp (c * (IZR k * ln 2)).
Proof. unfold Rpower. now rewrite ln_bpow. Qed.
Lemma pweibull_low : pweibull (N:=NB) lowx (blit (1#64)) (bofZ 1) false = bofZ 0 /\ 3 / 8 <= weibull_cdf (B2R (blit (1#64))) (B2R (bofZ 1)) (B2R lowx).
Proof.
  split; [vm_compute; reflexivity|]. destruct (bofZ_R 1 ltac:(sm)) as [A1 _]. rewrite A1, lowx_R. replace (B2R (blit (1#64))) with (/ 64) by (vm_compute; lra).
  unfold weibull_cdf. unfold Rdiv. rewrite Rinv_1, Rmult_1_r, Rpower_bpow. replace (/ 64 * (-64 * ln 2)) with (- ln 2) by field. rewrite (exp_Ropp (ln 2)), exp_ln by lra.
  assert (exp (- / 2) <= / (8 / 5)); [|replace (/ (8 / 5)) with (5 / 8) in * by field; lra]. rewrite exp_Ropp. apply Rinv_le_contravar; [lra|].
  replace (/ 2) with (/ 4 + / 4) by lra. rewrite exp_plus. replace (/ 4) with (/ 8 + / 8) by lra. rewrite exp_plus. pose proof (exp_ineq1_le (/ 8)).
  assert (81 / 64 <= exp (/ 8) * exp (/ 8)) by nra. nra.
Qed.
Lemma pgamma_low : pgamma (N:=NB) lowx (blit (1#2)) (bofZ 1) false = bofZ 0 /\ bpow radix2 (-33) <= gamma_cdf (B2R (blit (1#2))) (B2R (bofZ 1)) (B2R lowx).
Proof.
  split; [vm_compute; reflexivity|]. destruct (bofZ_R 1 ltac:(sm)) as [A1 _]. rewrite A1, lowx_R, (proj2 half_R).
  unfold gamma_cdf, Rdiv. rewrite Rinv_1, Rmult_1_r. eapply Rle_trans; [|apply PG_low; [lra|apply bpow_gt_0]].
  rewrite Rpower_bpow, Gam_half. replace (/ 2 * (-64 * ln 2)) with (IZR (-32) * ln 2) by lra. rewrite <- ln_bpow, exp_ln by apply bpow_gt_0.
  pose proof (bpow_gt_0 radix2 (-32)) as P. pose proof sqrt_PI_ge. assert (SP : R_sqrt.sqrt Rtrigo1.PI <= 2).
  { pose proof PI_4. pose proof PI_RGT_0. rewrite <- (sqrt_Rsqr 2) by lra. apply sqrt_le_1; unfold Rsqr; lra. }
  assert (Y : bpow radix2 (-64) <= / 20) by (eapply Rle_trans; [apply bpow_le with (e2 := (-5)%Z); lia|cbn; lra]).
  pose proof (exp_ineq1_le (- bpow radix2 (-64))) as X.
  replace (bpow radix2 (-33)) with (bpow radix2 (-32) * / 2) by (change (-33)%Z with (-32 + -1)%Z; rewrite bpow_plus; cbn; lra).
  unfold Rdiv. rewrite Rmult_assoc. apply Rmult_le_compat_l; [lra|].
  apply (Rmult_le_reg_r (/ 2 * R_sqrt.sqrt Rtrigo1.PI)); [lra|]. rewrite Rmult_assoc, Rinv_l by lra. lra.
Qed.
Lemma plnorm_low : plnorm (N:=NB) lowx (bofZ 0) (bofZ 1024) false = bofZ 0 /\ 1 / 4 <= lnorm_cdf (B2R (bofZ 0)) (B2R (bofZ 1024)) (B2R lowx).
Proof.
  split; [vm_compute; reflexivity|]. destruct (bofZ_R 0 ltac:(sm)) as [A0 _], (bofZ_R 1024 ltac:(sm)) as [A1 _]. rewrite A0, A1, lowx_R.
  unfold lnorm_cdf. rewrite ln_bpow. pose proof ln2_01. pose proof (lnorm_lip 0 1024 0 (-64 * ln 2) ltac:(lra)) as L. rewrite Rplus_0_l in L.
  assert (N0 : norm_cdf 0 1024 0 = 1 / 2). { unfold norm_cdf. replace ((0 - 0) / (R_sqrt.sqrt 2 * 1024)) with 0 by (unfold Rdiv; ring). rewrite erfR_0. lra. }
  rewrite N0 in L. assert (Rabs (-64 * ln 2) <= 64) by (apply Rabs_le; lra). apply Rabs_le_inv in L. lra.
Qed.
End Low.
