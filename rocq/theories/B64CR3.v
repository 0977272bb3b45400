(** The correctly rounded functions of [TFR] satisfy the hypotheses on magnitudes that the statements
    about densities place on the backend. *)
From Coq Require Import ZArith QArith Reals Bool Lra Lia.
From Coquelicot Require Import Coquelicot.
From Verif Require Import Erf GammaFn BetaFn GammaBd.
From Verif Require Import Num Witness WitnessSF Sanity Prob B64 B64R B64Ord SpecB64 B64Cdf B64Cdf2 B64Cdf3 B64CR B64Unif SpecB64D B64Mag.
From Flocq Require Import Core IEEE754.BinarySingleNaN.
Local Open Scope R_scope.

Lemma ln_bpow e : ln (bpow radix2 e) = IZR e * ln 2.
Proof. rewrite bpow_exp. change (IZR radix2) with 2. apply ln_exp. Qed.
Lemma pos_min x : bpos x -> bpow radix2 (-1074) <= B2R x.
Proof.
  intros [_ P]. destruct (b64_grid x) as [k E]. rewrite E in *. pose proof (bpow_gt_0 radix2 (-1074)) as B.
  assert (0 < IZR k) by (apply (Rmult_lt_reg_r (bpow radix2 (-1074))); lra). assert (K : (1 <= k)%Z) by (apply lt_IZR in H; lia). apply IZR_le in K. nra.
Qed.
Lemma ln_pos_lo x : bpos x -> -1000 <= ln (B2R x).
Proof.
  intros P. pose proof (ln_mono _ _ (bpow_gt_0 radix2 (-1074)) (pos_min x P)) as Q. rewrite ln_bpow in Q. pose proof ln2_le. lra.
Qed.
Lemma ln_pos_hi x e : bpos x -> B2R x <= bpow radix2 e -> (0 <= e)%Z -> ln (B2R x) <= IZR e * (9 / 10).
Proof.
  intros [_ P] H He. pose proof (ln_mono _ _ P H) as Q. rewrite ln_bpow in Q. pose proof ln2_le. apply IZR_le in He. nra.
Qed.
Lemma cl_in y : - maxR <= y <= maxR -> cl y = y.
Proof. intros H. pose proof maxR_pos. unfold cl. rewrite Rmin_right, Rmax_right; lra. Qed.
Lemma rdB_range a b r : (Z.abs a <= 2 ^ 53)%Z -> (Z.abs b <= 2 ^ 53)%Z -> IZR a <= r <= IZR b -> Bleb (bofZ a) (rdB r) = true /\ Bleb (rdB r) (bofZ b) = true.
Proof.
  intros Ha Hb H. destruct (rdB_ev r) as [N E]. pose proof (rc_range a b r Ha Hb H) as Q. rewrite <- E in Q.
  destruct (ev_Z a Ha) as [Na Ea], (ev_Z b Hb) as [Nb Eb]. split; apply leb_ev; intuition; lra.
Qed.
Lemma rc_two k : (-1074 <= k < 1024)%Z -> rc (bpow radix2 k) = bpow radix2 k.
Proof. intros H. rewrite rc_in; rewrite rnd_bpow by lia; auto. rewrite Rabs_pos_eq by apply bpow_ge_0. apply bpow_max; lia. Qed.
Lemma rdB_mag k r : (-1074 <= k < 1024)%Z -> - bpow radix2 k <= r <= bpow radix2 k -> Bleb (Bopp (btwo k)) (rdB r) = true /\ Bleb (rdB r) (btwo k) = true.
Proof.
  intros Hk H. destruct (rdB_ev r) as [N E]. destruct (btwo_R k Hk) as [Fk Ek]. pose proof (rc_two k Hk) as R2.
  destruct (nn_opp (btwo k) (nn_fin _ Fk)) as [No Eo]. rewrite (ev_fin _ Fk), Ek in Eo.
  pose proof (rc_mono _ _ (proj2 H)) as Q1. pose proof (rc_mono _ _ (proj1 H)) as Q2. rewrite R2 in Q1. rewrite rc_opp, R2 in Q2. rewrite <- E in Q1, Q2.
  split; apply leb_ev; (split; [|split]); auto; try (now apply nn_fin); rewrite ?Eo, ?(ev_fin _ Fk), ?Ek; lra.
Qed.

Lemma TFR_log_std : log_std TFR.
Proof.
  assert (M : 1000 < maxR) by exact (maxR_big 1000 ltac:(sm)). pose proof maxR_pos as MP.
  split; [exact TFR_log|]. split; [|split; [reflexivity|]].
  - cbn [t_log TFR]. destruct (bofZ_R 0 ltac:(sm)) as [B0 F0]. rewrite CR_fin by auto. rewrite B0. unfold extl. destruct (Rle_dec 0 0) as [_|N]; [|lra].
    destruct (rdB_ev (- (2 * maxR))) as [N E]. assert (K : ev (rdB (- (2 * maxR))) = - maxR).
    { rewrite E. pose proof (rc_bound (- (2 * maxR))). pose proof (rc_mono (- (2 * maxR)) (- maxR) ltac:(lra)) as Q. rewrite (rc_opp maxR) in Q.
      assert (rc maxR = maxR); [|lra]. apply rc_hi. rewrite rnd_fmt; [lra|]. apply generic_format_bpow. cbn. lia. }
    destruct (nn_cases _ N) as [G | [G | G]]; [pose proof (fin_lt _ G); lra|rewrite G in K; cbn [ev] in K; lra|rewrite G; reflexivity].
  - intros x Hx. apply pos_bpos in Hx. pose proof Hx as [Fx Px]. cbn [t_log TFR]. rewrite CR_fin by auto. unfold extl. destruct (Rle_dec (B2R x) 0) as [N|_]; [lra|].
    pose proof (ln_pos_lo x Hx) as L. pose proof (fin_lt x Fx) as U. rewrite ev_fin in U by auto. pose proof (ln_pos_hi x 1024 Hx ltac:(change (bpow radix2 1024) with maxR; lra) ltac:(lia)) as V.
    rewrite cl_in by lra. apply rdB_range; try sm. lra.
Qed.
Lemma TFR_lgamma_mid : lgamma_mid TFR.
Proof.
  intros x L1 L2. assert (Hx : bpos x).
  { apply leb_ev in L2. destruct L2 as (Nx & _ & L2). destruct (btwo_R 990 ltac:(lia)) as [Ft Et]. rewrite (ev_fin _ Ft), Et in L2. pose proof (bpow_max 990 ltac:(lia)).
    apply ltb_ev in L1; [|exact (proj1 (ev_Z 0 ltac:(sm)))|auto]. rewrite ev0 in L1. assert (Fx : bfin x) by (apply ev_lt_fin; auto; lra). split; auto. now rewrite <- ev_fin. }
  pose proof Hx as [Fx Px]. cbn [t_lgamma TFR]. rewrite CR_fin by auto. apply rdB_mag; [lia|].
  assert (U : B2R x <= bpow radix2 990). { apply leb_ev in L2. destruct (btwo_R 990 ltac:(lia)) as [Ft Et]. destruct L2 as (_ & _ & L2). now rewrite (ev_fin _ Ft), Et, ev_fin in L2 by auto. }
  pose proof (ln_pos_lo x Hx) as La. pose proof (ln_pos_hi x 990 Hx U ltac:(lia)) as Lb.
  destruct (ln_Gam_bounds (B2R x) 1000 Px ltac:(lra) ltac:(lra)) as [A B].
  assert (P10 : bpow radix2 10 = 1024) by (cbn; lra).
  assert (P2 : bpow radix2 1002 = bpow radix2 991 * bpow radix2 10 * 2). { change 1002%Z with (991 + 10 + 1)%Z. rewrite !bpow_plus. f_equal. }
  assert (P3 : bpow radix2 991 = bpow radix2 990 * 2) by (change 991%Z with (990 + 1)%Z; rewrite bpow_plus; f_equal).
  assert (P0 : 1024 <= bpow radix2 990) by (rewrite <- P10; apply bpow_le; lia).
  assert (Lc : 0 <= ln (B2R x + 1) <= 900).
  { split; [rewrite <- ln_1; apply ln_mono; lra|]. assert (Q : B2R x + 1 <= bpow radix2 991) by lra. pose proof (ln_mono (B2R x + 1) _ ltac:(lra) Q) as Q'. rewrite ln_bpow in Q'. pose proof ln2_le. lra. }
  assert (D : (B2R x + 1) * ln (B2R x + 1) <= bpow radix2 991 * 900) by (apply Rmult_le_compat; lra). split; nra.
Qed.
Lemma TFR_lgamma_ge : lgamma_ge TFR.
Proof.
  intros x L. apply leb_ev in L. destruct L as (_ & Nx & L). rewrite ev1 in L. cbn [t_lgamma TFR]. destruct (nn_cases x Nx) as [Fx | [-> | ->]]; [|reflexivity|reflexivity].
  rewrite CR_fin by auto. rewrite ev_fin in L by auto. destruct (rdB_ev (ln (Gam (B2R x)))) as [N E]. apply leb_ev. destruct (ev_Z (-1) ltac:(sm)) as [Nm Em]. split; auto. split; auto.
  rewrite Em, E, <- (rc_Z (-1)) by sm. apply rc_mono. rewrite <- (ln_exp (-1)). apply ln_mono; [apply exp_pos|]. now apply Gam_ge.
Qed.
Lemma PI_ge : 2 <= Rtrigo1.PI <= 4. Proof. pose proof PI2_1. unfold Rdiv in *. lra. Qed.
Lemma PI_35 : 2 * Rtrigo1.PI <= 694 / 100.
Proof. destruct (PI_ineq 1) as [_ H]. cbn [sum_f_R0 Nat.mul Nat.add] in H. unfold tg_alt, PI_tg in H. cbn [INR Nat.mul Nat.add pow] in H. lra. Qed.
Lemma exp_npow r n : Rtrigo_def.exp (INR n * r) = Rtrigo_def.exp r ^ n.
Proof. induction n as [|n IH]; [rewrite Rmult_0_l; apply exp_0|]. rewrite S_INR, Rmult_plus_distr_r, exp_plus, IH, Rmult_1_l. apply Rmult_comm. Qed.
Lemma exp2_ge : 694 / 100 <= Rtrigo_def.exp 2.
Proof.
  replace 2 with (IZR 32 * (1 / 16)) by lra.
  assert (E : Rtrigo_def.exp (IZR 32 * (1 / 16)) = Rtrigo_def.exp (1 / 16) ^ 32) by (replace (IZR 32) with (INR 32) by (rewrite INR_IZR_INZ; reflexivity); apply exp_npow).
  rewrite E. apply Rle_trans with ((17 / 16) ^ 32); [lra|]. apply pow_incr. split; [lra|]. pose proof (exp_ineq1_le (1 / 16)). lra.
Qed.
Lemma TFR_LOG_2PI : small_const (t_LOG_2PI TFR).
Proof.
  cbn [t_LOG_2PI TFR]. apply rdB_range; try sm. pose proof PI_ge as P. split.
  - apply Rle_trans with 0; [lra|]. rewrite <- ln_1. apply ln_mono; lra.
  - apply Rle_trans with (ln (Rtrigo_def.exp 2)); [|rewrite ln_exp; lra]. apply ln_mono; [lra|]. pose proof PI_35. pose proof exp2_ge. lra.
Qed.
Lemma TFR_LOG_PI : small_const (t_LOG_PI TFR).
Proof.
  cbn [t_LOG_PI TFR]. apply rdB_range; try sm. pose proof PI_ge as P. split.
  - apply Rle_trans with 0; [lra|]. rewrite <- ln_1. apply ln_mono; lra.
  - apply Rle_trans with (ln (Rtrigo_def.exp 2)); [|rewrite ln_exp; lra]. apply ln_mono; [lra|]. pose proof exp2_ge. lra.
Qed.
Lemma TFR_LOG_2 : small_const (t_LOG_2 TFR).
Proof. cbn [t_LOG_2 TFR]. apply rdB_range; try sm. pose proof ln2_le. pose proof ln2_pos. lra. Qed.
Lemma TFR_PI_1 : b64_fin (t_PI TFR) /\ Bleb (bofZ 1) (t_PI TFR) = true.
Proof.
  destruct TFR_PI as [P E]. pose proof (pos_bpos _ P) as [F Q]. destruct (rdB_ev (Rtrigo1.PI / 2)) as [N R2]. pose proof (rc_range 1 2 _ ltac:(sm) ltac:(sm) PI2_1) as K. rewrite <- R2 in K.
  split; [|apply leb_ev; split; [exact (proj1 (ev_Z 1 ltac:(sm)))|]; split; [now apply nn_fin|rewrite ev1, E; lra]].
  split; [|exact (proj2 P)]. pose proof (fin_lt _ F). apply ltb_ev; try reflexivity; [now apply nn_fin|]. unfold minus_inf. rewrite ev_m. lra.
Qed.
Lemma TFR_log_binom : log_binom_ok TFR.
Proof.
  intros n k Hk Hn. cbn [t_log_binom TFR]. pose proof (ln_C (Z.to_nat n) (Z.to_nat k) ltac:(lia)) as [A B]. rewrite INR_IZR_INZ, Z2Nat.id in B by lia.
  assert (C : ln (Binomial.C (Z.to_nat n) (Z.to_nat k)) <= bpow radix2 60).
  { eapply Rle_trans; [exact B|]. apply Rle_trans with (bpow radix2 53); [|apply bpow_le; lia]. replace (bpow radix2 53) with (IZR (2 ^ 53)) by reflexivity. apply IZR_le. lia. }
  destruct (rdB_ev (ln (Binomial.C (Z.to_nat n) (Z.to_nat k)))) as [N E]. destruct (rdB_mag 60 (ln (Binomial.C (Z.to_nat n) (Z.to_nat k))) ltac:(lia)) as [_ H]; [pose proof (bpow_ge_0 radix2 60); lra|].
  split; auto. apply (le_Zl 0); [sm|]. split; auto. rewrite E. apply rc_mono in A. now rewrite rc_0 in A.
Qed.
Lemma ln2_ge : / 2 <= ln 2.
Proof.
  assert (P : 0 <= 1 / 4 * (1 - 1 / 4)) by lra. rewrite <- (ln_exp (/ 2)). apply ln_mono; [apply exp_pos|].
  replace (/ 2) with (1 / 4 + 1 / 4) by lra. rewrite exp_plus. pose proof (exp_ineq1_le (- (1 / 4))) as H. rewrite exp_Ropp in H. pose proof (exp_pos (1 / 4)) as E.
  assert (K : 3 / 4 * Rtrigo_def.exp (1 / 4) <= 1). { apply (Rmult_le_compat_r (Rtrigo_def.exp (1 / 4))) in H; [|lra]. rewrite Rinv_l in H by lra. lra. }
  nra.
Qed.
Lemma TFR_lgamma_over : lgamma_over TFR.
Proof.
  intros x L. apply leb_ev in L. destruct L as (_ & Nx & L). destruct (btwo_R 1020 ltac:(lia)) as [Ft Et]. rewrite (ev_fin _ Ft), Et in L. pose proof (bpow_gt_0 radix2 1020) as B0.
  cbn [t_lgamma TFR]. destruct (nn_cases x Nx) as [Fx | [-> | ->]]; [|reflexivity|reflexivity]. rewrite CR_fin by auto. rewrite ev_fin in L by auto.
  assert (P10 : bpow radix2 10 = 1024) by (cbn; lra). assert (P0 : 1024 <= bpow radix2 1020) by (rewrite <- P10; apply bpow_le; lia).
  pose proof (Gam_lower (B2R x) ltac:(lra)) as G. assert (Ll : 510 <= ln (B2R x)).
  { pose proof (ln_mono _ _ B0 L) as Q. rewrite ln_bpow in Q. pose proof ln2_ge. lra. }
  assert (K : maxR <= ln (Gam (B2R x))).
  { assert (MR : maxR = bpow radix2 1020 * 16) by (change maxR with (bpow radix2 (1020 + 4)); rewrite bpow_plus; f_equal; cbn; lra). rewrite MR. pose proof (Rmult_le_compat_l (B2R x - 1) _ _ ltac:(lra) Ll). lra. }
  destruct (rdB_ev (ln (Gam (B2R x)))) as [N E]. apply rc_mono in K. replace (rc maxR) with maxR in K by (symmetry; apply rc_hi; rewrite rnd_fmt; [lra|apply generic_format_bpow; cbn; lia]).
  pose proof maxR_pos as MP. destruct (nn_cases _ N) as [H | [H | H]]; [pose proof (fin_lt _ H); lra|exact H|rewrite H in E; cbn [ev] in E; lra].
Qed.
Lemma TFR_log_10 : bmul (btwo 1023) (t_log TFR (bofZ 10)) = plus_inf.
Proof.
  destruct (bofZ_R 10 ltac:(sm)) as [B F1]. cbn [t_log TFR]. rewrite CR_fin by auto. rewrite B. unfold extl. destruct (Rle_dec 10 0) as [N|_]; [lra|].
  assert (L : 2 <= ln 10). { apply Rle_trans with (ln (Rtrigo_def.exp 2)); [rewrite ln_exp; lra|]. apply ln_mono; [apply exp_pos|]. replace 2 with (1 + 1) by lra. rewrite exp_plus. pose proof exp_le_3. pose proof (exp_pos 1). nra. }
  assert (U : ln 10 <= 9). { pose proof (ln_le_lin 10 ltac:(lra)). lra. } assert (M : 1000 < maxR) by exact (maxR_big 1000 ltac:(sm)).
  rewrite cl_in by lra. destruct (rdB_ev (ln 10)) as [N E]. pose proof (rc_range 2 9 (ln 10) ltac:(sm) ltac:(sm) ltac:(lra)) as Q. rewrite <- E in Q.
  destruct (fin_of _ 2 9 N Q ltac:(lra) ltac:(lra)) as [Fl Rl]. destruct (btwo_R 1023 ltac:(lia)) as [Ft Et]. destruct (mul_ff _ _ Ft Fl) as [Nm Em]. rewrite Et in Em.
  assert (K : maxR <= bpow radix2 1023 * B2R (rdB (ln 10))).
  { assert (MR : maxR = bpow radix2 1023 * 2) by (change maxR with (bpow radix2 (1023 + 1)); rewrite bpow_plus; f_equal). rewrite MR. apply Rmult_le_compat_l; [apply bpow_ge_0|lra]. }
  apply rc_mono in K. replace (rc maxR) with maxR in K by (symmetry; apply rc_hi; rewrite rnd_fmt; [lra|apply generic_format_bpow; cbn; lia]). rewrite <- Em in K.
  pose proof maxR_pos as MP. destruct (nn_cases _ Nm) as [H | [H | H]]; [pose proof (fin_lt _ H); lra|exact H|rewrite H in K; cbn [ev] in K; lra].
Qed.
Lemma TFR_log_1 : t_log TFR (bofZ 1) = bofZ 0.
Proof.
  destruct (bofZ_R 1 ltac:(sm)) as [B F1]. cbn [t_log TFR]. rewrite CR_fin by auto. rewrite B. unfold extl. destruct (Rle_dec 1 0) as [N|_]; [lra|].
  rewrite ln_1. pose proof maxR_pos. rewrite cl_in by lra. unfold rdB, scaled_mantissa. rewrite Rmult_0_l. replace (ZnearestE 0) with 0%Z; [reflexivity|]. symmetry. apply (Zrnd_IZR ZnearestE 0).
Qed.
