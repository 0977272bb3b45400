(** The correctly rounded functions meet the accuracy hypotheses of the densities. *)
From Coq Require Import ZArith QArith Reals Bool Lra Lia.
From Verif Require Import Erf GammaFn GammaBd BetaFn NormR Discrete Spec SpecSF.
From Verif Require Import Num B64 SpecB64 SpecAcc SpecAccD B64R B64Ord B64Cdf B64CR B64Acc B64AccCdf B64AccCdf3 B64AccW B64AccLog B64AccDens B64AccDens2 B64AccDens5.
From Flocq Require Import Core IEEE754.BinarySingleNaN.
Local Open Scope R_scope.
Notation exp := Rtrigo_def.exp.
Lemma TFR_exp_up_acc : exp_up_acc TFR e2.
Proof. apply CR_computes. intros x _ D. split; auto. pose proof (exp_600 _ D). pose proof (exp_pos (B2R x)). pose proof huge_2. rewrite Rabs_pos_eq; lra. Qed.
Lemma ln_0_bpow r k : 0 < r <= bpow radix2 k -> (0 <= k)%Z -> ln r <= IZR k.
Proof.
  intros H K. apply Rle_trans with (ln (bpow radix2 k)); [apply ln_mono; lra|]. rewrite ln_bpow. pose proof ln2_01. assert (0 <= IZR k) by (apply (IZR_le 0); lia). nra.
Qed.
Lemma ln_Gam_size r : bpow radix2 (-1074) <= r <= bpow radix2 900 -> Rabs (ln (Gam r)) <= huge / 64.
Proof.
  intros [H1 H2]. pose proof (bpow_gt_0 radix2 (-1074)) as Q. assert (P : 0 < r) by lra.
  assert (L1 : - 1101 <= ln r). { apply Rle_trans with (ln (bpow radix2 (-1074))); [|apply ln_mono; lra]. rewrite ln_bpow. pose proof ln2_01. lra. }
  pose proof (ln_0_bpow r 900 ltac:(lra) ltac:(lia)) as L2. destruct (ln_Gam_bounds r 1101 P L1 ltac:(lra)) as [B1 B2].
  assert (O : 1 <= bpow radix2 900) by (apply (bpow_le radix2 0); lia).
  assert (R1 : r + 1 <= bpow radix2 901). { change 901%Z with (900 + 1)%Z. rewrite bpow_plus. change (bpow radix2 1) with 2. lra. }
  pose proof (ln_0_bpow (r + 1) 901 ltac:(lra) ltac:(lia)) as L3. assert (L4 : 0 <= ln (r + 1)) by (rewrite <- ln_1; apply ln_mono; lra).
  assert (M : (r + 1) * ln (r + 1) <= bpow radix2 901 * 1024) by (apply Rmult_le_compat; lra).
  assert (G : bpow radix2 901 * 1024 <= huge / 128). { unfold huge. replace 1000%Z with (993 + 7)%Z by lia. rewrite (bpow_plus radix2 993). change (bpow radix2 7) with 128. replace (bpow radix2 993 * 128 / 128) with (bpow radix2 993) by field. change 1024 with (bpow radix2 10). rewrite <- bpow_plus. apply bpow_le. lia. }
  assert (G2 : 2000 <= huge / 128). { unfold huge. replace 1000%Z with (993 + 7)%Z by lia. rewrite (bpow_plus radix2 993). change (bpow radix2 7) with 128. replace (bpow radix2 993 * 128 / 128) with (bpow radix2 993) by field. apply Rle_trans with (bpow radix2 11); [cbn; lra|apply bpow_le; lia]. }
  apply Rabs_le. split; lra.
Qed.
Lemma fin_ge_tiny x : finite x -> 0 < B2R x -> bpow radix2 (-1074) <= B2R x.
Proof. intros Fx P. pose proof (abs_B2R_ge_emin 53 1024 x) as Q. rewrite Rabs_pos_eq in Q by lra. apply Q. destruct x; cbn in *; try discriminate; try lra; reflexivity. Qed.
Lemma TFR_lgamma_acc : lgamma_acc TFR e2.
Proof.
  apply CR_computes. intros x Fx [D1 D2]. split; auto. pose proof (ln_Gam_size (B2R x) (conj (fin_ge_tiny x Fx D1) D2)). pose proof huge_2. lra.
Qed.
Lemma ln_fact_size n : (0 <= n <= 2 ^ 53)%Z -> Rabs (ln (INR (fact (Z.to_nat n)))) <= huge / 64.
Proof.
  intros H. rewrite <- Gam_fact, INR_IZR_INZ, Z2Nat.id by lia. assert (0 <= IZR n) by (apply (IZR_le 0); lia). apply ln_Gam_size. split.
  - apply Rle_trans with (bpow radix2 0); [apply bpow_le; lia|cbn; lra].
  - apply Rle_trans with (bpow radix2 54); [|apply bpow_le; lia]. rewrite <- plus_IZR. change (bpow radix2 54) with (IZR (2 ^ 54)). apply IZR_le. lia.
Qed.
Lemma ln_choose_size n x : (0 <= x <= n)%Z -> (n <= 2 ^ 53)%Z -> Rabs (ln (Binomial.C (Z.to_nat n) (Z.to_nat x))) <= huge / 16.
Proof.
  intros Hx Hn. unfold Binomial.C. rewrite <- Z2Nat.inj_sub by lia. pose proof (ln_fact_size n ltac:(lia)) as A. pose proof (ln_fact_size x ltac:(lia)) as B. pose proof (ln_fact_size (n - x) ltac:(lia)) as C.
  pose proof (INR_fact_lt_0 (Z.to_nat n)) as P1. pose proof (INR_fact_lt_0 (Z.to_nat x)) as P2. pose proof (INR_fact_lt_0 (Z.to_nat (n - x))) as P3.
  set (a := INR (fact (Z.to_nat n))) in *. set (b := INR (fact (Z.to_nat x))) in *. set (c := INR (fact (Z.to_nat (n - x)))) in *. clearbody a b c.
  assert (0 < b * c) by now apply Rmult_lt_0_compat. unfold Rdiv at 1. rewrite ln_mult, ln_Rinv, ln_mult by (auto; now apply Rinv_0_lt_compat).
  unfold Rabs in *. repeat destruct Rcase_abs; lra.
Qed.
Lemma TFR_log_binom_acc : log_binom_acc TFR e2.
Proof.
  intros n x Hx Hn. cbn [t_log_binom TFR]. pose proof (ln_choose_size n x ltac:(lia) Hn). pose proof huge_2. pose proof ulp1_val. eapply near_le; [apply rdB_near; lra|unfold e2; lra|lra].
Qed.
Lemma near_pos4 r : / 4 <= r <= 8 -> near e2 0 (rdB r) r.
Proof.
  intros H. pose proof huge_1. pose proof ulp1_val. pose proof tiny_small. replace e2 with (ulp1 + ulp1) by (unfold e2; ring).
  apply near_rel with (h := tiny); [apply rdB_near; rewrite Rabs_pos_eq; lra|lra|]. rewrite Rabs_pos_eq by lra. nra.
Qed.
Lemma TFR_LOG_2_acc : const_acc e2 (t_LOG_2 TFR) (ln 2).
Proof. apply near_pos4. pose proof ln2_01. split; [|lra]. pose proof ln2_58. lra. Qed.
Lemma TFR_LOG_PI_acc : const_acc e2 (t_LOG_PI TFR) (ln Rtrigo1.PI).
Proof.
  apply near_pos4. pose proof PI2_1. pose proof PI_4. pose proof PI_RGT_0. pose proof ln2_58. split.
  - apply Rle_trans with (ln 2); [lra|apply ln_mono; lra].
  - apply Rle_trans with (ln 4); [apply ln_mono; lra|]. replace 4 with (2 * 2) by ring. rewrite ln_mult by lra. pose proof ln2_01. lra.
Qed.
Lemma TFR_LOG_2PI_acc : const_acc e2 (t_LOG_2PI TFR) (ln (2 * Rtrigo1.PI)).
Proof.
  apply near_pos4. pose proof ln_2PI. pose proof ln2_58. pose proof PI2_1. assert (ln 2 <= ln (2 * Rtrigo1.PI)) by (apply ln_mono; lra). lra.
Qed.
(** a logarithm of a moderate number *)
Lemma ln_moderate r : / 1000 <= r <= 1000 -> Rabs (ln r) <= 1000.
Proof.
  intros H. assert (U : forall s, 0 < s -> ln s <= s) by (intros s P; apply Rle_trans with (ln (exp s)); [apply ln_mono; auto; pose proof (exp_ineq1_le s); lra|rewrite ln_exp; lra]).
  apply Rabs_le. split; [|pose proof (U r ltac:(lra)); lra]. pose proof (U (/ r) ltac:(apply Rinv_0_lt_compat; lra)) as V. rewrite ln_Rinv in V by lra. assert (/ r <= / / 1000) by (apply Rinv_le_contravar; lra). rewrite Rinv_inv in H0. lra.
Qed.
