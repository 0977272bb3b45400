(** Conditioning of the functions behind the quantile functions (real analysis only). *)
From Coq Require Import Reals Lra.
Local Open Scope R_scope.
Local Lemma Rabs_le_inv x y : Rabs x <= y -> - y <= x <= y.
Proof. unfold Rabs. destruct Rcase_abs; lra. Qed.

Lemma sin_abs x : Rabs (sin x) <= Rabs x.
Proof.
  assert (P : forall y, 0 <= y -> Rabs (sin y) <= y).
  { intros y Hy. destruct (Rle_lt_or_eq_dec 0 y Hy) as [H| <-]; [|rewrite sin_0, Rabs_R0; lra].
    apply Rabs_le. split; [|left; now apply sin_lt_x].
    destruct (Rle_lt_dec y 1) as [L|L].
    - pose proof PI_RGT_0. pose proof (sin_ge_0 y Hy) as Q. assert (y <= PI) by (pose proof PI2_1; lra). specialize (Q H1). lra.
    - pose proof (SIN_bound y). lra. }
  destruct (Rle_lt_dec 0 x) as [H|H].
  - rewrite (Rabs_pos_eq x) by auto. auto.
  - rewrite <- Rabs_Ropp, <- sin_neg, (Rabs_left x) by auto. apply P. lra.
Qed.
Lemma cos_low x : 1 - x ^ 2 / 2 <= cos x.
Proof.
  replace (cos x) with (1 - 2 * sin (x / 2) * sin (x / 2)) by (rewrite <- cos_2a_sin; f_equal; lra).
  pose proof (sin_abs (x / 2)) as S. apply Rsqr_le_abs_1 in S. unfold Rsqr in S. nra.
Qed.
Lemma tan_pert a d : - (PI / 2) < a < PI / 2 -> Rabs d <= / 8 -> 4 * (Rabs (tan a) * Rabs d) <= 1 ->
  - (PI / 2) < a + d < PI / 2 /\ Rabs (tan (a + d) - tan a) <= 3 / 2 * Rabs d * (1 + tan a ^ 2).
Proof.
  intros Ha Hd Hz. assert (C : 0 < cos a) by (apply cos_gt_0; lra). set (z := tan a) in *.
  assert (Sa : sin a = z * cos a) by (unfold z, tan; field; lra).
  pose proof (Rabs_pos d) as D0. pose proof (Rabs_pos z) as Z0. pose proof (sin_abs d) as Sd. pose proof (cos_low d) as Cd.
  assert (D2 : d ^ 2 <= / 64) by (rewrite <- pow2_abs; nra).
  assert (ZS : Rabs (z * sin d) <= / 4) by (rewrite Rabs_mult; nra). apply Rabs_le_inv in ZS.
  assert (Cs : 7 / 10 * cos a <= cos (a + d)).
  { rewrite cos_plus, Sa. replace (cos a * cos d - z * cos a * sin d) with (cos a * (cos d - z * sin d)) by ring. nra. }
  apply Rabs_le_inv in Hd. pose proof PI2_1 as P1. assert (P2 : PI / 2 = PI2 \/ True) by auto. clear P2.
  assert (R : - (PI / 2) < a + d < PI / 2).
  { split.
    - apply Rnot_le_lt. intros L. pose proof (cos_le_0 (- (a + d))) as Q. rewrite cos_neg in Q. specialize (Q ltac:(lra) ltac:(unfold Rdiv in *; lra)). lra.
    - apply Rnot_le_lt. intros L. pose proof (cos_le_0 (a + d) ltac:(lra) ltac:(unfold Rdiv in *; lra)) as Q. lra. }
  split; auto. assert (K : 0 < cos (a + d)) by lra.
  assert (E : tan (a + d) - z = sin d / (cos (a + d) * cos a)).
  { unfold z, tan. replace (sin d) with (sin (a + d - a)) by (f_equal; ring). rewrite (sin_minus (a + d) a). field. split; lra. }
  assert (Z2 : (1 + z ^ 2) * (cos a * cos a) = 1).
  { pose proof (sin2_cos2 a) as Q. unfold Rsqr in Q. rewrite Sa in Q. lra. }
  rewrite E. unfold Rdiv. rewrite Rabs_mult, Rabs_inv, (Rabs_pos_eq (cos (a + d) * cos a)) by nra.
  assert (M : 0 < cos (a + d) * cos a) by nra.
  apply (Rmult_le_reg_r (cos (a + d) * cos a)); auto. rewrite Rmult_assoc, Rinv_l, Rmult_1_r by lra.
  apply Rle_trans with (Rabs d); auto. replace (3 * / 2 * Rabs d * (1 + z ^ 2) * (cos (a + d) * cos a)) with (Rabs d * (3 / 2 * ((1 + z ^ 2) * (cos (a + d) * cos a)))) by field.
  rewrite <- (Rmult_1_r (Rabs d)) at 1. apply Rmult_le_compat_l; auto.
  assert (7 / 10 * ((1 + z ^ 2) * (cos a * cos a)) <= (1 + z ^ 2) * (cos (a + d) * cos a)); [|lra].
  pose proof (pow2_ge_0 z). replace (7 / 10 * ((1 + z ^ 2) * (cos a * cos a))) with ((1 + z ^ 2) * (7 / 10 * cos a * cos a)) by ring. apply Rmult_le_compat_l; [lra|]. apply Rmult_le_compat_r; lra.
Qed.
