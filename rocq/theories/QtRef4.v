(** Four degrees of freedom: closed form of the distribution function, and the values of
    Hill's starting approximation at a probability near 0.0117. *)
From Coq Require Import Reals Lra Lia Psatz.
From Coquelicot Require Import Coquelicot.
From Verif Require Import Spec RealElem Analysis GammaFn SpecSF FamR SpecQt QtRefR.
Local Open Scope R_scope.

Lemma Gam_5_2 : Gam (5 / 2) = 3 / 4 * sqrt PI.
Proof. replace (5 / 2) with (3 / 2 + 1) by field. rewrite Gam_rec, Gam_3_2 by lra. field. Qed.
Lemma t_pdf_4 x : t_pdf 4 x = 12 / ((x * x + 4) ^ 2 * sqrt (x * x + 4)).
Proof.
  assert (Hx : 0 < x * x + 4) by nra.
  unfold t_pdf. replace ((4 + 1) / 2) with (5 / 2) by field. replace (4 / 2) with (1 + 1) by field.
  rewrite Gam_5_2, Gam_rec, Gam_1 by lra. pose proof PI_RGT_0. rewrite sqrt_mult by lra.
  replace (sqrt 4) with 2 by (replace 4 with (2 ^ 2) by ring; rewrite sqrt_pow2; lra).
  replace (1 + x ^ 2 / 4) with ((x * x + 4) / 4) by field.
  rewrite Rpower_Ropp. replace (5 / 2) with (1 + 1 + / 2) by field.
  rewrite !Rpower_plus, Rpower_1, Rpower_sqrt, sqrt_div_alt by lra.
  replace (sqrt 4) with 2 by (replace 4 with (2 ^ 2) by ring; rewrite sqrt_pow2; lra).
  assert (0 < sqrt PI) by (apply sqrt_lt_R0; lra).
  assert (Hs : 0 < sqrt (x * x + 4)) by now apply sqrt_lt_R0.
  field. repeat split; lra.
Qed.
Lemma t_cdf_4 x : 1 / 2 + (3 / 4 * (x / sqrt (x * x + 4)) - / 4 * (x / sqrt (x * x + 4)) ^ 3) = t_cdf 4 x.
Proof.
  apply (t_eq_of_derive 4 (fun x => 1 / 2 + (3 / 4 * (x / sqrt (x * x + 4)) - / 4 * (x / sqrt (x * x + 4)) ^ 3))); try lra.
  - clear x. intros x. rewrite t_pdf_4. assert (Hx : 0 < x * x + 4) by nra.
    assert (Hs : 0 < sqrt (x * x + 4)) by now apply sqrt_lt_R0.
    pose proof (sqrt_sqrt (x * x + 4) ltac:(lra)) as SS.
    assert (U : is_derive (fun x => x / sqrt (x * x + 4)) x (4 / sqrt (x * x + 4) ^ 3)).
    { auto_derive; [repeat split; auto; nra|]. set (s := sqrt (x * x + 4)) in *.
      assert (E : x * x = s * s - 4) by lra. field_simplify_eq; [|lra].
      replace (s ^ 3) with (s * (x * x + 4)) by (rewrite <- SS; ring). nra. }
    set (s := sqrt (x * x + 4)) in *.
    eapply d_eq.
    + apply d_plus; [apply d_const|]. apply d_minus; [apply d_scal, U|].
      apply d_scal. apply (is_derive_pow (fun x => x / sqrt (x * x + 4)) 3). apply U.
    + fold s. rewrite <- SS. cbn [INR pow pred].
      assert (E : x * x = s * s - 4) by lra. field_simplify_eq; [|lra]. nra.
Qed.
Lemma cub_le u w : 0 <= u -> u <= w -> w <= 1 -> 3 / 4 * u - / 4 * u ^ 3 <= 3 / 4 * w - / 4 * w ^ 3.
Proof.
  intros. assert (0 <= (w - u) * (3 - (w * w + w * u + u * u))); [|cbn [pow]; nra].
  apply Rmult_le_pos; [lra|]. nra.
Qed.
Lemma t_cdf_4_lo : t_cdf 4 (17 / 5) <= 1 - 13 / 1000.
Proof.
  rewrite <- t_cdf_4. assert (H : 394 / 100 <= sqrt (17 / 5 * (17 / 5) + 4)).
  { rewrite <- (sqrt_Rsqr (394 / 100)) by lra. apply sqrt_le_1; unfold Rsqr; lra. }
  set (s := sqrt _) in *. assert (0 < s) by lra.
  assert (17 / 5 / s <= 863 / 1000).
  { apply Rmult_le_reg_r with s; auto. unfold Rdiv at 1. rewrite Rmult_assoc, Rinv_l; lra. }
  assert (0 <= 17 / 5 / s) by (left; apply Rdiv_lt_0_compat; lra).
  pose proof (cub_le (17 / 5 / s) (863 / 1000) ltac:(auto) ltac:(auto) ltac:(lra)). lra.
Qed.
Lemma t_cdf_4_hi : 1 - 99 / 10000 <= t_cdf 4 (19 / 5).
Proof.
  rewrite <- t_cdf_4. assert (H : sqrt (19 / 5 * (19 / 5) + 4) <= 43 / 10).
  { rewrite <- (sqrt_Rsqr (43 / 10)) by lra. apply sqrt_le_1; unfold Rsqr; lra. }
  assert (Hs : 0 < sqrt (19 / 5 * (19 / 5) + 4)) by (apply sqrt_lt_R0; lra).
  assert (HH : 38 / 10 <= sqrt (19 / 5 * (19 / 5) + 4)).
  { rewrite <- (sqrt_Rsqr (38 / 10)) by lra. apply sqrt_le_1; unfold Rsqr; lra. }
  set (s := sqrt _) in *.
  assert (883 / 1000 <= 19 / 5 / s).
  { apply Rmult_le_reg_r with s; auto. unfold Rdiv at 2. rewrite Rmult_assoc, Rinv_l; lra. }
  assert (19 / 5 / s <= 1).
  { apply Rmult_le_reg_r with s; auto. unfold Rdiv at 1. rewrite Rmult_assoc, Rinv_l; lra. }
  pose proof (cub_le (883 / 1000) (19 / 5 / s) ltac:(lra) ltac:(auto) ltac:(lra)). lra.
Qed.
Definition p4 : R := / (32 * hill_d 4).
Lemma hill_a_4 : hill_a 4 = 2 / 7.
Proof. unfold hill_a. field. Qed.
Lemma hill_b_4 : hill_b 4 = 588.
Proof. unfold hill_b. rewrite hill_a_4. field. Qed.
Lemma hill_d_4 : 258 / 100 <= hill_d 4 <= 31 / 10.
Proof.
  unfold hill_d, hill_c. rewrite hill_b_4, hill_a_4.
  assert (H : 3 <= PI <= 4).
  { split; [pose proof PI2_3_2; unfold PI2 in *; lra|]. apply PI_4. }
  assert (A : 654 / 1000 <= sqrt (2 / 7 * PI / 2)).
  { rewrite <- (sqrt_Rsqr (654 / 1000)) by lra. apply sqrt_le_1; unfold Rsqr; lra. }
  assert (B : sqrt (2 / 7 * PI / 2) <= 75 / 100 * 1008 / 1000).
  { rewrite <- (sqrt_Rsqr (75 / 100 * 1008 / 1000)) by lra. apply sqrt_le_1; unfold Rsqr; try lra. }
  set (s := sqrt _) in *. set (k := (945 / 10 / _ - 3) / 588 + 1).
  assert (99 / 100 <= k <= 996 / 1000).
  { unfold k. match goal with |- context [945 / 10 / ?z] => set (w := z) end.
    assert (600 <= w <= 700) by (unfold w; lra).
    assert (945 / 10 / w <= 16 / 100).
    { apply Rmult_le_reg_r with w; [lra|]. unfold Rdiv at 1. rewrite Rmult_assoc, Rinv_l; lra. }
    assert (0 <= 945 / 10 / w) by (left; apply Rdiv_lt_0_compat; lra).
    split; lra. }
  nra.
Qed.

Lemma p4_range : 1 / 100 <= p4 <= 1212 / 100000.
Proof.
  pose proof hill_d_4 as H. unfold p4. split.
  - unfold Rdiv. rewrite Rmult_1_l. apply Rinv_le_contravar; lra.
  - replace (1212 / 100000) with (/ (100000 / 1212)) by (field; lra). apply Rinv_le_contravar; lra.
Qed.
Lemma hill_y_4 : hill_y 4 (2 * p4) = 1 / 4.
Proof.
  pose proof hill_d_4. unfold hill_y, p4. replace (hill_d 4 * (2 * / (32 * hill_d 4))) with ((1 / 4) ^ 2) by (field; lra).
  replace (2 / 4) with (/ 2) by field. rewrite Rpower_sqrt by lra. rewrite sqrt_pow2; lra.
Qed.
Lemma hill_den_4 : 8 <= hill_den 4 (2 * p4) <= 9.
Proof. pose proof hill_d_4. unfold hill_den. rewrite hill_y_4. replace ((4 + 6) / (4 * (1 / 4))) with 10 by field. lra. Qed.
Lemma hill_start_4 : 317 / 100 <= hill_start 4 (2 * p4) <= 319 / 100.
Proof.
  unfold hill_start. rewrite hill_y_4. pose proof hill_den_4 as H. set (w := hill_den 4 (2 * p4)) in *.
  assert (/ 200 <= 1 / (w * (4 + 2) * 3)).
  { unfold Rdiv. rewrite Rmult_1_l. apply Rinv_le_contravar; lra. }
  assert (1 / (w * (4 + 2) * 3) <= / 140).
  { unfold Rdiv. rewrite Rmult_1_l. apply Rinv_le_contravar; lra. }
  set (z := 1 / (w * (4 + 2) * 3)) in *. lra.
Qed.
Definition v4 : R := sqrt (4 * hill_start 4 (2 * p4)).
Lemma v4_range : 355 / 100 <= v4 <= 358 / 100.
Proof.
  pose proof hill_start_4. unfold v4. split.
  - rewrite <- (sqrt_Rsqr (355 / 100)) by lra. apply sqrt_le_1; unfold Rsqr; lra.
  - rewrite <- (sqrt_Rsqr (358 / 100)) by lra. apply sqrt_le_1; unfold Rsqr; lra.
Qed.
Lemma root4 : exists vs, 34 / 10 <= vs <= 38 / 10 /\ t_cdf 4 (- vs) = p4.
Proof.
  pose proof p4_range. pose proof t_cdf_4_lo. pose proof t_cdf_4_hi.
  destruct (ivt (t_cdf 4) (17 / 5) (19 / 5) (1 - p4)) as (x & Hx & E); try lra.
  - intros x _. apply (derive_cont_pt _ _ (t_pdf 4 x)). apply t_cdf_derive. lra.
  - exists x. split; [lra|]. rewrite t_cdf_sym by lra. lra.
Qed.
Lemma pdf_ratio_4 a b : 34 / 10 <= a <= 38 / 10 -> 34 / 10 <= b <= 38 / 10 -> t_pdf 4 a / t_pdf 4 b <= 2.
Proof.
  intros Ha Hb. assert (P : forall x, 0 < t_pdf 4 x) by (intros; apply t_pdf_pos; lra).
  assert (L : t_pdf 4 (34 / 10) <= 2 * t_pdf 4 (38 / 10)).
  { rewrite !t_pdf_4. assert (A : 39 / 10 <= sqrt (34 / 10 * (34 / 10) + 4)).
    { rewrite <- (sqrt_Rsqr (39 / 10)) by lra. apply sqrt_le_1; unfold Rsqr; lra. }
    assert (B : sqrt (38 / 10 * (38 / 10) + 4) <= 43 / 10).
    { rewrite <- (sqrt_Rsqr (43 / 10)) by lra. apply sqrt_le_1; unfold Rsqr; lra. }
    assert (B0 : 0 < sqrt (38 / 10 * (38 / 10) + 4)) by (apply sqrt_lt_R0; lra).
    set (s := sqrt _) in *. set (t := sqrt _) in B, B0 |- *.
    apply Rle_trans with (12 / ((34 / 10 * (34 / 10) + 4) ^ 2 * (39 / 10))).
    - apply Rmult_le_compat_l; [lra|]. apply Rinv_le_contravar; lra.
    - apply Rle_trans with (2 * (12 / ((38 / 10 * (38 / 10) + 4) ^ 2 * (43 / 10)))); [lra|].
      apply Rmult_le_compat_l; [lra|]. apply Rmult_le_compat_l; [lra|]. apply Rinv_le_contravar; [|lra].
      apply Rmult_lt_0_compat; lra. }
  pose proof (t_pdf_decr 4 ltac:(lra) (34 / 10) a ltac:(lra)). pose proof (t_pdf_decr 4 ltac:(lra) b (38 / 10) ltac:(lra)).
  pose proof (P b). apply Rmult_le_reg_r with (t_pdf 4 b); auto. unfold Rdiv. rewrite Rmult_assoc, Rinv_l; lra.
Qed.
Lemma cub_const_4 m : 34 / 10 <= m -> 0 <= cub_const 4 m <= 1 / 2.
Proof.
  intros. unfold cub_const. assert (11 <= m ^ 2) by nra. split.
  - left. apply Rdiv_lt_0_compat; lra.
  - apply Rmult_le_reg_r with (6 * (4 + m ^ 2)); [lra|]. unfold Rdiv at 1. rewrite Rmult_assoc, Rinv_l; lra.
Qed.

(** a start far above the root is made worse *)
Lemma above_bad : exists w, taylor_iter 1 1 (3 / 4) 10 = w /\ t_cdf 1 1 = 3 / 4 /\ 11 < w.
Proof.
  eexists. split; [reflexivity|]. pose proof PI_RGT_0 as HP.
  assert (P4 : PI <= 4) by apply PI_4.
  assert (P3 : 3 <= PI) by (pose proof PI2_3_2; unfold PI2 in *; lra).
  assert (F1 : t_cdf 1 1 = 3 / 4).
  { rewrite <- t_cdf_1. unfold cauchy_cdf. replace ((1 - 0) / 1) with 1 by field. rewrite atan_1. field. lra. }
  split; auto. cbn [taylor_iter]. unfold taylor_step.
  rewrite <- t_cdf_1, t_pdf_1. unfold cauchy_cdf, cauchy_pdf. replace ((10 - 0) / 1) with 10 by field.
  assert (A : 0 <= atan (/ 10) <= / 10).
  { destruct (mvt atan (fun x => / (1 + x ^ 2)) 0 (/ 10)) as (c & Hc & Ec); try lra.
    - intros. apply is_derive_Reals. apply derivable_pt_lim_atan.
    - intros. apply derivable_continuous_pt. exists (/ (1 + x ^ 2)). apply derivable_pt_lim_atan.
    - rewrite atan_0 in Ec. pose proof (pow2_ge_0 c). assert (/ (1 + c ^ 2) <= 1).
      { rewrite <- Rinv_1. apply Rinv_le_contravar; lra. }
      assert (0 < / (1 + c ^ 2)) by (apply Rinv_0_lt_compat; lra). lra. }
  assert (E : atan 10 = PI / 2 - atan (/ 10)) by (pose proof (atan_inv 10 ltac:(lra)); lra).
  rewrite E. set (u := atan (/ 10)) in *.
  match goal with |- _ < _ + ?x + _ => replace x with (101 * (u - PI / 4)) by (field; lra) end.
  set (x := 101 * (u - PI / 4)). assert (x <= -65) by (unfold x; lra).
  assert (0 <= (x + 65) * (x + 65)) by nra. cbn [pow]. nra.
Qed.
