(** Crude bounds on the logarithm, the gamma function and the binomial coefficients, for the magnitudes
    that the binary64 statements on densities ask for. *)
From Coq Require Import Reals Lra Lia Psatz.
From Coquelicot Require Import Coquelicot.
From Verif Require Import RealElem Analysis Erf PowInt GammaFn LimR2.
Local Open Scope R_scope.

Lemma ln2_le : ln 2 <= 9 / 10.
Proof.
  rewrite <- (ln_exp (9 / 10)). assert (2 <= exp (9 / 10)).
  { replace (9 / 10) with (9 / 20 + 9 / 20) by lra. rewrite exp_plus. pose proof (exp_ineq1_le (9 / 20)). nra. }
  destruct H as [H|H]; [left; apply ln_increasing; lra|rewrite H; lra].
Qed.
Lemma ln2_pos : 0 < ln 2. Proof. rewrite <- ln_1. apply ln_increasing; lra. Qed.
Lemma ln_mono a b : 0 < a -> a <= b -> ln a <= ln b.
Proof. intros P [H| ->]; [left; now apply ln_increasing|lra]. Qed.

Lemma Gam_ge a : 1 <= a -> exp (-1) <= Gam a.
Proof.
  intros Ha. pose proof (lgam_pos a 1 ltac:(lra) ltac:(lra)) as P. set (x := Rmax 1 (- ln (lgam a 1))).
  assert (X1 : 1 <= x) by apply Rmax_l. assert (X2 : - ln (lgam a 1) <= x) by apply Rmax_r.
  assert (E : exp (- x) <= lgam a 1). { rewrite <- (exp_ln (lgam a 1)) by auto. apply exp_le_compat. lra. }
  assert (M : lgam a 1 + exp (- 1) <= lgam a x + exp (- x)).
  { apply (mono_of_derive (fun t => lgam a t + exp (- t)) (fun t => Rpower t (a - 1) * exp (- t) - exp (- t))); auto.
    - intros t Ht. replace (Rpower t (a - 1) * exp (- t) - exp (- t)) with (plus (Rpower t (a - 1) * exp (- t)) (- exp (- t))) by (unfold plus; cbn; ring).
      apply (is_derive_plus (lgam a) (fun t => exp (- t))); [apply lgam_derive; lra|]. auto_derive; auto. ring.
    - intros t Ht. assert (1 <= Rpower t (a - 1)). { unfold Rpower. apply Rle_trans with (exp 0); [rewrite exp_0; lra|]. apply exp_le_compat. apply Rmult_le_pos; [lra|]. rewrite <- ln_1. apply ln_mono; lra. }
      pose proof (exp_pos (- t)). nra.
    - intros t Ht. apply continuity_pt_plus; [apply lgam_cont; lra|]. apply (derive_cont_pt _ _ (- exp (- t))). auto_derive; auto. ring. }
  pose proof (lgam_le_Gam a x ltac:(lra) ltac:(lra)). replace (-1) with (- 1) by ring. lra.
Qed.
Lemma lgam_1_upper a : 0 < a -> lgam a 1 <= / a.
Proof.
  intros Ha. cut (/ a * pw 0 a - lgam a 0 <= / a * pw 1 a - lgam a 1).
  { rewrite lgam_0, pw_0, pw_1. lra. }
  apply (mono_of_derive (fun t => / a * pw t a - lgam a t)
    (fun t => / a * (a * Rpower t (a - 1)) - Rpower t (a - 1) * exp (- t))); [lra|..].
  - intros t Ht. apply d_minus; [|apply lgam_derive; lra]. apply d_scal. now apply pw_derive.
  - intros t Ht. replace (/ a * (a * Rpower t (a - 1))) with (Rpower t (a - 1)) by (field; lra).
    assert (exp (- t) <= 1) by (rewrite <- exp_0; apply exp_le_compat; lra). assert (0 < Rpower t (a - 1)) by apply exp_pos. nra.
  - intros t Ht. apply continuity_pt_minus; [|now apply lgam_cont].
    apply continuity_pt_mult; [apply continuity_pt_const; intros ? ?; auto|]. apply cont_pt. now apply pw_cont.
Qed.
Lemma Gam_upper a : 0 < a -> Gam a <= / a + gam_C (a + 1).
Proof.
  intros Ha. destruct (Rle_lt_dec (Gam a) (/ a + gam_C (a + 1))) as [|L]; auto. exfalso.
  apply (lgam_near a _ Ha) in L. destruct L as (x & Hx & L). pose proof (lgam_1_upper a Ha). pose proof (gam_C_pos (a + 1)).
  destruct (Rle_lt_dec 1 x) as [H1|H1].
  - pose proof (lgam_tail a 1 x Ha ltac:(lra) H1). lra.
  - pose proof (lgam_slt a x 1 Ha ltac:(lra) H1). lra.
Qed.
(** the logarithm of Gamma between -(1 + ln a) and a crude Stirling bound *)
Lemma ln_Gam_bounds a l : 0 < a -> - l <= ln a -> 0 <= l -> - (1 + ln a) <= ln (Gam a) <= 1 + l + (a + 1) * ln (a + 1).
Proof.
  intros Ha Hl L0. pose proof (Gam_pos a Ha) as P. split.
  - pose proof (ln_mono _ _ ltac:(apply Rdiv_lt_0_compat; [apply exp_pos|exact Ha]) (Gam_small a Ha)) as Q.
    unfold Rdiv in Q. rewrite ln_mult, ln_exp, ln_Rinv in Q; auto using exp_pos, Rinv_0_lt_compat. lra.
  - pose proof (ln_mono _ _ P (Gam_upper a Ha)) as Q. eapply Rle_trans; [exact Q|].
    assert (K : 0 <= (a + 1) * ln (a + 1)) by (apply Rmult_le_pos; [lra|]; rewrite <- ln_1; apply ln_mono; lra).
    assert (U : / a <= exp (l + (a + 1) * ln (a + 1))).
    { rewrite <- (exp_ln (/ a)) by now apply Rinv_0_lt_compat. apply exp_le_compat. rewrite ln_Rinv by auto. lra. }
    assert (V : gam_C (a + 1) <= exp (l + (a + 1) * ln (a + 1))). { unfold gam_C. apply exp_le_compat. lra. }
    assert (W : / a + gam_C (a + 1) <= exp (1 + l + (a + 1) * ln (a + 1))).
    { rewrite Rplus_assoc, exp_plus. pose proof (exp_ineq1_le 1). pose proof (exp_pos (l + (a + 1) * ln (a + 1))). nra. }
    rewrite <- (ln_exp (1 + l + (a + 1) * ln (a + 1))). apply ln_mono; auto. pose proof (gam_C_pos (a + 1)). pose proof (Rinv_0_lt_compat a Ha). lra.
Qed.
Lemma Gam_lower a : 1 <= a -> (a - 1) * ln a - a - 1 <= ln (Gam a).
Proof.
  intros Ha. set (c := Rpower a (a - 1) * exp (- (a + 1))).
  assert (M : lgam a a - c * a <= lgam a (a + 1) - c * (a + 1)).
  { apply (mono_of_derive (fun t => lgam a t - c * t) (fun t => Rpower t (a - 1) * exp (- t) - c * 1)); [lra|..].
    - intros t Ht. apply d_minus; [apply lgam_derive; lra|]. apply d_scal. apply (is_derive_id t).
    - intros t Ht. rewrite Rmult_1_r. unfold c. cut (Rpower a (a - 1) * exp (- (a + 1)) <= Rpower t (a - 1) * exp (- t)); [lra|].
      apply Rmult_le_compat; try (left; apply exp_pos).
      + unfold Rpower. apply exp_le_compat. apply Rmult_le_compat_l; [lra|]. apply ln_mono; lra.
      + apply exp_le_compat. lra.
    - intros t Ht. apply continuity_pt_minus; [apply lgam_cont; lra|]. apply (derive_cont_pt _ _ c). auto_derive; auto. ring. }
  pose proof (lgam_pos a a ltac:(lra) ltac:(lra)). pose proof (lgam_le_Gam a (a + 1) ltac:(lra) ltac:(lra)).
  assert (L : c <= Gam a) by lra. assert (P : 0 < c) by (apply Rmult_lt_0_compat; apply exp_pos).
  pose proof (ln_mono _ _ P L) as Q. unfold c in Q. rewrite ln_mult, ln_exp in Q by apply exp_pos. unfold Rpower in Q. rewrite ln_exp in Q. lra.
Qed.

(** binomial coefficients lie between 1 and 2^n *)
Lemma C_pos' n k : 0 < Binomial.C n k.
Proof. unfold Binomial.C. apply Rdiv_lt_0_compat; [apply INR_fact_lt_0|]. apply Rmult_lt_0_compat; apply INR_fact_lt_0. Qed.
Lemma C_ge1 n : forall k, (k <= n)%nat -> 1 <= Binomial.C n k.
Proof.
  assert (H0 : forall n, Binomial.C n 0 = 1). { intros m. unfold Binomial.C. rewrite Nat.sub_0_r. change (INR (fact 0)) with 1. field. apply INR_fact_neq_0. }
  assert (Hn : forall n, Binomial.C n n = 1). { intros m. unfold Binomial.C. rewrite Nat.sub_diag. change (INR (fact 0)) with 1. field. apply INR_fact_neq_0. }
  induction n as [|n IH]; intros k Hk; [replace k with 0%nat by lia; rewrite H0; lra|]. destruct k as [|k]; [rewrite H0; lra|].
  destruct (Nat.eq_dec k n) as [->|N]; [rewrite Hn; lra|]. rewrite <- pascal by lia. pose proof (IH k ltac:(lia)). pose proof (C_pos' n (S k)). lra.
Qed.
Lemma sum_term (f : nat -> R) : (forall i, 0 <= f i) -> forall n k, (k <= n)%nat -> f k <= sum_f_R0 f n.
Proof.
  intros P n. assert (S0 : forall m, 0 <= sum_f_R0 f m) by (intros m; apply cond_pos_sum; auto).
  induction n as [|n IH]; intros k Hk; [replace k with 0%nat by lia; cbn; lra|]. cbn [sum_f_R0].
  destruct (Nat.eq_dec k (S n)) as [->|N]; [pose proof (S0 n); lra|]. pose proof (IH k ltac:(lia)). pose proof (P (S n)). lra.
Qed.
Lemma C_le_pow n k : (k <= n)%nat -> Binomial.C n k <= 2 ^ n.
Proof.
  intros Hk. replace 2 with (1 + 1) by lra. rewrite binomial. rewrite (sum_eq _ (fun i => Binomial.C n i)) by (intros i Hi; rewrite !pow1; ring).
  apply (sum_term (fun i => Binomial.C n i)); auto. intros i. left. apply C_pos'.
Qed.
Lemma ln_C n k : (k <= n)%nat -> 0 <= ln (Binomial.C n k) <= INR n.
Proof.
  intros Hk. pose proof (C_ge1 n k Hk). split; [rewrite <- ln_1; apply ln_mono; lra|].
  apply Rle_trans with (ln (2 ^ n)); [apply ln_mono; [lra|now apply C_le_pow]|]. rewrite ln_pow by lra. pose proof ln2_le. pose proof (pos_INR n). nra.
Qed.
