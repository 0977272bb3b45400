(** The normal and log-normal distribution functions on the reals. *)
From Coq Require Import Reals Lra Psatz.
From Coquelicot Require Import Coquelicot.
From Verif Require Import Spec RealElem Analysis Erf.
Local Open Scope R_scope.

(** docs/source/api/normal.rst 74, log-normal.rst 74 *)
Definition norm_cdf (mu sigma x : R) : R := 1 / 2 * (1 + erfR ((x - mu) / (sqrt 2 * sigma))).
Definition lnorm_cdf (mu sigma x : R) : R := norm_cdf mu sigma (ln x).

Lemma sqrt2_pos : 0 < sqrt 2. Proof. apply sqrt_lt_R0. lra. Qed.
Lemma norm_cdf_range m s x : 0 < norm_cdf m s x < 1.
Proof. unfold norm_cdf. pose proof (erfR_range ((x - m) / (sqrt 2 * s))). lra. Qed.
Lemma s2_pos s : 0 < s -> 0 < sqrt 2 * s.
Proof. intros. apply Rmult_lt_0_compat; auto. apply sqrt2_pos. Qed.
Lemma norm_cdf_smono m s x y : 0 < s -> x < y -> norm_cdf m s x < norm_cdf m s y.
Proof.
  intros Hs H. unfold norm_cdf.
  assert (erfR ((x - m) / (sqrt 2 * s)) < erfR ((y - m) / (sqrt 2 * s))); [|lra].
  apply erfR_slt, div_lt; [now apply s2_pos|lra].
Qed.
Lemma norm_cdf_mono m s x y : 0 < s -> x <= y -> norm_cdf m s x <= norm_cdf m s y.
Proof. intros Hs [H| ->]; [left; now apply norm_cdf_smono|lra]. Qed.
Lemma norm_cdf_inj m s x y : 0 < s -> norm_cdf m s x = norm_cdf m s y -> x = y.
Proof.
  intros Hs H. destruct (Rtotal_order x y) as [L|[->|L]]; auto;
    apply (norm_cdf_smono m s _ _ Hs) in L; lra.
Qed.
Lemma norm_cdf_derive m s x : 0 < s -> is_derive (norm_cdf m s) x (norm_pdf m s x).
Proof.
  intros Hs. pose proof sqrt2_pos as H2. pose proof sqrt_PI_pos as HP. pose proof PI_RGT_0.
  apply (d_eq _ _ (1 / 2 * (0 + (1 / (sqrt 2 * s)) * (2 / sqrt PI * exp (- ((x - m) / (sqrt 2 * s)) ^ 2))))).
  - unfold norm_cdf. apply d_scal, d_plus; [apply d_const|].
    apply (d_comp erfR (fun x => (x - m) / (sqrt 2 * s))); [apply erfR_derive|].
    pose proof (s2_pos s Hs). auto_derive; [auto|]. field. lra.
  - unfold norm_pdf. rewrite sqrt_mult by lra.
    assert (E : ((x - m) / (sqrt 2 * s)) ^ 2 = (x - m) ^ 2 / (2 * s ^ 2)).
    { replace (2 * s ^ 2) with ((sqrt 2 * s) ^ 2); [field; lra|].
      rewrite Rpow_mult_distr. f_equal. rewrite <- Rsqr_pow2. apply Rsqr_sqrt. lra. }
    rewrite E. field. repeat split; lra.
Qed.
Lemma norm_cdf_sym m s d : 0 < s -> norm_cdf m s (m - d) = 1 - norm_cdf m s (m + d).
Proof.
  intros Hs. unfold norm_cdf. pose proof sqrt2_pos.
  replace ((m - d - m) / (sqrt 2 * s)) with (- ((m + d - m) / (sqrt 2 * s))) by (field; lra).
  rewrite erfR_odd. lra.
Qed.

Lemma lnorm_cdf_derive m s x : 0 < s -> 0 < x -> is_derive (lnorm_cdf m s) x (lnorm_pdf m s x).
Proof.
  intros Hs Hx. unfold lnorm_cdf. apply (d_eq _ _ (/ x * norm_pdf m s (ln x))).
  - apply (d_comp (norm_cdf m s) ln); [now apply norm_cdf_derive|]. now apply is_derive_Reals, derivable_pt_lim_ln.
  - unfold lnorm_pdf, norm_pdf. field. pose proof sqrt2_pos. pose proof PI_RGT_0.
    assert (0 < sqrt (2 * PI)) by (apply sqrt_lt_R0; lra). lra.
Qed.
Lemma lnorm_pdf_pos m s x : 0 < s -> 0 < x -> 0 < lnorm_pdf m s x.
Proof.
  intros. unfold lnorm_pdf. pose proof PI_RGT_0. assert (0 < sqrt (2 * PI)) by (apply sqrt_lt_R0; lra).
  apply Rmult_lt_0_compat; [|apply exp_pos]. apply Rmult_lt_0_compat; apply Rdiv_lt_0_compat; try lra.
  now apply Rmult_lt_0_compat.
Qed.
