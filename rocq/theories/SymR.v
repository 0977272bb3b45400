(** Symmetry and location-scale identities of the documented formulas. *)
From Coq Require Import Reals Lra Psatz.
From Coquelicot Require Import Coquelicot.
From Verif Require Import Spec RealElem Analysis Erf NormR PowInt GammaFn BetaFn SpecSF FamR.
Local Open Scope R_scope.

Lemma norm_pdf_sym mu s d : norm_pdf mu s (mu - d) = norm_pdf mu s (mu + d).
Proof. unfold norm_pdf. replace ((mu - d - mu) ^ 2) with ((mu + d - mu) ^ 2) by ring. auto. Qed.
Lemma norm_cdf_sym mu s d : 0 < s -> norm_cdf mu s (mu - d) = 1 - norm_cdf mu s (mu + d).
Proof.
  intros. unfold norm_cdf. replace ((mu - d - mu)) with (- (mu + d - mu)) by ring.
  match goal with |- context [erfR (- ?z / ?w)] => replace (- z / w) with (- (z / w)) by (unfold Rdiv; ring) end.
  rewrite erfR_odd. lra.
Qed.
Lemma laplace_pdf_sym mu s d : laplace_pdf mu s (mu - d) = laplace_pdf mu s (mu + d).
Proof.
  unfold laplace_pdf. replace (mu - d - mu) with (- (mu + d - mu)) by ring. now rewrite Rabs_Ropp.
Qed.
Lemma laplace_cdf_sym mu s d : laplace_cdf mu s (mu - d) = 1 - laplace_cdf mu s (mu + d).
Proof.
  unfold laplace_cdf. replace (mu - d - mu) with (- (mu + d - mu)) by ring.
  rewrite Rabs_Ropp, Rsign_opp. lra.
Qed.
Lemma laplace_qf_sym mu s p : laplace_qf mu s (1 - p) = 2 * mu - laplace_qf mu s p.
Proof.
  unfold laplace_qf. replace (1 - p - 1 / 2) with (- (p - 1 / 2)) by field.
  rewrite Rabs_Ropp, Rsign_opp. ring.
Qed.
Lemma logis_pdf_sym mu s d : 0 < s -> logis_pdf mu s (mu - d) = logis_pdf mu s (mu + d).
Proof.
  intros. unfold logis_pdf. replace (- ((mu - d - mu) / s)) with (d / s) by (field; lra).
  replace (- ((mu + d - mu) / s)) with (- (d / s)) by (field; lra). rewrite exp_Ropp.
  pose proof (exp_pos (d / s)). field. repeat split; lra.
Qed.
Lemma logis_cdf_sym mu s d : 0 < s -> logis_cdf mu s (mu - d) = 1 - logis_cdf mu s (mu + d).
Proof.
  intros. unfold logis_cdf. replace (- ((mu - d - mu) / s)) with (d / s) by (field; lra).
  replace (- ((mu + d - mu) / s)) with (- (d / s)) by (field; lra). rewrite exp_Ropp.
  pose proof (exp_pos (d / s)). field. repeat split; lra.
Qed.
Lemma logis_qf_sym mu s p : 0 < p < 1 -> logis_qf mu s (1 - p) = 2 * mu - logis_qf mu s p.
Proof.
  intros. unfold logis_qf. replace ((1 - p) / (1 - (1 - p))) with (/ (p / (1 - p))) by (field; lra).
  rewrite ln_Rinv by (apply Rdiv_lt_0_compat; lra). ring.
Qed.
Lemma cauchy_pdf_sym mu s d : 0 < s -> cauchy_pdf mu s (mu - d) = cauchy_pdf mu s (mu + d).
Proof.
  intros. unfold cauchy_pdf. replace (((mu - d - mu) / s) ^ 2) with (((mu + d - mu) / s) ^ 2) by (field; lra). auto.
Qed.
Lemma cauchy_cdf_sym mu s d : 0 < s -> cauchy_cdf mu s (mu - d) = 1 - cauchy_cdf mu s (mu + d).
Proof.
  intros. unfold cauchy_cdf. replace ((mu - d - mu) / s) with (- ((mu + d - mu) / s)) by (field; lra).
  rewrite atan_opp. lra.
Qed.
Lemma cauchy_qf_sym mu s p : cauchy_qf mu s (1 - p) = 2 * mu - cauchy_qf mu s p.
Proof.
  unfold cauchy_qf. replace (PI * (1 - p - 1 / 2)) with (- (PI * (p - 1 / 2))) by field.
  rewrite tan_neg. ring.
Qed.

(** location-scale *)
Lemma norm_pdf_ls mu s x : 0 < s -> norm_pdf mu s x = norm_pdf 0 1 ((x - mu) / s) / s.
Proof.
  intros. unfold norm_pdf. assert (0 < sqrt (2 * PI)) by (apply sqrt_lt_R0; pose proof PI_RGT_0; lra).
  replace (((x - mu) / s - 0) ^ 2 / (2 * 1 ^ 2)) with ((x - mu) ^ 2 / (2 * s ^ 2)) by (field; lra).
  field. lra.
Qed.
Lemma norm_cdf_ls mu s x : 0 < s -> norm_cdf mu s x = norm_cdf 0 1 ((x - mu) / s).
Proof.
  intros. assert (0 < sqrt 2) by (apply sqrt_lt_R0; lra). unfold norm_cdf. do 3 f_equal. field. lra.
Qed.
Lemma laplace_pdf_ls mu s x : 0 < s -> laplace_pdf mu s x = laplace_pdf 0 1 ((x - mu) / s) / s.
Proof.
  intros. unfold laplace_pdf. rewrite Rminus_0_r. unfold Rdiv at 6. rewrite Rabs_mult.
  rewrite (Rabs_right (/ s)) by (left; now apply Rinv_0_lt_compat).
  replace (- (Rabs (x - mu) * / s) / 1) with (- Rabs (x - mu) / s) by (field; lra). field. lra.
Qed.
Lemma laplace_cdf_ls mu s x : 0 < s -> laplace_cdf mu s x = laplace_cdf 0 1 ((x - mu) / s).
Proof.
  intros Hs. assert (0 < / s) by now apply Rinv_0_lt_compat.
  unfold laplace_cdf. rewrite Rminus_0_r.
  replace (Rsign ((x - mu) / s)) with (Rsign (x - mu)).
  - unfold Rdiv at 7. rewrite Rabs_mult, (Rabs_right (/ s)) by lra.
    replace (- (Rabs (x - mu) * / s) / 1) with (- Rabs (x - mu) / s) by (field; lra). reflexivity.
  - destruct (Rtotal_order (x - mu) 0) as [C|[C|C]].
    + rewrite !Rsign_neg; auto. unfold Rdiv. nra.
    + rewrite C. f_equal. field. lra.
    + rewrite !Rsign_pos; auto. unfold Rdiv. nra.
Qed.
Lemma laplace_qf_ls mu s p : laplace_qf mu s p = mu + s * laplace_qf 0 1 p.
Proof. unfold laplace_qf. ring. Qed.
Lemma logis_pdf_ls mu s x : 0 < s -> logis_pdf mu s x = logis_pdf 0 1 ((x - mu) / s) / s.
Proof.
  intros. unfold logis_pdf. replace (((x - mu) / s - 0) / 1) with ((x - mu) / s) by (field; lra).
  pose proof (exp_pos (- ((x - mu) / s))). field. split; lra.
Qed.
Lemma logis_cdf_ls mu s x : 0 < s -> logis_cdf mu s x = logis_cdf 0 1 ((x - mu) / s).
Proof. intros. unfold logis_cdf. do 4 f_equal. field. lra. Qed.
Lemma logis_qf_ls mu s p : logis_qf mu s p = mu + s * logis_qf 0 1 p.
Proof. unfold logis_qf. ring. Qed.
Lemma cauchy_pdf_ls mu s x : 0 < s -> cauchy_pdf mu s x = cauchy_pdf 0 1 ((x - mu) / s) / s.
Proof.
  intros. unfold cauchy_pdf. replace (((x - mu) / s - 0) / 1) with ((x - mu) / s) by (field; lra).
  pose proof PI_RGT_0. set (z := (x - mu) / s). field. repeat split; try lra. nra.
Qed.
Lemma cauchy_cdf_ls mu s x : 0 < s -> cauchy_cdf mu s x = cauchy_cdf 0 1 ((x - mu) / s).
Proof. intros. unfold cauchy_cdf. do 3 f_equal. field. lra. Qed.
Lemma cauchy_qf_ls mu s p : cauchy_qf mu s p = mu + s * cauchy_qf 0 1 p.
Proof. unfold cauchy_qf. ring. Qed.
Lemma t_pdf_sym n x : t_pdf n (- x) = t_pdf n x.
Proof. unfold t_pdf. replace ((- x) ^ 2) with (x ^ 2) by ring. auto. Qed.
Lemma t2_qf_sym p : (2 * (1 - p) - 1) / sqrt (2 * (1 - p) * (1 - (1 - p))) = - ((2 * p - 1) / sqrt (2 * p * (1 - p))).
Proof.
  replace (2 * (1 - p) * (1 - (1 - p))) with (2 * p * (1 - p)) by ring. unfold Rdiv. ring.
Qed.
(** relations between families *)
Lemma exp_weibull_pdf r x : 0 < r -> 0 < x -> weibull_pdf 1 (1 / r) x = exp_pdf r x.
Proof.
  intros. unfold weibull_pdf, exp_pdf. replace (x / (1 / r)) with (r * x) by (field; lra).
  replace (1 - 1) with 0 by ring. rewrite Rpower_O, Rpower_1 by nra.
  replace (- (r * x)) with (- r * x) by ring. field. lra.
Qed.
Lemma exp_weibull_cdf r x : 0 < r -> 0 < x -> weibull_cdf 1 (1 / r) x = exp_cdf r x.
Proof.
  intros. unfold weibull_cdf, exp_cdf. replace (x / (1 / r)) with (r * x) by (field; lra).
  rewrite Rpower_1 by nra. do 2 f_equal. ring.
Qed.
Lemma exp_weibull_qf r p : 0 < r -> 0 < p < 1 -> weibull_qf 1 (1 / r) p = exp_qf r p.
Proof.
  intros. unfold weibull_qf, exp_qf. replace (1 / 1) with 1 by field.
  rewrite Rpower_1; [field; lra|]. assert (ln (1 - p) < ln 1) by (apply ln_increasing; lra). rewrite ln_1 in *. lra.
Qed.
Lemma lnorm_norm_pdf mu s x : 0 < s -> 0 < x -> lnorm_pdf mu s x = norm_pdf mu s (ln x) / x.
Proof. intros. unfold lnorm_pdf, norm_pdf. unfold Rdiv. ring. Qed.
Lemma invgamma_gamma_pdf a b x : 0 < a -> 0 < b -> 0 < x ->
  invgamma_pdf a b x = gamma_pdf a (1 / b) (1 / x) / x ^ 2.
Proof.
  intros. unfold invgamma_pdf, gamma_pdf. pose proof (Gam_pos a H).
  replace (- (1 / x) / (1 / b)) with (- b / x) by (field; lra).
  replace (Rpower (1 / b) a) with (/ Rpower b a).
  2:{ rewrite <- Rpower_inv by auto. f_equal. field. lra. }
  replace (Rpower (1 / x) (a - 1)) with (x ^ 2 * Rpower x (- a - 1)).
  - assert (Rpower b a <> 0) by apply Rpower_nz. field. repeat split; lra.
  - replace (1 / x) with (/ x) by (field; lra). rewrite Rpower_inv, <- Rpower_Ropp by auto.
    rewrite <- (Rpower_pow 2 x) by auto. rewrite <- Rpower_plus. f_equal. cbn. ring.
Qed.
Lemma invgamma_gamma_cdf a b x : 0 < b -> 0 < x -> invgamma_cdf a b x = 1 - gamma_cdf a (1 / b) (1 / x).
Proof. intros. unfold invgamma_cdf, gamma_cdf. do 2 f_equal. field. lra. Qed.
Lemma f_beta_pdf d1 d2 x : 0 < d1 -> 0 < d2 -> 0 < x ->
  f_pdf d1 d2 x = beta_pdf (d1 / 2) (d2 / 2) (d1 * x / (d2 + d1 * x)) * (d1 * d2 / (d2 + d1 * x) ^ 2).
Proof.
  intros. assert (0 < d1 * x) by nra. assert (0 < d1 / d2) by (apply Rdiv_lt_0_compat; lra).
  assert (HB := Beta_pos (d1 / 2) (d2 / 2) ltac:(lra) ltac:(lra)).
  unfold f_pdf, beta_pdf.
  replace (d1 * d2 / (d2 + d1 * x) ^ 2) with (d1 / d2 / (1 + d1 / d2 * x) ^ 2) by (field; split; nra).
  set (r := d1 / d2) in *.
  replace (d1 * x / (d2 + d1 * x)) with (r * x / (1 + r * x)) by (unfold r; field; split; nra).
  assert (0 < r * x) by nra.
  replace (1 - r * x / (1 + r * x)) with (/ (1 + r * x)) by (field; lra).
  rewrite Rpower_div, Rpower_inv, !Rpower_m1 by lra. rewrite <- Rpower_mult_distr by lra.
  replace (- ((d1 + d2) / 2)) with (- (d1 / 2 + d2 / 2)) by field.
  rewrite Rpower_Ropp, Rpower_plus.
  pose proof (Rpower_nz (1 + r * x) (d1 / 2)). pose proof (Rpower_nz (1 + r * x) (d2 / 2)).
  field. repeat split; auto; lra.
Qed.
