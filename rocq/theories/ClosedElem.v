(** Values of the elementary continuous functions at finite arguments:
    the model equals the documented formula. *)
From Coq Require Import Reals ZArith QArith Bool Lra Psatz.
From Verif Require Import Num Sanity ER ERTac Prob Dens Quant Spec SpecER.
Local Open Scope R_scope.

Lemma expval (l v : R) (lf : bool) : Rtrigo_def.exp l = v ->
  (if (if lf then false else true) then Fin (Rtrigo_def.exp l) else Fin l) = val lf v.
Proof.
  intros <-. destruct lf; unfold val; auto.
  rewrite elog_F by apply exp_pos. now rewrite ln_exp.
Qed.

Lemma Rpower_exp_ln x y : 0 < x -> Rpower x y = Rtrigo_def.exp (y * ln x).
Proof. reflexivity. Qed.

Lemma exp_minus a b : Rtrigo_def.exp (a - b) = Rtrigo_def.exp a / Rtrigo_def.exp b.
Proof. unfold Rminus. rewrite exp_plus, exp_Ropp. reflexivity. Qed.

Lemma exp_half_ln a : 0 < a -> Rtrigo_def.exp (1 / 2 * ln a) = R_sqrt.sqrt a.
Proof.
  intros. replace (1 / 2 * ln a) with (ln (R_sqrt.sqrt a)).
  - apply exp_ln. now apply sqrt_lt_R0.
  - apply (Rmult_eq_reg_l 2); [|lra].
    replace (2 * (1 / 2 * ln a)) with (ln a) by lra.
    rewrite <- (sqrt_sqrt a) at 2 by lra. rewrite ln_mult by (now apply sqrt_lt_R0). lra.
Qed.

(** tanh in terms of the logistic function *)
Lemma tanh_logistic z : 1 / 2 * (1 + Rtrigo_def.tanh z) = 1 / (1 + Rtrigo_def.exp (- (2 * z))).
Proof.
  unfold Rtrigo_def.tanh, Rtrigo_def.sinh, Rtrigo_def.cosh.
  replace (- (2 * z)) with (- z + - z) by lra. rewrite exp_plus.
  pose proof (exp_pos z). pose proof (exp_pos (- z)).
  assert (Rtrigo_def.exp z * Rtrigo_def.exp (- z) = 1).
  { rewrite <- exp_plus. replace (z + - z) with 0 by lra. apply exp_0. }
  set (a := Rtrigo_def.exp z) in *. set (b := Rtrigo_def.exp (- z)) in *.
  field_simplify; try (repeat split; nra).
  assert (a = / b) by (field_simplify_eq; nra). rewrite H2. field. split; nra.
Qed.

Section S.
Variable S : SF.
Notation NS := (ER_Num S).
Implicit Types x mu sigma p : R.

Lemma sgn_ER z : IZR (sgn (N:=NS) (Fin z)) = Rsign z.
Proof.
  unfold sgn, Rsign. un_cls. er_arith. unfold Rltb.
  destruct (Rlt_dec 0 z); auto. destruct (Rlt_dec z 0); auto.
Qed.

(** ** Exponential *)
Lemma dexp_val x rate lf : 0 < rate -> 0 <= x ->
  dexp (N:=NS) (Fin x) (Fin rate) lf = val lf (exp_pdf rate x).
Proof.
  intros. unfold dexp, dexp_log_compute. un_cls. er_arith. rdecide.
  apply expval. unfold exp_pdf. rewrite exp_minus, exp_ln by auto.
  unfold Rdiv. rewrite <- exp_Ropp. do 2 f_equal. lra.
Qed.
Lemma pexp_val x rate lf : 0 <= rate -> 0 < x ->
  pexp (N:=NS) (Fin x) (Fin rate) lf = val lf (exp_cdf rate x).
Proof.
  intros. unfold pexp, pexp_compute. un_cls. er_arith. rdecide.
  unfold exp_cdf, val. replace (- (Rtrigo_def.exp (- rate * x) - 1))
    with (1 - Rtrigo_def.exp (- rate * x)) by lra. reflexivity.
Qed.
Lemma pexp_low x rate lf : 0 <= rate -> x <= 0 ->
  pexp (N:=NS) (Fin x) (Fin rate) lf = val lf 0.
Proof. intros. unfold pexp, pexp_compute. un_cls. er_arith. rdecide. reflexivity. Qed.
Lemma qexp_val p rate : 0 < rate -> 0 < p < 1 ->
  qexp (N:=NS) (Fin p) (Fin rate) = Fin (exp_qf rate p).
Proof. intros. unfold qexp, qexp_compute. un_cls. er_arith. rdecide. reflexivity. Qed.

(** ** Uniform *)
Lemma dunif_val x a b lf : a < b -> a <= x <= b ->
  dunif (N:=NS) (Fin x) (Fin a) (Fin b) lf = val lf (unif_pdf a b).
Proof.
  intros. unfold dunif, dunif_log_check. un_cls. er_arith. rdecide.
  unfold val, unif_pdf. destruct lf; auto.
  rewrite elog_F by (apply Rdiv_lt_0_compat; lra).
  unfold Rdiv. rewrite Rmult_1_l. now rewrite ln_Rinv by lra.
Qed.
Lemma dunif_out x a b lf : a < b -> x < a \/ b < x ->
  dunif (N:=NS) (Fin x) (Fin a) (Fin b) lf = val lf 0.
Proof.
  intros Hab [H|H]; unfold dunif; un_cls; er_arith; rdecide;
  destruct lf; unfold val; rewrite ?elog_0; auto.
Qed.
Lemma punif_val x a b lf : a < b -> a < x < b ->
  punif (N:=NS) (Fin x) (Fin a) (Fin b) lf = val lf (unif_cdf a b x).
Proof.
  intros. unfold punif, punif_compute. un_cls. er_arith. rdecide. reflexivity.
Qed.
Lemma punif_low x a b lf : a < b -> x <= a ->
  punif (N:=NS) (Fin x) (Fin a) (Fin b) lf = val lf 0.
Proof. intros. unfold punif, punif_compute. un_cls. er_arith. rdecide. reflexivity. Qed.
Lemma punif_high x a b lf : a < b -> b <= x ->
  punif (N:=NS) (Fin x) (Fin a) (Fin b) lf = val lf 1.
Proof. intros. unfold punif, punif_compute. un_cls. er_arith. rdecide. reflexivity. Qed.
Lemma qunif_val p a b : a < b -> 0 <= p <= 1 ->
  qunif (N:=NS) (Fin p) (Fin a) (Fin b) = Fin (unif_qf a b p).
Proof.
  intros. unfold qunif, qunif_compute. un_cls. er_arith. rdec; unfold unif_qf; auto;
  f_equal; subst; lra.
Qed.

(** ** Laplace *)
Lemma dlaplace_val x mu sigma lf : 0 < sigma ->
  dlaplace (N:=NS) (Fin x) (Fin mu) (Fin sigma) lf = val lf (laplace_pdf mu sigma x).
Proof.
  intros. unfold dlaplace, dlaplace_log_compute. un_cls. er_arith. rdecide.
  apply expval. unfold laplace_pdf. rewrite exp_minus, exp_Ropp, exp_ln by lra.
  unfold Rdiv. rewrite <- exp_Ropp. rewrite Rmult_1_l. f_equal. f_equal. lra.
Qed.
Lemma plaplace_val x mu sigma lf : 0 < sigma ->
  plaplace (N:=NS) (Fin x) (Fin mu) (Fin sigma) lf = val lf (laplace_cdf mu sigma x).
Proof.
  intros. unfold plaplace, plaplace_compute.
  cbv beta iota delta [ofZ ER_Num]. unfold sub at 2; cbv beta iota delta [ER_Num].
  rewrite esub_F, sgn_ER. un_cls. er_arith. rdecide. reflexivity.
Qed.
Lemma qlaplace_val p mu sigma : 0 < sigma -> 0 < p < 1 ->
  qlaplace (N:=NS) (Fin p) (Fin mu) (Fin sigma) = Fin (laplace_qf mu sigma p).
Proof.
  intros. unfold qlaplace, qlaplace_compute.
  cbv beta iota delta [ofZ lit elit Qnum Qden sub ER_Num].
  rewrite esub_F, sgn_ER. un_cls. er_arith. rdecide.
  assert (0 < 1 - 2 * Rabs (p - 1 / 2)) by (unfold Rabs; destruct Rcase_abs; lra).
  er_arith. reflexivity.
Qed.

(** ** Logistic *)
Lemma dlogis_val x mu sigma lf : 0 < sigma ->
  dlogis (N:=NS) (Fin x) (Fin mu) (Fin sigma) lf = val lf (logis_pdf mu sigma x).
Proof.
  intros. unfold dlogis, dlogis_log_compute. un_cls. er_arith.
  pose proof (exp_pos (- ((x - mu) / sigma))). er_arith. rdecide.
  apply expval. unfold logis_pdf. rewrite !exp_minus, exp_ln by auto.
  replace (2 * ln (1 + Rtrigo_def.exp (- ((x - mu) / sigma))))
    with (ln (1 + Rtrigo_def.exp (- ((x - mu) / sigma)))
          + ln (1 + Rtrigo_def.exp (- ((x - mu) / sigma)))) by lra.
  rewrite exp_plus, exp_ln by lra. field. lra.
Qed.
Lemma plogis_val x mu sigma lf : 0 < sigma ->
  plogis (N:=NS) (Fin x) (Fin mu) (Fin sigma) lf = val lf (logis_cdf mu sigma x).
Proof.
  intros. unfold plogis, plogis_compute. un_cls. er_arith. rdecide.
  rewrite tanh_logistic. unfold logis_cdf, val.
  replace (2 * ((x - mu) / (2 * sigma))) with ((x - mu) / sigma) by (field; lra).
  reflexivity.
Qed.
Lemma qlogis_val p mu sigma : 0 < sigma -> 0 < p < 1 ->
  qlogis (N:=NS) (Fin p) (Fin mu) (Fin sigma) = Fin (logis_qf mu sigma p).
Proof.
  intros. unfold qlogis, qlogis_compute.
  assert (0 < p / (1 - p)) by (apply Rdiv_lt_0_compat; lra).
  un_cls. er_arith. rdecide. reflexivity.
Qed.

(** ** Cauchy *)
Lemma cauchy_den z sigma : 0 < sigma -> 0 < sigma * Rtrigo1.PI * (1 + z * z).
Proof.
  intros. pose proof PI_RGT_0. apply Rmult_lt_0_compat; [|nra]. now apply Rmult_lt_0_compat.
Qed.
Lemma dcauchy_val x mu sigma lf : 0 < sigma ->
  dcauchy (N:=NS) (Fin x) (Fin mu) (Fin sigma) lf = val lf (cauchy_pdf mu sigma x).
Proof.
  intros. unfold dcauchy, dcauchy_compute. un_cls. er_arith.
  pose proof (cauchy_den ((x - mu) / sigma) sigma H).
  rewrite ediv_F by lra. rdecide. unfold val, cauchy_pdf.
  replace (Rtrigo1.PI * sigma * (1 + ((x - mu) / sigma) ^ 2))
    with (sigma * Rtrigo1.PI * (1 + (x - mu) / sigma * ((x - mu) / sigma))) by ring.
  reflexivity.
Qed.
Lemma pcauchy_val x mu sigma lf : 0 < sigma ->
  pcauchy (N:=NS) (Fin x) (Fin mu) (Fin sigma) lf = val lf (cauchy_cdf mu sigma x).
Proof.
  intros. unfold pcauchy, pcauchy_compute. pose proof PI_RGT_0.
  un_cls. er_arith. rdecide. unfold val, cauchy_cdf.
  replace (1 / Rtrigo1.PI * Ratan.atan ((x - mu) / sigma))
    with (Ratan.atan ((x - mu) / sigma) / Rtrigo1.PI) by (field; lra).
  reflexivity.
Qed.
Lemma qcauchy_val p mu sigma : 0 < sigma -> 0 < p < 1 ->
  qcauchy (N:=NS) (Fin p) (Fin mu) (Fin sigma) = Fin (cauchy_qf mu sigma p).
Proof.
  intros. unfold qcauchy, qcauchy_compute. un_cls. er_arith. rdecide. reflexivity.
Qed.

(** ** Weibull *)
Notation epsS := (sf_eps S).
Lemma dweibull_val x k th lf : 0 < epsS -> epsS <= k -> epsS <= th -> 0 < x ->
  dweibull (N:=NS) (Fin x) (Fin k) (Fin th) lf = val lf (weibull_pdf k th x).
Proof.
  intros. unfold dweibull, dweibull_log_compute.
  assert (0 < x / th) by (apply Rdiv_lt_0_compat; lra).
  assert (0 < k / th) by (apply Rdiv_lt_0_compat; lra).
  un_cls. er_arith. rdecide. apply expval. unfold weibull_pdf.
  rewrite exp_minus, exp_plus, exp_ln by auto. unfold Rdiv at 1. rewrite <- exp_Ropp.
  reflexivity.
Qed.
Lemma pweibull_val x k th lf : 0 < epsS -> epsS <= k -> epsS <= th -> epsS <= x ->
  pweibull (N:=NS) (Fin x) (Fin k) (Fin th) lf = val lf (weibull_cdf k th x).
Proof.
  intros. unfold pweibull, pweibull_compute.
  assert (0 < x / th) by (apply Rdiv_lt_0_compat; lra).
  un_cls. er_arith. rdecide. unfold val, weibull_cdf.
  replace (- (Rtrigo_def.exp (- Rpower (x / th) k) - 1))
    with (1 - Rtrigo_def.exp (- Rpower (x / th) k)) by lra.
  reflexivity.
Qed.
Lemma pweibull_low x k th lf : 0 < epsS -> epsS <= k -> epsS <= th -> x < epsS ->
  pweibull (N:=NS) (Fin x) (Fin k) (Fin th) lf = val lf 0.
Proof.
  intros. unfold pweibull. un_cls. er_arith. rdecide.
  destruct lf; unfold val; rewrite ?elog_0; auto.
Qed.
Lemma qweibull_val p k th : 0 < epsS -> epsS <= k -> epsS <= th -> 0 < p < 1 ->
  qweibull (N:=NS) (Fin p) (Fin k) (Fin th) = Fin (weibull_qf k th p).
Proof.
  intros. unfold qweibull, qweibull_compute. un_cls. er_arith.
  assert (0 < - ln (1 + - p)).
  { assert (ln (1 + - p) < ln 1) by (apply ln_increasing; lra). rewrite ln_1 in *. lra. }
  er_arith. rdecide. unfold weibull_qf. reflexivity.
Qed.

(** ** Normal and log-normal densities *)
Lemma dnorm_val x mu sigma lf : 0 < sigma ->
  dnorm (N:=NS) (Fin x) (Fin mu) (Fin sigma) lf = val lf (norm_pdf mu sigma x).
Proof.
  intros. unfold dnorm, dnorm_log_compute. un_cls. er_arith. rdecide.
  apply expval. unfold norm_pdf. pose proof PI_RGT_0.
  rewrite !exp_minus, exp_ln by auto.
  replace (- (1 / 2) * ln (2 * Rtrigo1.PI)) with (- (1 / 2 * ln (2 * Rtrigo1.PI))) by lra.
  rewrite exp_Ropp, exp_half_ln by lra.
  unfold Rdiv at 1. rewrite <- exp_Ropp.
  replace ((x - mu) / sigma * ((x - mu) / sigma) / 2) with ((x - mu) ^ 2 / (2 * sigma ^ 2))
    by (field; lra).
  assert (0 < R_sqrt.sqrt (2 * Rtrigo1.PI)) by (apply sqrt_lt_R0; lra).
  field. split; lra.
Qed.
Lemma norm_pdf_pos mu sigma x : 0 < sigma -> 0 < norm_pdf mu sigma x.
Proof.
  intros. unfold norm_pdf. pose proof PI_RGT_0.
  apply Rmult_lt_0_compat; [|apply exp_pos]. apply Rdiv_lt_0_compat; [lra|].
  apply Rmult_lt_0_compat; auto. apply sqrt_lt_R0; lra.
Qed.
Lemma dlnorm_val x mu sigma lf : 0 < sigma -> 0 < x ->
  dlnorm (N:=NS) (Fin x) (Fin mu) (Fin sigma) lf = val lf (lnorm_pdf mu sigma x).
Proof.
  intros. unfold dlnorm, dlnorm_log_check.
  change (log (Fin x)) with (elog (Fin x)). rewrite elog_F by auto.
  rewrite !dnorm_val by auto. un_cls. er_arith. rdecide.
  pose proof (norm_pdf_pos mu sigma (ln x) H).
  unfold val. assert (lnorm_pdf mu sigma x = norm_pdf mu sigma (ln x) / x).
  { unfold lnorm_pdf, norm_pdf. pose proof PI_RGT_0.
    assert (0 < R_sqrt.sqrt (2 * Rtrigo1.PI)) by (apply sqrt_lt_R0; lra).
    field. repeat split; lra. }
  rewrite H2. destruct lf.
  - rewrite elog_F by auto. rewrite elog_F by (apply Rdiv_lt_0_compat; auto).
    rewrite esub_F. unfold Rdiv. rewrite ln_mult by (auto using Rinv_0_lt_compat).
    rewrite ln_Rinv by auto. reflexivity.
  - er_arith. reflexivity.
Qed.

(** ** Inverse Gaussian density *)
Lemma dinvgauss_val x mu lambda lf : 0 < mu -> 0 < lambda -> 0 < x ->
  dinvgauss (N:=NS) (Fin x) (Fin mu) (Fin lambda) lf = val lf (invgauss_pdf mu lambda x).
Proof.
  intros. unfold dinvgauss, dinvgauss_log_compute, dinvgauss_term_1, dinvgauss_term_2.
  assert (0 < 2 * mu * mu * x) by (repeat apply Rmult_lt_0_compat; lra).
  un_cls. er_arith. rdecide. apply expval. unfold invgauss_pdf.
  rewrite exp_plus. pose proof PI_RGT_0.
  assert (0 < x ^ 3) by (apply pow_lt; lra).
  assert (0 < 2 * Rtrigo1.PI * x ^ 3) by (apply Rmult_lt_0_compat; lra).
  f_equal.
  - rewrite <- exp_half_ln by (apply Rdiv_lt_0_compat; auto). f_equal.
    assert (ln (x ^ 3) = 3 * ln x) as Hx3.
    { replace (x ^ 3) with (x * (x * x)) by ring.
      rewrite !ln_mult by (auto; apply Rmult_lt_0_compat; auto). lra. }
    assert (ln (lambda / (2 * Rtrigo1.PI * x ^ 3))
            = ln lambda - ln (2 * Rtrigo1.PI) - ln (x ^ 3)) as ->.
    { unfold Rdiv. rewrite ln_mult by (auto using Rinv_0_lt_compat).
      rewrite ln_Rinv by auto. rewrite (ln_mult (2 * Rtrigo1.PI)) by lra. lra. }
    lra.
  - f_equal. field. lra.
Qed.
End S.
