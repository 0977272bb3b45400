(** Symmetry, location-scale equivariance, and identities between families. *)
From Coq Require Import Reals ZArith QArith Bool Lra Lia.
From Coquelicot Require Import Coquelicot.
From Verif Require Import Num Sanity ER ERTac Prob Dens Quant Spec SpecER ClosedElem RealElem
  LogForm Support Elem Norm GammaFn BetaFn NormR SpecSF FamR FamG FamB SymR.
Local Open Scope R_scope.

Section S.
Variable S : SF.
Notation NS := (ER_Num S).
Notation eps := (sf_eps S).

(** ** Symmetry *)
Lemma dnorm_sym mu s d lf : 0 < s ->
  dnorm (N:=NS) (Fin (mu - d)) (Fin mu) (Fin s) lf = dnorm (N:=NS) (Fin (mu + d)) (Fin mu) (Fin s) lf.
Proof. intros. rewrite !dnorm_val by auto. now rewrite norm_pdf_sym. Qed.
Lemma pnorm_sym mu s d : erf_spec S -> 0 < s ->
  pnorm (N:=NS) (Fin (mu - d)) (Fin mu) (Fin s) false
  = esub (Fin 1) (pnorm (N:=NS) (Fin (mu + d)) (Fin mu) (Fin s) false).
Proof. intros. rewrite !pnorm_val by auto. unfold val. now rewrite norm_cdf_sym. Qed.
Lemma dlaplace_sym mu s d lf : 0 < s ->
  dlaplace (N:=NS) (Fin (mu - d)) (Fin mu) (Fin s) lf = dlaplace (N:=NS) (Fin (mu + d)) (Fin mu) (Fin s) lf.
Proof. intros. rewrite !dlaplace_val by auto. now rewrite laplace_pdf_sym. Qed.
Lemma plaplace_sym mu s d : 0 < s ->
  plaplace (N:=NS) (Fin (mu - d)) (Fin mu) (Fin s) false
  = esub (Fin 1) (plaplace (N:=NS) (Fin (mu + d)) (Fin mu) (Fin s) false).
Proof. intros. rewrite !plaplace_val by auto. unfold val. now rewrite laplace_cdf_sym. Qed.
Lemma qlaplace_sym mu s p : 0 < s -> 0 < p < 1 ->
  qlaplace (N:=NS) (Fin (1 - p)) (Fin mu) (Fin s)
  = esub (Fin (2 * mu)) (qlaplace (N:=NS) (Fin p) (Fin mu) (Fin s)).
Proof. intros. rewrite !qlaplace_val by (auto; lra). now rewrite laplace_qf_sym. Qed.
Lemma dlogis_sym mu s d lf : 0 < s ->
  dlogis (N:=NS) (Fin (mu - d)) (Fin mu) (Fin s) lf = dlogis (N:=NS) (Fin (mu + d)) (Fin mu) (Fin s) lf.
Proof. intros. rewrite !dlogis_val by auto. now rewrite logis_pdf_sym. Qed.
Lemma plogis_sym mu s d : 0 < s ->
  plogis (N:=NS) (Fin (mu - d)) (Fin mu) (Fin s) false
  = esub (Fin 1) (plogis (N:=NS) (Fin (mu + d)) (Fin mu) (Fin s) false).
Proof. intros. rewrite !plogis_val by auto. unfold val. now rewrite logis_cdf_sym. Qed.
Lemma qlogis_sym mu s p : 0 < s -> 0 < p < 1 ->
  qlogis (N:=NS) (Fin (1 - p)) (Fin mu) (Fin s)
  = esub (Fin (2 * mu)) (qlogis (N:=NS) (Fin p) (Fin mu) (Fin s)).
Proof. intros. rewrite !qlogis_val by (auto; lra). now rewrite logis_qf_sym. Qed.
Lemma dcauchy_sym mu s d lf : 0 < s ->
  dcauchy (N:=NS) (Fin (mu - d)) (Fin mu) (Fin s) lf = dcauchy (N:=NS) (Fin (mu + d)) (Fin mu) (Fin s) lf.
Proof. intros. rewrite !dcauchy_val by auto. now rewrite cauchy_pdf_sym. Qed.
Lemma pcauchy_sym mu s d : 0 < s ->
  pcauchy (N:=NS) (Fin (mu - d)) (Fin mu) (Fin s) false
  = esub (Fin 1) (pcauchy (N:=NS) (Fin (mu + d)) (Fin mu) (Fin s) false).
Proof. intros. rewrite !pcauchy_val by auto. unfold val. now rewrite cauchy_cdf_sym. Qed.
Lemma qcauchy_sym mu s p : 0 < s -> 0 < p < 1 ->
  qcauchy (N:=NS) (Fin (1 - p)) (Fin mu) (Fin s)
  = esub (Fin (2 * mu)) (qcauchy (N:=NS) (Fin p) (Fin mu) (Fin s)).
Proof. intros. rewrite !qcauchy_val by (auto; lra). now rewrite cauchy_qf_sym. Qed.
(** the t density is even whatever the gamma function, and whatever the dof *)
Lemma dt_sym x n lf : 0 < eps -> eps <= n ->
  dt (N:=NS) (Fin (- x)) (Fin n) lf = dt (N:=NS) (Fin x) (Fin n) lf.
Proof.
  intros He Hn. unfold dt, dt_log_compute, dt_log_mult_term, dt_log_cons_term. un_cls. er_arith.
  replace (- x / n * - x) with (x / n * x) by (field; lra). reflexivity.
Qed.
Lemma dt_inf_sym x lf : dt (N:=NS) (Fin (- x)) PInf lf = dt (N:=NS) (Fin x) PInf lf.
Proof.
  assert (E : forall y, dt (N:=NS) (Fin y) PInf lf = dnorm (N:=NS) (Fin y) (Fin 0) (Fin 1) lf) by reflexivity.
  rewrite !E. pose proof (dnorm_sym 0 1 x lf ltac:(lra)) as H. rewrite Rplus_0_l, Rminus_0_l in H. exact H.
Qed.
Lemma pt_sym x n : incbeta_spec S -> 0 < eps -> eps <= n ->
  pt (N:=NS) (Fin (- x)) (Fin n) false = esub (Fin 1) (pt (N:=NS) (Fin x) (Fin n) false).
Proof. intros. rewrite !pt_val by auto. unfold val. rewrite t_cdf_sym by lra. reflexivity. Qed.
Lemma pt_inf_sym x : erf_spec S ->
  pt (N:=NS) (Fin (- x)) PInf false = esub (Fin 1) (pt (N:=NS) (Fin x) PInf false).
Proof.
  intros HE. assert (E : forall y, pt (N:=NS) (Fin y) PInf false = pnorm (N:=NS) (Fin y) (Fin 0) (Fin 1) false) by reflexivity.
  rewrite !E. pose proof (pnorm_sym 0 1 x HE ltac:(lra)) as H. rewrite Rplus_0_l, Rminus_0_l in H. exact H.
Qed.
(** C24 *)
Lemma qt_1_sym p : 0 < eps <= 1 -> 0 < p < 1 ->
  qt (N:=NS) (Fin (1 - p)) (Fin 1) = eneg (qt (N:=NS) (Fin p) (Fin 1)).
Proof.
  intros. rewrite !qt_1_val by (auto; lra). rewrite cauchy_qf_sym. cbn. f_equal. ring.
Qed.
Lemma qt_2_sym p : 0 < eps <= 1 -> 0 < p < 1 ->
  qt (N:=NS) (Fin (1 - p)) (Fin 2) = eneg (qt (N:=NS) (Fin p) (Fin 2)).
Proof. intros. rewrite !qt_2_val by (auto; lra). unfold t2_qf. now rewrite t2_qf_sym. Qed.
Lemma qt_inf_norm p : qt (N:=NS) p PInf = qnorm (N:=NS) p (Fin 0) (Fin 1).
Proof.
  destruct p; unfold qt, qnorm; un_cls; er_red; er_arith; rdec; reflexivity.
Qed.
Lemma qt_inf_sym p : erf_inv_spec S -> 0 < p < 1 ->
  qt (N:=NS) (Fin (1 - p)) PInf = eneg (qt (N:=NS) (Fin p) PInf).
Proof.
  intros HE Hp. rewrite !qt_inf_norm. rewrite qnorm_sym by (auto; lra).
  destruct (qnorm_val S p 0 1) as (q & -> & _); auto; [lra|]. cbn. f_equal. ring.
Qed.

(** ** Location and scale *)
Lemma dnorm_ls x mu s : 0 < s -> dnorm (N:=NS) (Fin x) (Fin mu) (Fin s) false
  = ediv (dnorm (N:=NS) (Fin ((x - mu) / s)) (Fin 0) (Fin 1) false) (Fin s).
Proof. intros. rewrite !dnorm_val by (auto; lra). unfold val. rewrite ediv_F by lra. now rewrite norm_pdf_ls. Qed.
(** whatever function is used for erf *)
Lemma pnorm_ls x mu s lf : 0 < s -> pnorm (N:=NS) (Fin x) (Fin mu) (Fin s) lf
  = pnorm (N:=NS) (Fin ((x - mu) / s)) (Fin 0) (Fin 1) lf.
Proof.
  intros. unfold pnorm, pnorm_compute. un_cls. er_arith. rdecide. rewrite (ediv_F _ 1) by lra.
  replace (((x - mu) / s - 0) / 1) with ((x - mu) / s) by (field; lra). reflexivity.
Qed.
Lemma qnorm_ls p mu s : 0 < s -> 0 < p < 1 ->
  qnorm (N:=NS) (Fin p) (Fin mu) (Fin s)
  = eadd (Fin mu) (emul (Fin s) (qnorm (N:=NS) (Fin p) (Fin 0) (Fin 1))).
Proof.
  intros. assert (0 < R_sqrt.sqrt 2) by (apply sqrt_lt_R0; lra). assert (0 < R_sqrt.sqrt 2 * s) by nra.
  unfold qnorm, qnorm_compute. un_cls. er_arith. rdecide.
  destruct (sf_erf_inv S (Fin (2 * p - 1))); try reflexivity.
  - cbn. unfold scale_inf. repeat (destruct Rlt_dec; try lra). cbn. unfold scale_inf. repeat (destruct Rlt_dec; try lra). reflexivity.
  - cbn. unfold scale_inf. repeat (destruct Rlt_dec; try lra). cbn. unfold scale_inf. repeat (destruct Rlt_dec; try lra). reflexivity.
  - cbn. f_equal. ring.
Qed.
Lemma qnorm_ls_ends p mu s : 0 < s -> p = 0 \/ p = 1 ->
  qnorm (N:=NS) (Fin p) (Fin mu) (Fin s)
  = eadd (Fin mu) (emul (Fin s) (qnorm (N:=NS) (Fin p) (Fin 0) (Fin 1))).
Proof.
  intros Hs [-> | ->]; unfold qnorm; un_cls; er_arith; rdecide; rewrite ?emul_pos_M, ?emul_pos_P by auto; reflexivity.
Qed.
Lemma dlaplace_ls x mu s : 0 < s -> dlaplace (N:=NS) (Fin x) (Fin mu) (Fin s) false
  = ediv (dlaplace (N:=NS) (Fin ((x - mu) / s)) (Fin 0) (Fin 1) false) (Fin s).
Proof. intros. rewrite !dlaplace_val by (auto; lra). unfold val. rewrite ediv_F by lra. now rewrite laplace_pdf_ls. Qed.
Lemma plaplace_ls x mu s lf : 0 < s -> plaplace (N:=NS) (Fin x) (Fin mu) (Fin s) lf
  = plaplace (N:=NS) (Fin ((x - mu) / s)) (Fin 0) (Fin 1) lf.
Proof. intros. rewrite !plaplace_val by (auto; lra). now rewrite laplace_cdf_ls. Qed.
Lemma qlaplace_ls p mu s : 0 < s -> 0 <= p <= 1 ->
  qlaplace (N:=NS) (Fin p) (Fin mu) (Fin s)
  = eadd (Fin mu) (emul (Fin s) (qlaplace (N:=NS) (Fin p) (Fin 0) (Fin 1))).
Proof.
  intros Hs Hp. assert (C : p = 0 \/ p = 1 \/ 0 < p < 1) by lra. destruct C as [->|[->|C]].
  - unfold qlaplace. un_cls. er_arith. rdecide. now rewrite emul_pos_M.
  - unfold qlaplace. un_cls. er_arith. rdecide. now rewrite emul_pos_P.
  - rewrite !qlaplace_val by (auto; lra). now rewrite laplace_qf_ls.
Qed.
Lemma dlogis_ls x mu s : 0 < s -> dlogis (N:=NS) (Fin x) (Fin mu) (Fin s) false
  = ediv (dlogis (N:=NS) (Fin ((x - mu) / s)) (Fin 0) (Fin 1) false) (Fin s).
Proof. intros. rewrite !dlogis_val by (auto; lra). unfold val. rewrite ediv_F by lra. now rewrite logis_pdf_ls. Qed.
Lemma plogis_ls x mu s lf : 0 < s -> plogis (N:=NS) (Fin x) (Fin mu) (Fin s) lf
  = plogis (N:=NS) (Fin ((x - mu) / s)) (Fin 0) (Fin 1) lf.
Proof. intros. rewrite !plogis_val by (auto; lra). now rewrite logis_cdf_ls. Qed.
Lemma qlogis_ls p mu s : 0 < s -> 0 <= p <= 1 ->
  qlogis (N:=NS) (Fin p) (Fin mu) (Fin s)
  = eadd (Fin mu) (emul (Fin s) (qlogis (N:=NS) (Fin p) (Fin 0) (Fin 1))).
Proof.
  intros Hs Hp. assert (C : p = 0 \/ p = 1 \/ 0 < p < 1) by lra. destruct C as [->|[->|C]].
  - unfold qlogis. un_cls. er_arith. rdecide. now rewrite emul_pos_M.
  - unfold qlogis. un_cls. er_arith. rdecide. now rewrite emul_pos_P.
  - rewrite !qlogis_val by (auto; lra). now rewrite logis_qf_ls.
Qed.
Lemma dcauchy_ls x mu s : 0 < s -> dcauchy (N:=NS) (Fin x) (Fin mu) (Fin s) false
  = ediv (dcauchy (N:=NS) (Fin ((x - mu) / s)) (Fin 0) (Fin 1) false) (Fin s).
Proof. intros. rewrite !dcauchy_val by (auto; lra). unfold val. rewrite ediv_F by lra. now rewrite cauchy_pdf_ls. Qed.
Lemma pcauchy_ls x mu s lf : 0 < s -> pcauchy (N:=NS) (Fin x) (Fin mu) (Fin s) lf
  = pcauchy (N:=NS) (Fin ((x - mu) / s)) (Fin 0) (Fin 1) lf.
Proof. intros. rewrite !pcauchy_val by (auto; lra). now rewrite cauchy_cdf_ls. Qed.
Lemma qcauchy_ls p mu s : 0 < s -> 0 <= p <= 1 ->
  qcauchy (N:=NS) (Fin p) (Fin mu) (Fin s)
  = eadd (Fin mu) (emul (Fin s) (qcauchy (N:=NS) (Fin p) (Fin 0) (Fin 1))).
Proof.
  intros Hs Hp. assert (C : p = 0 \/ p = 1 \/ 0 < p < 1) by lra. destruct C as [->|[->|C]].
  - unfold qcauchy. un_cls. er_arith. rdecide. now rewrite emul_pos_M.
  - unfold qcauchy. un_cls. er_arith. rdecide. now rewrite emul_pos_P.
  - rewrite !qcauchy_val by (auto; lra). now rewrite cauchy_qf_ls.
Qed.
Lemma unif_arg a b x : a < b -> (x <= a -> (x - a) / (b - a) <= 0) /\ (b <= x -> 1 <= (x - a) / (b - a))
  /\ (a <= x -> 0 <= (x - a) / (b - a)) /\ (x <= b -> (x - a) / (b - a) <= 1)
  /\ (x < a -> (x - a) / (b - a) < 0) /\ (b < x -> 1 < (x - a) / (b - a))
  /\ (a < x -> 0 < (x - a) / (b - a)) /\ (x < b -> (x - a) / (b - a) < 1).
Proof.
  intros H. set (z := (x - a) / (b - a)). assert (E : x - a = z * (b - a)) by (unfold z; field; lra).
  repeat split; intros; nra.
Qed.
Lemma dunif_ls x a b : a < b -> dunif (N:=NS) (Fin x) (Fin a) (Fin b) false
  = ediv (dunif (N:=NS) (Fin ((x - a) / (b - a))) (Fin 0) (Fin 1) false) (Fin (b - a)).
Proof.
  intros H. destruct (unif_arg a b x H) as (U1 & U2 & U3 & U4 & U5 & U6 & U7 & U8).
  assert (C : x < a \/ b < x \/ a <= x <= b) by lra.
  destruct C as [C|[C|C]].
  - rewrite (dunif_out S x), (dunif_out S ((x - a) / (b - a))) by (auto; lra). unfold val. rewrite ediv_F by lra. f_equal. field. lra.
  - rewrite (dunif_out S x), (dunif_out S ((x - a) / (b - a))) by (auto; lra). unfold val. rewrite ediv_F by lra. f_equal. field. lra.
  - rewrite !dunif_val by (auto; lra). unfold val, unif_pdf. rewrite ediv_F by lra. f_equal. field. lra.
Qed.
Lemma punif_ls x a b lf : a < b -> punif (N:=NS) (Fin x) (Fin a) (Fin b) lf
  = punif (N:=NS) (Fin ((x - a) / (b - a))) (Fin 0) (Fin 1) lf.
Proof.
  intros H. destruct (unif_arg a b x H) as (U1 & U2 & U3 & U4 & U5 & U6 & U7 & U8).
  assert (C : x <= a \/ b <= x \/ a < x < b) by lra.
  destruct C as [C|[C|C]].
  - rewrite !punif_low by (auto; lra). reflexivity.
  - rewrite !punif_high by (auto; lra). reflexivity.
  - rewrite !punif_val by (auto; lra). f_equal. unfold unif_cdf. field. lra.
Qed.
Lemma qunif_ls p a b : a < b -> 0 <= p <= 1 -> qunif (N:=NS) (Fin p) (Fin a) (Fin b)
  = eadd (Fin a) (emul (Fin (b - a)) (qunif (N:=NS) (Fin p) (Fin 0) (Fin 1))).
Proof. intros. rewrite !qunif_val by (auto; lra). cbn. f_equal. unfold unif_qf. ring. Qed.

(** ** Families that coincide *)
Lemma dchisq_gamma x n lf : 0 < eps <= 2 -> 0 < n ->
  dchisq (N:=NS) (Fin x) (Fin n) lf = dgamma (N:=NS) (Fin x) (Fin (n / 2)) (Fin 2) lf.
Proof.
  intros He Hn. unfold dchisq, dgamma, dchisq_compute, dgamma_log_compute, dchisq_limit_vals, dgamma_limit_vals.
  un_cls. er_arith. replace (1 / 2 * n) with (n / 2) by field.
  destruct (Rtotal_order x 0) as [C|[->|C]].
  - rdecide. reflexivity.
  - destruct (Rtotal_order n 2) as [C|[->|C]]; rdecide; reflexivity.
  - rdecide. er_arith. destruct (sf_lgamma S (Fin (n / 2))); reflexivity.
Qed.
Lemma pchisq_gamma x n lf : 0 < eps <= 2 -> 0 < n ->
  pchisq (N:=NS) (Fin x) (Fin n) lf = pgamma (N:=NS) (Fin x) (Fin (n / 2)) (Fin 2) lf.
Proof.
  intros He Hn. unfold pchisq, pgamma, pchisq_compute, pgamma_compute. un_cls. er_arith.
  assert (C : x < eps \/ eps <= x) by lra. destruct C; rdecide; reflexivity.
Qed.
Lemma qchisq_gamma p n : 0 < eps <= 2 -> 0 < n ->
  qchisq (N:=NS) (Fin p) (Fin n) = qgamma (N:=NS) (Fin p) (Fin (n / 2)) (Fin 2).
Proof.
  intros He Hn. unfold qchisq, qgamma, qchisq_compute, qgamma_compute. un_cls. er_arith.
  rewrite (proj2 (Reqb_false (n / 2) 0)) by lra. rdecide. reflexivity.
Qed.
Lemma dexp_weibull x r lf : 0 < eps <= 1 -> 0 < r <= / eps -> 0 < x ->
  dexp (N:=NS) (Fin x) (Fin r) lf = dweibull (N:=NS) (Fin x) (Fin 1) (Fin (1 / r)) lf.
Proof.
  intros. pose proof (inv_ge S r ltac:(lra) ltac:(lra) ltac:(lra)).
  rewrite dexp_val by lra. rewrite dweibull_val by lra. now rewrite exp_weibull_pdf by lra.
Qed.
Lemma pexp_weibull x r lf : 0 < eps <= 1 -> 0 < r <= / eps -> x <= 0 \/ eps <= x ->
  pexp (N:=NS) (Fin x) (Fin r) lf = pweibull (N:=NS) (Fin x) (Fin 1) (Fin (1 / r)) lf.
Proof.
  intros He Hr Hx. pose proof (inv_ge S r ltac:(lra) ltac:(lra) ltac:(lra)). destruct Hx as [Hx|Hx].
  - rewrite pexp_low, pweibull_low by (auto; lra). reflexivity.
  - rewrite pexp_val by lra. rewrite pweibull_val by (auto; lra). now rewrite exp_weibull_cdf by lra.
Qed.
Lemma qexp_weibull p r : 0 < eps <= 1 -> 0 < r <= / eps -> 0 <= p <= 1 ->
  qexp (N:=NS) (Fin p) (Fin r) = qweibull (N:=NS) (Fin p) (Fin 1) (Fin (1 / r)).
Proof.
  intros He Hr Hp. pose proof (inv_ge S r ltac:(lra) ltac:(lra) ltac:(lra)).
  assert (C : p = 0 \/ p = 1 \/ 0 < p < 1) by lra. destruct C as [->|[->|C]].
  - unfold qexp, qweibull. un_cls. er_arith. rdecide. reflexivity.
  - unfold qexp, qweibull. un_cls. er_arith. rdecide. reflexivity.
  - rewrite qexp_val by lra. rewrite qweibull_val by (auto; lra). now rewrite exp_weibull_qf.
Qed.
Lemma dexp_gamma x r lf : lgamma_spec S -> 0 < eps <= 1 -> 0 < r <= / eps -> 0 < x ->
  dexp (N:=NS) (Fin x) (Fin r) lf = dgamma (N:=NS) (Fin x) (Fin 1) (Fin (1 / r)) lf.
Proof.
  intros HL He Hr Hx. pose proof (inv_ge S r ltac:(lra) ltac:(lra) ltac:(lra)).
  rewrite dexp_val by lra. rewrite dgamma_val by (auto; lra). unfold Rdiv. rewrite Rmult_1_l. now rewrite exp_gamma_pdf by lra.
Qed.
Lemma pexp_gamma x r lf : incgamma_spec S -> 0 < eps <= 1 -> 0 < r <= / eps -> x <= 0 \/ eps <= x ->
  pexp (N:=NS) (Fin x) (Fin r) lf = pgamma (N:=NS) (Fin x) (Fin 1) (Fin (1 / r)) lf.
Proof.
  intros HL He Hr Hx. pose proof (inv_ge S r ltac:(lra) ltac:(lra) ltac:(lra)). destruct Hx as [Hx|Hx].
  - rewrite pexp_low, pgamma_low by (auto; lra). reflexivity.
  - rewrite pexp_val by lra. rewrite pgamma_val by (auto; lra). unfold Rdiv. rewrite Rmult_1_l. now rewrite exp_gamma_cdf by lra.
Qed.
Lemma dt_1_cauchy x lf : lgamma_spec S -> 0 < eps <= 1 ->
  dt (N:=NS) (Fin x) (Fin 1) lf = dcauchy (N:=NS) (Fin x) (Fin 0) (Fin 1) lf.
Proof. intros. rewrite dt_val, dcauchy_val by (auto; lra). now rewrite t_pdf_1. Qed.
Lemma pt_1_cauchy x lf : 0 < eps <= 1 ->
  pt (N:=NS) (Fin x) (Fin 1) lf = pcauchy (N:=NS) (Fin x) (Fin 0) (Fin 1) lf.
Proof.
  intros. unfold pt, pt_compute, pcauchy. un_cls. er_arith. rdecide. refold S.
  replace ((x - 0) / 1) with x by field. reflexivity.
Qed.
Lemma qt_1_cauchy p : 0 < eps <= 1 -> 0 <= p <= 1 ->
  qt (N:=NS) (Fin p) (Fin 1) = qcauchy (N:=NS) (Fin p) (Fin 0) (Fin 1).
Proof.
  intros He Hp. assert (C : p = 0 \/ p = 1 \/ 0 < p < 1) by lra. destruct C as [->|[->|C]].
  - unfold qt, qcauchy. un_cls. er_arith. rdecide. reflexivity.
  - unfold qt, qcauchy. un_cls. er_arith. rdecide. reflexivity.
  - rewrite qt_1_val, qcauchy_val by (auto; lra). reflexivity.
Qed.
Lemma dt_inf_norm x lf : dt (N:=NS) (Fin x) PInf lf = dnorm (N:=NS) (Fin x) (Fin 0) (Fin 1) lf.
Proof. reflexivity. Qed.
Lemma pt_inf_norm x lf : pt (N:=NS) (Fin x) PInf lf = pnorm (N:=NS) (Fin x) (Fin 0) (Fin 1) lf.
Proof. reflexivity. Qed.
Lemma dbinom_1_bern x p lf : 0 <= p <= 1 ->
  dbinom (N:=NS) x 1 (Fin p) lf = dbern (N:=NS) x (Fin p) lf.
Proof.
  intros Hp. unfold dbinom, dbern, dbern_compute. un_cls. er_arith. rdecide.
  change (1 <? 0)%Z with false. cbv iota.
  destruct (Z.ltb_spec x 0), (Z.ltb_spec 1 x); try lia; change (1 =? 0)%Z with false; change (1 =? 1)%Z with true; cbv iota.
  - destruct (Z.eqb_spec x 1), (Z.eqb_spec x 0); try lia. destruct lf; rewrite ?elog_0; auto.
  - destruct (Z.eqb_spec x 1), (Z.eqb_spec x 0); try lia. destruct lf; rewrite ?elog_0; auto.
  - reflexivity.
Qed.
Lemma pbinom_1_bern x p lf : 0 <= p <= 1 ->
  pbinom (N:=NS) x 1 (Fin p) lf = pbern (N:=NS) x (Fin p) lf.
Proof.
  intros Hp. unfold pbinom, pbern, pbern_compute. un_cls. er_arith. rdecide.
  change (1 <? 0)%Z with false. cbv iota.
  destruct (Z.ltb_spec x 0), (Z.leb_spec 1 x); try lia; change (1 =? 1)%Z with true; cbv iota.
  - destruct lf; rewrite ?elog_0; auto.
  - rewrite ?elog_F by lra. reflexivity.
  - reflexivity.
Qed.

(** ** Transformed variables *)
Lemma dlnorm_dnorm x mu s : 0 < s -> 0 < x ->
  dlnorm (N:=NS) (Fin x) (Fin mu) (Fin s) false
  = ediv (dnorm (N:=NS) (Fin (ln x)) (Fin mu) (Fin s) false) (Fin x).
Proof.
  intros. rewrite dlnorm_val, dnorm_val by auto. unfold val. rewrite ediv_F by lra. now rewrite lnorm_norm_pdf.
Qed.
Lemma plnorm_pnorm x mu s lf : 0 < eps -> 0 <= s -> eps <= x ->
  plnorm (N:=NS) (Fin x) (Fin mu) (Fin s) lf = pnorm (N:=NS) (Fin (ln x)) (Fin mu) (Fin s) lf.
Proof.
  intros. unfold plnorm. un_cls. er_arith. rdecide. reflexivity.
Qed.
Lemma qlnorm_qnorm p mu s : 0 <= s -> 0 <= p <= 1 ->
  qlnorm (N:=NS) (Fin p) (Fin mu) (Fin s) = eexp (qnorm (N:=NS) (Fin p) (Fin mu) (Fin s)).
Proof. intros. unfold qlnorm. un_cls. er_arith. rdecide. reflexivity. Qed.
Lemma dinvgamma_dgamma x a b : lgamma_spec S -> 0 < eps -> 0 < a -> 0 < b <= / eps -> 0 < x ->
  dinvgamma (N:=NS) (Fin x) (Fin a) (Fin b) false
  = ediv (dgamma (N:=NS) (Fin (1 / x)) (Fin a) (Fin (1 / b)) false) (Fin (x ^ 2)).
Proof.
  intros. pose proof (inv_ge S b ltac:(lra) ltac:(lra) ltac:(lra)).
  assert (0 < 1 / x) by (apply Rdiv_lt_0_compat; lra). assert (0 < x ^ 2) by (apply pow_lt; lra).
  rewrite dinvgamma_val, dgamma_val by (auto; lra). unfold val. rewrite ediv_F by lra.
  rewrite invgamma_gamma_pdf by lra. reflexivity.
Qed.
(** whatever function is used for the incomplete gamma function *)
Lemma pinvgamma_pgamma x a b lf : 0 < x -> 0 < b -> 0 < a ->
  pinvgamma (N:=NS) (Fin x) (Fin a) (Fin b) lf
  = ev lf (esub (Fin 1) (pgamma (N:=NS) (Fin (1 / x)) (Fin a) (Fin (1 / b)) false)).
Proof.
  intros. unfold pinvgamma, pinvgamma_limit_vals, pinvgamma_compute. un_cls. er_arith. rdecide. refold S.
  destruct lf; reflexivity.
Qed.
Lemma df_dbeta x d1 d2 : lgamma_spec S -> 0 < eps -> eps <= d1 -> eps <= d2 -> 0 < x ->
  df (N:=NS) (Fin x) (Fin d1) (Fin d2) false
  = emul (dbeta (N:=NS) (Fin (d1 * x / (d2 + d1 * x))) (Fin (d1 / 2)) (Fin (d2 / 2)) false)
      (Fin (d1 * d2 / (d2 + d1 * x) ^ 2)).
Proof.
  intros. pose proof (f_arg d1 d2 ltac:(lra) ltac:(lra) x ltac:(lra)).
  rewrite df_val, dbeta_val by (auto; lra). unfold val. rewrite emul_F. now rewrite f_beta_pdf by lra.
Qed.
Lemma pf_pbeta x d1 d2 lf : 0 < eps -> eps <= d1 -> eps <= d2 -> eps <= x ->
  pf (N:=NS) (Fin x) (Fin d1) (Fin d2) lf
  = pbeta (N:=NS) (Fin (d1 * x / (d2 + d1 * x))) (Fin (d1 / 2)) (Fin (d2 / 2)) lf.
Proof.
  intros. pose proof (f_arg d1 d2 ltac:(lra) ltac:(lra) x ltac:(lra)) as Hu.
  assert (Hd : 0 < d1 * x) by nra. assert (Hq : 0 < d1 * x / d2) by (apply Rdiv_lt_0_compat; lra).
  unfold pf, pf_compute, pbeta, pbeta_compute. un_cls. er_red. er_arith. rewrite f_u by lra. rdecide. reflexivity.
Qed.
End S.
Section B.
Variable S : SF.
Notation NS := (ER_Num S).
Lemma qbinom_1_bern p prob : 0 <= prob <= 1 -> 0 <= p <= 1 -> p < 1 \/ 0 < prob ->
  qbinom (N:=NS) (Fin p) 1 (Fin prob) = qbern (N:=NS) (Fin p) (Fin prob).
Proof.
  intros Hq Hp Hc.
  assert (P0 : pbinom (N:=NS) 0 1 (Fin prob) false = Fin (1 - prob)).
  { rewrite pbinom_1_bern by auto. unfold pbern, pbern_compute. un_cls. er_arith. rdecide. reflexivity. }
  assert (P1 : pbinom (N:=NS) 1 1 (Fin prob) false = Fin 1).
  { rewrite pbinom_1_bern by auto. unfold pbern, pbern_compute. un_cls. er_arith. rdecide. reflexivity. }
  unfold qbinom, qbinom_run, qbern. change (Z.to_nat 1 + 2)%nat with 3%nat. cbn [qbinom_recur].
  change (0 + 1)%Z with 1%Z. change (1 + 1)%Z with 2%Z. rewrite P0, P1.
  un_cls. er_arith. rdecide. change (1 <? 0)%Z with false. cbv iota.
  assert (C : p = 0 \/ p = 1 \/ 0 < p < 1) by lra. destruct C as [->|[->|C]]; [rdecide; reflexivity| |].
  - rdecide. reflexivity.
  - assert (D : 1 - prob < p \/ p <= 1 - prob) by lra. destruct D; rdecide; reflexivity.
Qed.
(** with prob 0 and p 1 the two quantiles differ *)
Lemma qbinom_1_bern_bad : qbinom (N:=NS) (Fin 1) 1 (Fin 0) = Fin 1 /\ qbern (N:=NS) (Fin 1) (Fin 0) = Fin 0.
Proof.
  split; [unfold qbinom, qbinom_run|unfold qbern]; un_cls; er_arith; rdecide; reflexivity.
Qed.
End B.
