(** The statements of C65 from the lemmas about the accuracy of quantiles. *)
From Coq Require Import ZArith QArith Reals Lra Lia.
From Verif Require Import Erf GammaFn BetaFn NormR Spec SpecSF RealElem.
From Verif Require FamR FamB.
From Verif Require Import Num Quant B64 SpecB64 SpecAcc SpecAccQ B64R B64Ord B64Cdf B64Cdf2 B64Cdf3 B64CR B64Acc B64AccCdf B64AccCdf2 B64AccCdf3 B64AccW B64Thm3 B64AccQ B64AccQ2 B64AccQ3 B64AccQ4 B64AccQW.
From Flocq Require Import Core IEEE754.BinarySingleNaN.
Local Open Scope R_scope.
Notation exp := Rtrigo_def.exp. Notation sqrt := R_sqrt.sqrt. Notation PI := Rtrigo1.PI. Notation tan := Rtrigo1.tan.
Definition qunif_acc0 F e p a b q (He : unit_ok e) := qunif_acc F p a b q.
Definition qt2_acc0 F e p q (He : unit_ok e) := qt2_acc F e He p q.
Definition qbeta_acc0 F e p a b q (He : unit_ok e) := qbeta_acc F e p a b q.
Definition qf_acc0 F e p df1 df2 q (He : unit_ok e) := qf_acc F e He p df1 df2 q.
(** for the examples *)
Lemma q34_V : B2R (blit (3#4)) = 3 / 4. Proof. vm_compute. lra. Qed.
Lemma half_prob : prob (blit (1#2)). Proof. split; [reflexivity|]. rewrite half_V. lra. Qed.
Lemma q34_prob : prob (blit (3#4)). Proof. split; [reflexivity|]. rewrite q34_V. lra. Qed.
Lemma ln2_b : / 2 <= ln 2 <= 1.
Proof.
  split; [|apply ln2_01]. apply Rnot_lt_le. intros H. apply exp_increasing in H. rewrite exp_ln in H by lra.
  assert (exp 1 < 4) by (replace 1 with (ln 2 * 0 + 1) by ring; pose proof exp_le_3; replace (ln 2 * 0 + 1) with 1 by ring; lra).
  replace 1 with (/ 2 + / 2) in H0 by lra. rewrite exp_plus in H0. pose proof (exp_pos (/ 2)). nra.
Qed.
Lemma exp_mln2 : exp (- ln 2) = / 2. Proof. rewrite exp_Ropp, exp_ln; lra. Qed.
Lemma IB_half a : 0 < a -> IB a a (/ 2) = / 2.
Proof. intros H. pose proof (IB_sym a a (/ 2) H H) as E. replace (1 - / 2) with (/ 2) in E by lra. lra. Qed.
Lemma lnln2 : Rabs (ln (ln 2)) <= 1.
Proof. pose proof ln2_b. assert (ln (/ 2) <= ln (ln 2)) by (apply ln_mono'; lra). rewrite ln_Rinv in H0 by lra. assert (ln (ln 2) <= ln 1) by (apply ln_mono'; lra). rewrite ln_1 in H1. apply Rabs_le. lra. Qed.
Lemma exp_half : exp_cdf 1 (ln 2) = / 2. Proof. unfold exp_cdf. match goal with |- 1 - ?f ?a = _ => replace (f a) with (f (- ln 2)) by (f_equal; ring) end. rewrite exp_mln2. lra. Qed.
Lemma t2_half : t_cdf 2 0 = / 2. Proof. transitivity (t_cdf 2 (FamB.t2_qf (/ 2))); [f_equal; unfold FamB.t2_qf, Rdiv; replace (2 * / 2 - 1) with 0 by lra; ring | apply FamB.t2_qf_cdf; lra]. Qed.
Lemma inv_ln2 : 2 <= 2 / ln 2 <= 4 /\ 2 / (2 / ln 2) = ln 2.
Proof.
  pose proof ln2_b. split; [|field; lra]. assert (1 <= / ln 2 <= 2); [|unfold Rdiv; lra]. split.
  - rewrite <- Rinv_1 at 1. apply Rinv_le_contravar; lra.
  - replace 2 with (/ / 2) at 2 by field. apply Rinv_le_contravar; lra.
Qed.
Ltac cdf_ex := rewrite ?half_V, ?q34_V; ex_Z; first
  [ exact exp_half | exact t2_half | solve [unfold unif_cdf; field]
  | solve [unfold exp_cdf; rewrite Rmult_1_l, exp_mln2; lra]
  | solve [unfold logis_cdf; replace ((1 - 1) / 2) with 0 by field; rewrite Ropp_0, exp_0; field]
  | solve [unfold cauchy_cdf; replace ((1 - 1) / 2) with 0 by field; rewrite Ratan.atan_0; pose proof PI_RGT_0; field; lra]
  | solve [unfold laplace_cdf, Rsign; replace (1 - 1) with 0 by ring; rewrite Rabs_R0; repeat destruct Rlt_dec; try lra]
  | solve [unfold norm_cdf; replace ((1 - 1) / (sqrt 2 * 2)) with 0 by (pose proof sqrt2_rng; field; lra); rewrite erfR_0; lra]
  | solve [unfold norm_cdf; replace ((0 - 0) / (sqrt 2 * 1)) with 0 by (pose proof sqrt2_rng; field; lra); rewrite erfR_0; lra]
  | solve [unfold lnorm_cdf; rewrite ln_1; unfold norm_cdf; replace ((0 - 0) / (sqrt 2 * 2)) with 0 by (pose proof sqrt2_rng; field; lra); rewrite erfR_0; lra]
  | solve [rewrite <- FamR.t_cdf_1; unfold cauchy_cdf; replace ((1 - 0) / 1) with 1 by field; rewrite Ratan.atan_1; pose proof PI_RGT_0; field; lra]
  | solve [rewrite <- (FamB.t2_qf_cdf (/ 2)) by lra; f_equal; unfold FamB.t2_qf, Rdiv; ring]
  | solve [unfold weibull_cdf, Rdiv; rewrite Rinv_1, Rmult_1_r; rewrite Rpower_1 by (pose proof ln2_b; lra); rewrite exp_mln2; lra]
  | solve [pose proof ln2_b; unfold gamma_cdf; replace (2 * ln 2 / 2) with (ln 2) by field; rewrite PG_1, exp_mln2 by lra; lra]
  | solve [pose proof ln2_b; unfold chisq_cdf; replace (2 * ln 2 / 2) with (ln 2) by field; replace (2 / 2) with 1 by field; rewrite PG_1, exp_mln2 by lra; lra]
  | solve [pose proof ln2_b; unfold invgamma_cdf; replace (2 / (2 / ln 2)) with (ln 2) by (field; lra); rewrite PG_1, exp_mln2 by lra; lra]
  | solve [unfold beta_cdf; apply IB_half; lra]
  | solve [unfold f_cdf; replace (4 * 1 / (4 + 4 * 1)) with (/ 2) by field; apply IB_half; lra] ].
Ltac exq_num := rewrite ?half_V, ?q34_V, ?ln_1; ex_Z; pose proof huge_1; pose proof huge_2; pose proof huge_inv; pose proof ulp1_val; pose proof ln2_b; pose proof lnln2; unfold e2;
  rewrite ?Rminus_diag_eq by lra; rewrite ?Rminus_0_r; try (replace (ln 2 / 1) with (ln 2) by field); rewrite ?Rabs_R0; rewrite ?(Rabs_pos_eq 1), ?(Rabs_pos_eq (/ 4)) by lra; try (split; lra); try lra.
Ltac exq := first [exact e2_ok | exact TFR_log_acc | exact TFR_log1p_acc | exact TFR_exp_all_acc | exact TFR_pow_acc | exact TFR_tan_acc | exact TFR_erf_inv_acc | exact TFR_incgamma_inv_acc | exact TFR_incbeta_inv_acc
  | exact TFR_SQRT_2_acc | exact TFR_PI_acc | exact half_prob | exact q34_prob | (apply finite_Z; sm) | (apply positive_Z; sm) | reflexivity | (split; vm_compute; reflexivity) | cdf_ex | solve [exq_num] | solve [pose proof inv_ln2; exq_num] | solve [rewrite (proj1 (bofZ_R 2 ltac:(sm))), (proj2 inv_ln2); exq_num]
  | solve [rewrite half_V, q34_V, Rabs_pos_eq by lra; pose proof ulp1_val; lra] | solve [pose proof lnln2; unfold e2; rewrite (proj1 (bofZ_R 1 ltac:(sm))); replace (ln 2 / 1) with (ln 2) by field; rewrite ulp1_val; lra] | idtac].

Lemma aq_qunif : forall (F : TF) (e : R) (p a b : b64) (q : R), unit_ok e -> prob p -> finite a -> finite b -> B2R a < B2R b -> unif_cdf (B2R a) (B2R b) q = B2R p -> Rabs (B2R a) + (B2R b - B2R a) <= huge / 4 -> within (5 * ulp1 * (Rabs (B2R a) + (q - B2R a)) + 2 * tiny) (qunif (N:=B64_Num F) p a b) q.
Proof. intros. apply (qunif_acc0 F e); auto. Qed.

Lemma aq_qexp : forall (F : TF) (e : R) (p rate : b64) (q : R), unit_ok e -> log_acc F e -> prob p -> positive rate -> exp_cdf (B2R rate) q = B2R p -> q <= huge / 2 -> 1 <= B2R rate * huge -> within (3 * e * q + 2 * e / B2R rate + tiny) (qexp (N:=B64_Num F) p rate) q.
Proof. intros. apply (qexp_acc F e); auto. Qed.

Lemma aq_qlogis : forall (F : TF) (e : R) (p mu sigma : b64) (q : R), unit_ok e -> log_acc F e -> prob p -> / huge <= B2R p -> finite mu -> positive sigma -> logis_cdf (B2R mu) (B2R sigma) q = B2R p -> Rabs (B2R mu) + Rabs (q - B2R mu) + B2R sigma <= huge / 4 -> within (5 * e * (Rabs (B2R mu) + Rabs (q - B2R mu) + B2R sigma) + 2 * tiny) (qlogis (N:=B64_Num F) p mu sigma) q.
Proof. intros. apply (qlogis_acc F e); auto. Qed.

Lemma aq_qcauchy : forall (F : TF) (e : R) (p mu sigma : b64) (q : R), unit_ok e -> tan_acc F e -> const_acc e (t_PI F) PI -> prob p -> finite mu -> positive sigma -> cauchy_cdf (B2R mu) (B2R sigma) q = B2R p -> 28 * e * (Rabs (q - B2R mu) / B2R sigma) <= 1 -> Rabs (B2R mu) + 2 * Rabs (q - B2R mu) + B2R sigma <= huge / 2 -> within (3 * e * Rabs (B2R mu) + 16 * e * B2R sigma * (1 + ((q - B2R mu) / B2R sigma) ^ 2) + 2 * tiny) (qcauchy (N:=B64_Num F) p mu sigma) q.
Proof. intros. apply (qcauchy_acc F e); auto. Qed.

Lemma aq_qlaplace : forall (F : TF) (e : R) (p mu sigma : b64) (q : R), unit_ok e -> log_acc F e -> prob p -> / 4 <= B2R p -> finite mu -> positive sigma -> laplace_cdf (B2R mu) (B2R sigma) q = B2R p -> Rabs (B2R mu) + Rabs (q - B2R mu) + B2R sigma <= huge / 4 -> within (5 * e * (Rabs (B2R mu) + Rabs (q - B2R mu)) + (2 + 2 * B2R sigma) * tiny) (qlaplace (N:=B64_Num F) p mu sigma) q.
Proof. intros. apply (qlaplace_acc F e); auto. now apply half_exact. Qed.

Lemma aq_qnorm : forall (F : TF) (e : R) (p mu sigma : b64) (q : R), unit_ok e -> const_acc e (t_SQRT_2 F) (sqrt 2) -> erf_inv_acc F e -> prob p -> / 4 <= B2R p -> finite mu -> positive sigma -> / huge <= B2R sigma -> norm_cdf (B2R mu) (B2R sigma) q = B2R p -> Rabs (B2R mu) + Rabs (q - B2R mu) + B2R sigma <= huge / 4 -> within (8 * e * (Rabs (B2R mu) + Rabs (q - B2R mu)) + (2 + 2 * B2R sigma) * tiny) (qnorm (N:=B64_Num F) p mu sigma) q.
Proof. intros. apply (qnorm_acc F e); auto. now apply erfarg_exact. Qed.

Lemma aq_qt_1 : forall (F : TF) (e : R) (p : b64) (q : R), unit_ok e -> tan_acc F e -> const_acc e (t_PI F) PI -> prob p -> t_cdf 1 q = B2R p -> 28 * e * Rabs q <= 1 -> within (13 * e * (1 + q ^ 2)) (qt (N:=B64_Num F) p (bofZ 1)) q.
Proof. intros. apply (qt1_acc F e); auto. Qed.

Lemma aq_qt_inf : forall (F : TF) (e : R) (p : b64) (q : R), unit_ok e -> const_acc e (t_SQRT_2 F) (sqrt 2) -> erf_inv_acc F e -> prob p -> / 4 <= B2R p -> norm_cdf 0 1 q = B2R p -> Rabs q <= huge / 8 -> within (8 * e * Rabs q + 4 * tiny) (qt (N:=B64_Num F) p plus_inf) q.
Proof. intros. apply (qtinf_acc F e); auto. now apply erfarg_exact. Qed.

Lemma aq_qt_2 : forall (F : TF) (e : R) (p : b64) (q : R), unit_ok e -> prob p -> / huge <= B2R p -> t_cdf 2 q = B2R p -> Rabs q <= huge -> near (8 * ulp1) tiny (qt (N:=B64_Num F) p (bofZ 2)) q.
Proof. intros. apply (qt2_acc0 F e); auto. Qed.

Lemma aq_qlnorm : forall (F : TF) (e : R) (p mu sigma : b64) (q : R), unit_ok e -> exp_all_acc F e -> const_acc e (t_SQRT_2 F) (sqrt 2) -> erf_inv_acc F e -> prob p -> / 4 <= B2R p -> finite mu -> positive sigma -> / huge <= B2R sigma -> 0 < q <= huge / 4 -> lnorm_cdf (B2R mu) (B2R sigma) q = B2R p -> Rabs (B2R mu) + Rabs (ln q - B2R mu) + B2R sigma <= 10000 -> near (e + 8 * e * (Rabs (B2R mu) + Rabs (ln q - B2R mu)) + (2 + 2 * B2R sigma) * tiny) tiny (qlnorm (N:=B64_Num F) p mu sigma) q.
Proof. intros. apply (qlnorm_acc F e); auto. now apply erfarg_exact. Qed.

Lemma aq_qweibull : forall (F : TF) (e : R) (p shape scale : b64) (q : R), unit_ok e -> log1p_acc F e -> pow_acc F e -> prob p -> / huge <= B2R p -> big_eps shape -> big_eps scale -> B2R shape <= huge -> weibull_cdf (B2R shape) (B2R scale) q = B2R p -> 0 < q -> q / B2R scale <= huge / 4 -> q <= huge / 4 -> B2R scale <= huge / 4 -> 3 * e + 3 * e / B2R shape + 3 * ulp1 * Rabs (ln (q / B2R scale)) <= / 200 -> near (3 * e + 3 * e / B2R shape + 3 * ulp1 * Rabs (ln (q / B2R scale))) ((1 + 4 * B2R scale) * tiny) (qweibull (N:=B64_Num F) p shape scale) q.
Proof. intros. apply (qweibull_acc F e); auto. Qed.

Lemma aq_qgamma : forall (F : TF) (e : R) (p shape scale : b64) (q : R), unit_ok e -> incgamma_inv_acc F e -> prob p -> positive shape -> big_eps scale -> B2R scale <= huge / 4 -> 0 < q <= huge -> q / B2R scale <= huge -> gamma_cdf (B2R shape) (B2R scale) q = B2R p -> near (e + ulp1) ((1 + 4 * B2R scale) * tiny) (qgamma (N:=B64_Num F) p shape scale) q.
Proof. intros. apply (qgamma_acc F e); auto. Qed.

Lemma aq_qchisq : forall (F : TF) (e : R) (p dof : b64) (q : R), unit_ok e -> incgamma_inv_acc F e -> prob p -> finite dof -> / huge <= B2R dof <= huge -> 0 < q <= huge -> chisq_cdf (B2R dof) q = B2R p -> near (e + ulp1) (9 * tiny) (qchisq (N:=B64_Num F) p dof) q.
Proof. intros. apply (qchisq_acc F e); auto. Qed.

Lemma aq_qinvgamma : forall (F : TF) (e : R) (p shape rate : b64) (q : R), unit_ok e -> incgamma_inv_acc F e -> prob p -> / 2 <= B2R p -> positive shape -> positive rate -> 0 < q <= huge -> / huge <= B2R rate / q <= huge -> invgamma_cdf (B2R shape) (B2R rate) q = B2R p -> near (e + 2 * ulp1) tiny (qinvgamma (N:=B64_Num F) p shape rate) q.
Proof. intros. apply (qinvgamma_acc F e); auto. Qed.

Lemma aq_qbeta : forall (F : TF) (e : R) (p a b : b64) (q : R), unit_ok e -> incbeta_inv_acc F e -> prob p -> positive a -> positive b -> 0 < q < 1 -> beta_cdf (B2R a) (B2R b) q = B2R p -> near e tiny (qbeta (N:=B64_Num F) p a b) q.
Proof. intros. apply (qbeta_acc0 F e); auto. Qed.

Lemma aq_qf : forall (F : TF) (e : R) (p df1 df2 : b64) (q : R), unit_ok e -> incbeta_inv_acc F e -> prob p -> big_eps df1 -> big_eps df2 -> B2R df1 <= huge -> B2R df2 <= huge -> 0 < q <= huge -> / huge <= B2R df1 / B2R df2 <= huge -> / huge <= (B2R df1 * q / B2R df2) / (1 + B2R df1 * q / B2R df2) -> / huge <= B2R df1 / B2R df2 / (1 + B2R df1 * q / B2R df2) -> 10 * e * (1 + B2R df1 * q / B2R df2) <= / 200 -> f_cdf (B2R df1) (B2R df2) q = B2R p -> near (10 * e * (1 + B2R df1 * q / B2R df2)) tiny (qf (N:=B64_Num F) p df1 df2) q.
Proof. intros. apply (qf_acc0 F e); auto. Qed.

Lemma aq_qbern : forall (F : TF) (p b : b64), prob p -> Bleb (bofZ 0) b = true -> Bleb b (bofZ 1) = true -> 2 * ulp1 * (1 - B2R b) < Rabs (B2R p - (1 - B2R b)) ->
  (1 - B2R b < B2R p -> qbern (N:=B64_Num F) p b = bofZ 1) /\ (B2R p <= 1 - B2R b -> qbern (N:=B64_Num F) p b = bofZ 0).
Proof. intros F p b. exact (qbern_acc F e2 e2_ok p b). Qed.

Lemma aq_qradem : forall (F : TF) (p b : b64), prob p -> Bleb (bofZ 0) b = true -> Bleb b (bofZ 1) = true -> 2 * ulp1 * (1 - B2R b) < Rabs (B2R p - (1 - B2R b)) ->
  (1 - B2R b < B2R p -> qradem (N:=B64_Num F) p b = bofZ 1) /\ (B2R p <= 1 - B2R b -> qradem (N:=B64_Num F) p b = bofZ (-1)).
Proof. intros F p b. exact (qradem_acc F e2 e2_ok p b). Qed.

Lemma tfr_all_q : unit_ok e2 /\ log_acc TFR e2 /\ log1p_acc TFR e2 /\ exp_all_acc TFR e2 /\ pow_acc TFR e2 /\ tan_acc TFR e2 /\ erf_inv_acc TFR e2 /\ incgamma_inv_acc TFR e2 /\
  incbeta_inv_acc TFR e2 /\ const_acc e2 (t_SQRT_2 TFR) (sqrt 2) /\ const_acc e2 (t_PI TFR) PI.
Proof. exact (conj e2_ok (conj TFR_log_acc (conj TFR_log1p_acc (conj TFR_exp_all_acc (conj TFR_pow_acc (conj TFR_tan_acc (conj TFR_erf_inv_acc (conj TFR_incgamma_inv_acc (conj TFR_incbeta_inv_acc (conj TFR_SQRT_2_acc TFR_PI_acc)))))))))). Qed.

Lemma aq_qexp_refuted : exists p q, prob p /\ exp_cdf 1 q = B2R p /\ 0 < q /\ B2R (qexp (N:=B64_Num TFR) p (bofZ 1)) = 0.
Proof. exact qexp_lost. Qed.

Lemma aq_qnorm_refuted : exists p q, prob p /\ norm_cdf 0 1 q = B2R p /\ qnorm (N:=B64_Num TFR) p (bofZ 0) (bofZ 1) = minus_inf.
Proof. exact qnorm_lost. Qed.

Lemma aq_qlaplace_refuted : exists p q, prob p /\ laplace_cdf 0 1 q = B2R p /\ qlaplace (N:=B64_Num TFR) p (bofZ 0) (bofZ 1) = minus_inf.
Proof. exact qlaplace_lost. Qed.

Lemma aq_qinvgamma_refuted : exists p q, prob p /\ 0 < q /\ invgamma_cdf 1 1 q = B2R p /\ B2R (qinvgamma (N:=B64_Num TFR) p (bofZ 1) (bofZ 1)) = 0.
Proof. exact qinvgamma_lost. Qed.

Lemma aq_qbern_refuted : forall F : TF, exists p b, prob p /\ Bltb (bofZ 0) b = true /\ Bltb b (bofZ 1) = true /\ 1 - B2R b < B2R p /\ qbern (N:=B64_Num F) p b = bofZ 0 /\ qradem (N:=B64_Num F) p b = bofZ (-1).
Proof. exact qbern_lost. Qed.
