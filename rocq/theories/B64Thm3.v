(** The statements of C63 from the lemmas about accuracy. *)
From Coq Require Import ZArith QArith Reals Lra Lia.
From Verif Require Import Erf GammaFn BetaFn NormR Spec SpecSF.
From Verif Require Import Num Prob B64 SpecB64 SpecAcc B64R B64Ord B64Cdf B64Cdf2 B64Cdf3 B64CR B64Acc B64AccCdf B64AccCdf2 B64AccCdf3 B64AccW.
From Flocq Require Import Core IEEE754.BinarySingleNaN.
Local Open Scope R_scope.
Notation exp := Rtrigo_def.exp. Notation sqrt := R_sqrt.sqrt. Notation PI := Rtrigo1.PI.
Ltac acc_hyps := intros; repeat match goal with H : reach _ _ _ |- _ => destruct H | H : unit_ok _ |- _ => revert H end.
Tactic Notation "exact_acc" constr(l) := intros; repeat match goal with H : reach _ _ _ |- _ => destruct H end; apply l; auto.
Definition pchisq_acc0 F e x dof (_ : unit_ok e) := pchisq_acc F e x dof.
Definition pbeta_acc0 F e x a b (_ : unit_ok e) := pbeta_acc F e x a b.
Definition punif_acc0 F x a b := punif_acc F x a b.
Lemma lowx_pos : positive lowx. Proof. split; [reflexivity|]. rewrite lowx_R. apply bpow_gt_0. Qed.
Ltac low_side := first [reflexivity | split; vm_compute; reflexivity].
Lemma half_V : B2R (blit (1#2)) = / 2. Proof. exact (proj2 half_R). Qed.
Lemma finite_Z k : (Z.abs k <= 2 ^ 53)%Z -> finite (bofZ k). Proof. intros H. exact (proj2 (bofZ_R k H)). Qed.
Lemma positive_Z k : (0 < k <= 2 ^ 53)%Z -> positive (bofZ k).
Proof. intros H. destruct (bofZ_R k) as [A B]; [lia|]. split; auto. rewrite A. apply (IZR_lt 0). lia. Qed.
Ltac ex_Z := repeat match goal with |- context [B2R (bofZ ?k)] => rewrite (proj1 (bofZ_R k ltac:(sm))) end.
Ltac ex_num := rewrite ?half_V; ex_Z; pose proof huge_1; pose proof huge_2; pose proof huge_inv; pose proof ulp1_val; cbn [Z.pow Z.pow_pos Pos.iter Z.mul Pos.mul];
  try (split; lra); try lra.
Ltac ex_acc := first [exact e2_ok | exact TFR_erf_acc | exact TFR_tanh_acc | exact TFR_atan_acc | exact TFR_exp_acc | exact TFR_expm1_acc | exact TFR_log_acc | exact TFR_pow_acc | exact TFR_pow_sign
  | exact TFR_incgamma_acc | exact TFR_incbeta_acc | exact TFR_SQRT_2_acc | exact TFR_PI_acc | (apply finite_Z; sm) | (apply positive_Z; sm) | reflexivity | (split; vm_compute; reflexivity)
  | solve [split; apply Rabs_le; ex_num] | (right; lia) | (split; lia)
  | solve [ex_num] | solve [rewrite (proj1 (bofZ_R 0 ltac:(sm))), Rabs_R0; ex_num]
  | (ex_Z; replace (4 / 2) with 2 by lra; change 2 with (INR 2) at 2; rewrite Rpower_pow by lra; pose proof huge_1; cbn; lra) | idtac ].

Lemma a_pnorm : forall (F : TF) (e : R) (x mu sigma : b64), unit_ok e -> const_acc e (t_SQRT_2 F) (sqrt 2) -> erf_acc F e -> finite x -> finite mu -> positive sigma -> reach (B2R mu) (B2R sigma) (B2R x) -> within (6 * e) (pnorm (N:=B64_Num F) x mu sigma false) (norm_cdf (B2R mu) (B2R sigma) (B2R x)).
Proof. exact_acc pnorm_acc. Qed.

Lemma a_plogis : forall (F : TF) (e : R) (x mu sigma : b64), unit_ok e -> tanh_acc F e -> finite x -> finite mu -> positive sigma -> B2R sigma <= huge / 2 -> reach (B2R mu) (B2R sigma) (B2R x) -> within (6 * e) (plogis (N:=B64_Num F) x mu sigma false) (logis_cdf (B2R mu) (B2R sigma) (B2R x)).
Proof. exact_acc plogis_acc. Qed.

Lemma a_pcauchy : forall (F : TF) (e : R) (x mu sigma : b64), unit_ok e -> atan_acc F e -> const_acc e (t_PI F) PI -> finite x -> finite mu -> positive sigma -> reach (B2R mu) (B2R sigma) (B2R x) -> within (9 * e) (pcauchy (N:=B64_Num F) x mu sigma false) (cauchy_cdf (B2R mu) (B2R sigma) (B2R x)).
Proof. exact_acc pcauchy_acc. Qed.

Lemma a_plaplace : forall (F : TF) (e : R) (x mu sigma : b64), unit_ok e -> exp_acc F e -> finite x -> finite mu -> positive sigma -> reach (B2R mu) (B2R sigma) (B2R x) -> within (8 * e) (plaplace (N:=B64_Num F) x mu sigma false) (laplace_cdf (B2R mu) (B2R sigma) (B2R x)).
Proof. exact_acc plaplace_acc. Qed.

Lemma a_pt_1 : forall (F : TF) (e : R) (x : b64), unit_ok e -> atan_acc F e -> const_acc e (t_PI F) PI -> finite x -> within (9 * e) (pt (N:=B64_Num F) x (bofZ 1) false) (t_cdf 1 (B2R x)).
Proof. exact_acc pt1_acc. Qed.

Lemma a_plnorm : forall (F : TF) (e : R) (x mu sigma : b64), unit_ok e -> const_acc e (t_SQRT_2 F) (sqrt 2) -> erf_acc F e -> log_acc F e -> big_eps x -> finite mu -> positive sigma -> Rabs (B2R mu) <= huge / 2 -> (Rabs (B2R mu) + 2000) / B2R sigma <= huge -> within (6 * e + (e * Rabs (ln (B2R x)) + tiny) / B2R sigma) (plnorm (N:=B64_Num F) x mu sigma false) (lnorm_cdf (B2R mu) (B2R sigma) (B2R x)).
Proof. exact_acc plnorm_acc. Qed.

Lemma a_pinvgamma : forall (F : TF) (e : R) (x shape rate : b64), unit_ok e -> incgamma_acc F e -> finite x -> positive shape -> finite rate -> B2R shape <= 1000000 -> / huge <= B2R x <= IZR (2 ^ 51) -> / huge <= B2R rate <= IZR (2 ^ 51) -> / huge <= B2R rate / B2R x <= huge -> within (4 * e + 7 * B2R shape * ulp1) (pinvgamma (N:=B64_Num F) x shape rate false) (invgamma_cdf (B2R shape) (B2R rate) (B2R x)).
Proof. exact_acc pinvgamma_acc. Qed.

Lemma a_punif : forall (F : TF) (e : R) (x a b : b64), unit_ok e -> finite x -> finite a -> finite b -> B2R a < B2R x < B2R b -> B2R b - B2R a <= huge -> near (3 * ulp1) tiny (punif (N:=B64_Num F) x a b false) (unif_cdf (B2R a) (B2R b) (B2R x)).
Proof. exact_acc punif_acc0. Qed.

Lemma a_pexp : forall (F : TF) (e : R) (x rate : b64), unit_ok e -> expm1_acc F e -> finite x -> 0 < B2R x -> positive rate -> B2R rate * B2R x <= huge -> near (2 * e) (4 * tiny) (pexp (N:=B64_Num F) x rate false) (exp_cdf (B2R rate) (B2R x)).
Proof. exact_acc pexp_acc. Qed.

Lemma a_pweibull : forall (F : TF) (e : R) (x shape scale : b64), unit_ok e -> expm1_acc F e -> pow_acc F e -> pow_sign F -> big_eps x -> big_eps shape -> big_eps scale -> / huge <= B2R x / B2R scale <= huge -> Rpower (B2R x / B2R scale) (B2R shape) <= huge / 2 -> B2R shape <= 1000000000 -> near (2 * e + 2 * B2R shape * ulp1) (4 * tiny) (pweibull (N:=B64_Num F) x shape scale false) (weibull_cdf (B2R shape) (B2R scale) (B2R x)).
Proof. exact_acc pweibull_acc. Qed.

Lemma a_pgamma : forall (F : TF) (e : R) (x shape scale : b64), unit_ok e -> incgamma_acc F e -> big_eps x -> positive shape -> big_eps scale -> / huge <= B2R x / B2R scale <= huge -> near (e + 2 * B2R shape * ulp1) tiny (pgamma (N:=B64_Num F) x shape scale false) (gamma_cdf (B2R shape) (B2R scale) (B2R x)).
Proof. exact_acc pgamma_acc. Qed.

Lemma a_pchisq : forall (F : TF) (e : R) (x dof : b64), unit_ok e -> incgamma_acc F e -> big_eps x -> finite dof -> / huge <= B2R dof <= huge -> B2R x <= huge -> near e tiny (pchisq (N:=B64_Num F) x dof false) (chisq_cdf (B2R dof) (B2R x)).
Proof. exact_acc pchisq_acc0. Qed.

Lemma a_pbeta : forall (F : TF) (e : R) (x a b : b64), unit_ok e -> incbeta_acc F e -> finite x -> 0 < B2R x < 1 -> positive a -> positive b -> near e tiny (pbeta (N:=B64_Num F) x a b false) (beta_cdf (B2R a) (B2R b) (B2R x)).
Proof. exact_acc pbeta_acc0. Qed.

Lemma a_pbern : forall (F : TF) (p : b64), Bleb (bofZ 0) p = true -> Bleb p (bofZ 1) = true -> near ulp1 0 (pbern (N:=B64_Num F) 0 p false) (1 - B2R p) /\ near ulp1 0 (pradem (N:=B64_Num F) (-1) p false) (1 - B2R p).
Proof. intros F p A B. split; [now apply pbern_acc|now apply pradem_acc]. Qed.

Lemma a_ppois : forall (F : TF) (e : R) (x : Z) (rate : b64), unit_ok e -> incgamma_acc F e -> (0 <= x < 2 ^ 53)%Z -> positive rate -> 10 < B2R rate \/ (15 < x)%Z ->
  within (4 * e) (ppois (N:=B64_Num F) x rate false) (sum_f_R0 (pois_pmf (B2R rate)) (Z.to_nat x)).
Proof. intros. apply ppois_acc; auto. Qed.

Lemma tfr_all_a : unit_ok e2 /\ erf_acc TFR e2 /\ tanh_acc TFR e2 /\ atan_acc TFR e2 /\ exp_acc TFR e2 /\ expm1_acc TFR e2 /\ log_acc TFR e2 /\
  pow_acc TFR e2 /\ pow_sign TFR /\ incgamma_acc TFR e2 /\ incbeta_acc TFR e2 /\ const_acc e2 (t_SQRT_2 TFR) (sqrt 2) /\ const_acc e2 (t_PI TFR) PI.
Proof. exact (conj e2_ok (conj TFR_erf_acc (conj TFR_tanh_acc (conj TFR_atan_acc (conj TFR_exp_acc (conj TFR_expm1_acc (conj TFR_log_acc (conj TFR_pow_acc (conj TFR_pow_sign (conj TFR_incgamma_acc (conj TFR_incbeta_acc (conj TFR_SQRT_2_acc TFR_PI_acc)))))))))))). Qed.

Lemma a_pnorm_tail_refuted : B2R (pnorm (N:=B64_Num TFR) (bofZ (-12)) (bofZ 0) (bofZ 1) false) = 0 /\ exp (- (100)) <= norm_cdf 0 1 (-12).
Proof. exact pnorm_tail_zero. Qed.

Lemma a_plogis_tail_refuted : B2R (plogis (N:=B64_Num TFR) (bofZ (-64)) (bofZ 0) (bofZ 1) false) = 0 /\ exp (- (65)) <= logis_cdf 0 1 (-64).
Proof. exact plogis_tail_zero. Qed.

Lemma a_plaplace_tail_refuted : B2R (plaplace (N:=B64_Num TFR) (bofZ (-64)) (bofZ 0) (bofZ 1) false) = 0 /\ laplace_cdf 0 1 (-64) = exp (- (64)) / 2.
Proof. exact plaplace_tail_zero. Qed.

Lemma a_pweibull_low_refuted : forall F : TF, exists x shape scale, positive x /\ big_eps shape /\ big_eps scale /\ pweibull (N:=B64_Num F) x shape scale false = bofZ 0 /\ 3 / 8 <= weibull_cdf (B2R shape) (B2R scale) (B2R x).
Proof. intros F. exists lowx, (blit (1#64)), (bofZ 1). split; [exact lowx_pos|]. split; [low_side|]. split; [low_side|]. exact (pweibull_low F). Qed.

Lemma a_plnorm_low_refuted : forall F : TF, exists x mu sigma, positive x /\ finite mu /\ big_eps sigma /\ plnorm (N:=B64_Num F) x mu sigma false = bofZ 0 /\ 1 / 4 <= lnorm_cdf (B2R mu) (B2R sigma) (B2R x).
Proof. intros F. exists lowx, (bofZ 0), (bofZ 1024). split; [exact lowx_pos|]. split; [low_side|]. split; [low_side|]. exact (plnorm_low F). Qed.

Lemma a_pgamma_low_refuted : forall F : TF, exists x shape scale, positive x /\ big_eps shape /\ big_eps scale /\ pgamma (N:=B64_Num F) x shape scale false = bofZ 0 /\ bpow radix2 (-33) <= gamma_cdf (B2R shape) (B2R scale) (B2R x).
Proof. intros F. exists lowx, (blit (1#2)), (bofZ 1). split; [exact lowx_pos|]. split; [low_side|]. split; [low_side|]. exact (pgamma_low F). Qed.
