(** Limits of the textbook formulas at boundary parameters: gamma-type densities, beta, inverse
    Gaussian, Poisson. *)
From Coq Require Import Reals Lra Lia.
From Coquelicot Require Import Coquelicot.
From Verif Require Import Spec RealElem Analysis PowInt Erf GammaFn BetaFn NormR SpecSF FamR LawR LimR LimR2.
Local Open Scope R_scope.

Lemma half_right : filterlim (fun n => n / 2) (at_right 0) (at_right 0).
Proof.
  intros P [e HP]. exists (pos_div_2 e). intros n Hn Hp. apply HP; [|lra].
  unfold ball in *. cbn in *. unfold AbsRing_ball, abs, minus, plus, opp in *. cbn in *.
  rewrite Ropp_0, Rplus_0_r in *. apply Rabs_def2 in Hn. destruct e as [e He]. cbn in *. apply Rabs_def1; lra.
Qed.
Lemma half_inf : filterlim (fun n => n / 2) (Rbar_locally p_infty) (Rbar_locally p_infty).
Proof. intros P [M HP]. exists (2 * M). intros n Hn. apply HP. lra. Qed.
Lemma lim_mulr0 (F : (R -> Prop) -> Prop) {FF : Filter F} c (g : R -> R) :
  filterlim g F (locally 0) -> filterlim (fun s => g s * c) F (locally 0).
Proof. intros. apply (filterlim_ext (fun s => c * g s)); [intros; ring|]. now apply lim_scal0. Qed.

(** ** gamma-type densities *)
Lemma Rpower_quot x y k : 0 < x -> 0 < y -> Rpower (x / y) k = Rpower x k / Rpower y k.
Proof.
  intros Hx Hy. unfold Rdiv. rewrite <- Rpower_mult_distr by (auto using Rinv_0_lt_compat). f_equal.
  unfold Rpower. rewrite ln_Rinv, <- exp_Ropp by auto. f_equal. ring.
Qed.
Lemma gamma_pdf_u k th x : 0 < th -> 0 < x ->
  gamma_pdf k th x = Rpower (x / th) k / Gam k * (exp (- (x / th)) / x).
Proof.
  intros Ht Hx. unfold gamma_pdf. replace (k - 1) with (k + - (1)) by ring. rewrite Rpower_plus, Rpower_Ropp, Rpower_1 by auto.
  rewrite Rpower_quot by auto. replace (- x / th) with (- (x / th)) by (unfold Rdiv; ring).
  unfold Rdiv. rewrite Rinv_mult. ring.
Qed.
Lemma gamma_pdf_k0 th x : 0 < th -> 0 < x -> filterlim (fun k => gamma_pdf k th x) (at_right 0) (locally 0).
Proof.
  intros Ht Hx. apply (filterlim_ext (fun k => Rpower (x / th) k / Gam k * (exp (- (x / th)) / x))).
  { intros. symmetry. now apply gamma_pdf_u. }
  apply lim_mulr0; [typeclasses eauto|]. now apply pw_Gam_0, Rdiv_lt_0_compat.
Qed.
Lemma gamma_pdf_kinf th x : 0 < th -> 0 < x -> filterlim (fun k => gamma_pdf k th x) (Rbar_locally p_infty) (locally 0).
Proof.
  intros Ht Hx. apply (filterlim_ext (fun k => Rpower (x / th) k / Gam k * (exp (- (x / th)) / x))).
  { intros. symmetry. now apply gamma_pdf_u. }
  apply lim_mulr0; [typeclasses eauto|]. now apply pw_Gam_inf, Rdiv_lt_0_compat.
Qed.
Lemma pw_exp_cont k c : 0 < k -> continuity_pt (fun u => pw u k * exp (- u) * c) 0.
Proof.
  intros Hk. apply continuity_pt_mult; [|apply continuity_pt_const; intros ? ?; auto].
  apply continuity_pt_mult; [apply cont_pt; now apply pw_cont|].
  apply (derive_cont_pt _ _ (- exp (- 0))). auto_derive; auto. ring.
Qed.
Lemma gamma_pdf_thinf k x : 0 < k -> 0 < x -> filterlim (fun th => gamma_pdf k th x) (Rbar_locally p_infty) (locally 0).
Proof.
  intros Hk Hx. apply (lim_eq _ (fun th => pw (x / th) k * exp (- (x / th)) * (/ Gam k / x))).
  { exists 0. intros th Ht. rewrite gamma_pdf_u by auto. rewrite pw_pos by now apply Rdiv_lt_0_compat. unfold Rdiv. ring. }
  replace 0 with (pw 0 k * exp (- 0) * (/ Gam k / x)) by (rewrite pw_0; ring).
  apply (lim_comp _ (fun th => x / th) (fun u => pw u k * exp (- u) * (/ Gam k / x))); [apply div_inf|now apply pw_exp_cont].
Qed.
Lemma chisq_gamma n x : chisq_pdf n x = gamma_pdf (n / 2) 2 x.
Proof. reflexivity. Qed.
Lemma chisq_pdf_0 x : 0 < x -> filterlim (fun n => chisq_pdf n x) (at_right 0) (locally 0).
Proof. intros. apply (filterlim_comp _ _ _ (fun n => n / 2) (fun k => gamma_pdf k 2 x) _ (at_right 0)); [apply half_right|apply gamma_pdf_k0; lra]. Qed.
Lemma chisq_pdf_inf x : 0 < x -> filterlim (fun n => chisq_pdf n x) (Rbar_locally p_infty) (locally 0).
Proof. intros. apply (filterlim_comp _ _ _ (fun n => n / 2) (fun k => gamma_pdf k 2 x) _ (Rbar_locally p_infty)); [apply half_inf|apply gamma_pdf_kinf; lra]. Qed.
Lemma chisq_cdf_0 x : 0 < x -> filterlim (fun n => chisq_cdf n x) (at_right 0) (locally 1).
Proof. intros. apply (filterlim_comp _ _ _ (fun n => n / 2) (fun k => PG k (x / 2)) _ (at_right 0)); [apply half_right|apply PG_a_0; lra]. Qed.
Lemma chisq_cdf_inf x : 0 < x -> filterlim (fun n => chisq_cdf n x) (Rbar_locally p_infty) (locally 0).
Proof. intros. apply (filterlim_comp _ _ _ (fun n => n / 2) (fun k => PG k (x / 2)) _ (Rbar_locally p_infty)); [apply half_inf|apply PG_a_inf; lra]. Qed.
Lemma gamma_cdf_thinf k x : 0 < k -> filterlim (fun th => gamma_cdf k th x) (Rbar_locally p_infty) (locally 0).
Proof.
  intros Hk. unfold gamma_cdf. rewrite <- (PG_0 k).
  apply (lim_comp _ (fun th => x / th) (PG k)); [apply div_inf|now apply PG_cont].
Qed.
Lemma invgamma_pdf_u a b x : 0 < b -> 0 < x ->
  invgamma_pdf a b x = Rpower (b / x) a / Gam a * (exp (- (b / x)) / x).
Proof.
  intros Hb Hx. unfold invgamma_pdf. replace (- a - 1) with (- a + - (1)) by ring. rewrite Rpower_plus, !Rpower_Ropp, Rpower_1 by auto.
  rewrite Rpower_quot by auto. replace (- b / x) with (- (b / x)) by (unfold Rdiv; ring). unfold Rdiv. ring.
Qed.
Lemma invgamma_pdf_a0 b x : 0 < b -> 0 < x -> filterlim (fun a => invgamma_pdf a b x) (at_right 0) (locally 0).
Proof.
  intros Hb Hx. apply (filterlim_ext (fun a => Rpower (b / x) a / Gam a * (exp (- (b / x)) / x))).
  { intros. symmetry. now apply invgamma_pdf_u. }
  apply lim_mulr0; [typeclasses eauto|]. now apply pw_Gam_0, Rdiv_lt_0_compat.
Qed.
Lemma invgamma_pdf_ainf b x : 0 < b -> 0 < x -> filterlim (fun a => invgamma_pdf a b x) (Rbar_locally p_infty) (locally 0).
Proof.
  intros Hb Hx. apply (filterlim_ext (fun a => Rpower (b / x) a / Gam a * (exp (- (b / x)) / x))).
  { intros. symmetry. now apply invgamma_pdf_u. }
  apply lim_mulr0; [typeclasses eauto|]. now apply pw_Gam_inf, Rdiv_lt_0_compat.
Qed.
Lemma divc_right x : 0 < x -> filterlim (fun b => b / x) (at_right 0) (locally 0).
Proof. intros. apply right_cont; [|unfold Rdiv; ring]. apply (derive_cont_pt _ _ (/ x)). auto_derive; auto. ring. Qed.
Lemma divc_inf x : 0 < x -> filterlim (fun b => b / x) (Rbar_locally p_infty) (Rbar_locally p_infty).
Proof.
  intros Hx P [M HP]. exists (M * x). intros b Hb. apply HP. apply (Rmult_lt_reg_r x); auto. unfold Rdiv. rewrite Rmult_assoc, Rinv_l; lra.
Qed.
Lemma invgamma_pdf_b0 a x : 0 < a -> 0 < x -> filterlim (fun b => invgamma_pdf a b x) (at_right 0) (locally 0).
Proof.
  intros Ha Hx. apply (lim_eq _ (fun b => pw (b / x) a * exp (- (b / x)) * (/ Gam a / x))).
  { generalize right_pos. apply filter_imp. intros b Hb. rewrite invgamma_pdf_u by auto. rewrite pw_pos by now apply Rdiv_lt_0_compat. unfold Rdiv. ring. }
  pose proof (divc_right x Hx) as D.
  replace (locally 0) with (locally (pw 0 a * exp (- 0) * (/ Gam a / x))) by (f_equal; rewrite pw_0; ring).
  apply (lim_comp _ (fun b => b / x) (fun u => pw u a * exp (- u) * (/ Gam a / x))); [exact D|now apply pw_exp_cont].
Qed.
Lemma pow_exp_inf a : 0 < a -> filterlim (fun u => Rpower u a * exp (- u)) (Rbar_locally p_infty) (locally 0).
Proof.
  intros Ha. apply (filt_le _ _ (fun u => gam_C (a + 1) / u)); [|apply div_inf].
  exists 0. intros u Hu. split; [left; apply Rmult_lt_0_compat; apply exp_pos|].
  pose proof (pow_exp_bound (a + 1) u ltac:(lra) Hu) as B. rewrite Rpower_plus, Rpower_1 in B by auto.
  apply (Rmult_le_reg_r u); auto. unfold Rdiv. rewrite (Rmult_assoc (gam_C (a + 1))), Rinv_l; lra.
Qed.
Lemma invgamma_pdf_binf a x : 0 < a -> 0 < x -> filterlim (fun b => invgamma_pdf a b x) (Rbar_locally p_infty) (locally 0).
Proof.
  intros Ha Hx. apply (lim_eq _ (fun b => Rpower (b / x) a * exp (- (b / x)) * (/ Gam a / x))).
  { exists 0. intros b Hb. rewrite invgamma_pdf_u by auto. unfold Rdiv. ring. }
  apply lim_mulr0; [typeclasses eauto|].
  apply (filterlim_comp _ _ _ (fun b => b / x) (fun u => Rpower u a * exp (- u)) _ (Rbar_locally p_infty)); [now apply divc_inf|now apply pow_exp_inf].
Qed.
Lemma invgamma_cdf_a0 b x : 0 < b -> 0 < x -> filterlim (fun a => invgamma_cdf a b x) (at_right 0) (locally 0).
Proof. intros. apply (lim_1m _ _ 1); [ring|]. apply PG_a_0. now apply Rdiv_lt_0_compat. Qed.
Lemma invgamma_cdf_ainf b x : 0 < b -> 0 < x -> filterlim (fun a => invgamma_cdf a b x) (Rbar_locally p_infty) (locally 1).
Proof. intros. apply (lim_1m _ _ 0); [ring|]. apply PG_a_inf. now apply Rdiv_lt_0_compat. Qed.
Lemma invgamma_cdf_b0 a x : 0 < a -> 0 < x -> filterlim (fun b => invgamma_cdf a b x) (at_right 0) (locally 1).
Proof.
  intros. apply (lim_1m _ _ 0); [ring|]. replace (locally 0) with (locally (PG a 0)) by (f_equal; apply PG_0).
  apply (lim_comp _ (fun b => b / x) (PG a)); [now apply divc_right|now apply PG_cont].
Qed.

(** ** Poisson *)
Lemma pois_pmf_r0 k : filterlim (fun r => pois_pmf r k) (at_right 0) (locally (pois_pmf 0 k)).
Proof.
  apply right_cont; auto. unfold pois_pmf.
  apply continuity_pt_mult; [|apply continuity_pt_const; intros ? ?; auto].
  apply continuity_pt_mult; [apply derivable_continuous_pt, derivable_pt_pow|].
  apply (derive_cont_pt _ _ (- exp (- 0))). auto_derive; auto. ring.
Qed.
Lemma pois_pmf_rinf k : filterlim (fun r => pois_pmf r k) (Rbar_locally p_infty) (locally 0).
Proof.
  unfold pois_pmf. apply (lim_mulr0 _ (/ INR (fact k))).
  apply (filt_le _ _ (fun u => gam_C (INR k + 1) / u)); [|apply div_inf].
  exists 0. intros u Hu. pose proof (pos_INR k). split; [left; apply Rmult_lt_0_compat; [now apply pow_lt|apply exp_pos]|].
  pose proof (pow_exp_bound (INR k + 1) u ltac:(lra) Hu) as B. rewrite Rpower_plus, Rpower_1, Rpower_pow in B by auto.
  apply (Rmult_le_reg_r u); auto. unfold Rdiv. rewrite (Rmult_assoc (gam_C (INR k + 1))), Rinv_l; lra.
Qed.
Lemma lim_sum (F : (R -> Prop) -> Prop) {FF : Filter F} (f : R -> nat -> R) (l : nat -> R) n :
  (forall k, filterlim (fun r => f r k) F (locally (l k))) ->
  filterlim (fun r => sum_f_R0 (f r) n) F (locally (sum_f_R0 l n)).
Proof.
  intros H. induction n; cbn [sum_f_R0]; [apply H|].
  apply (filterlim_comp_2 (F := F) (G := locally (sum_f_R0 l n)) (H := locally (l (S n)))); [exact IHn|apply H|].
  apply (filterlim_plus (V := R_NormedModule) (sum_f_R0 l n) (l (S n))).
Qed.
Lemma pois_cdf_r0 n : filterlim (fun r => sum_f_R0 (pois_pmf r) n) (at_right 0) (locally (sum_f_R0 (pois_pmf 0) n)).
Proof. apply (lim_sum _ pois_pmf). apply pois_pmf_r0. Qed.
Lemma pois_cdf_rinf n : filterlim (fun r => sum_f_R0 (pois_pmf r) n) (Rbar_locally p_infty) (locally 0).
Proof.
  replace (locally 0) with (locally (sum_f_R0 (fun _ => 0) n)); [apply (lim_sum _ pois_pmf); apply pois_pmf_rinf|].
  f_equal. induction n; cbn; lra.
Qed.
