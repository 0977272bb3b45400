(** The project's test suite holds of the model: by computation, with an abstract backend (patched
    to its limits, TestsPatch.v) or with the executable one. *)
From Coq Require Import ZArith QArith Bool List.
From Verif Require Import Num B64 SpecTests TestsPatch TestsSuite B64Exec.
From Flocq Require Import IEEE754.BinarySingleNaN.

Ltac lim := intros F H; rewrite <- (patch_id F H); apply all_pass_b; vm_compute; reflexivity.
Lemma all_pass_app a b : all_pass a -> all_pass b -> all_pass (a ++ b).
Proof. apply Forall_app_2 || (intros; apply Forall_app; split; assumption). Qed.
Lemma all_pass_nil : all_pass nil.
Proof. constructor. Qed.
Lemma limit_dbern_ok : forall F, limits F -> all_pass (limit_dbern F).
Proof. lim. Qed.
Lemma limit_dbeta_ok : forall F, limits F -> all_pass (limit_dbeta F).
Proof. lim. Qed.
Lemma limit_dbinom_ok : forall F, limits F -> all_pass (limit_dbinom F).
Proof. lim. Qed.
Lemma limit_dcauchy_ok : forall F, limits F -> all_pass (limit_dcauchy F).
Proof. lim. Qed.
Lemma limit_dchisq_ok : forall F, limits F -> all_pass (limit_dchisq F).
Proof. lim. Qed.
Lemma limit_dexp_ok : forall F, limits F -> all_pass (limit_dexp F).
Proof. lim. Qed.
Lemma limit_df_ok : forall F, limits F -> all_pass (limit_df F).
Proof. lim. Qed.
Lemma limit_dgamma_ok : forall F, limits F -> all_pass (limit_dgamma F).
Proof. lim. Qed.
Lemma limit_pgamma_ok : forall F, limits F -> all_pass (limit_pgamma F).
Proof. lim. Qed.
Lemma limit_dinvgamma_ok : forall F, limits F -> all_pass (limit_dinvgamma F).
Proof. lim. Qed.
Lemma limit_dinvgauss_ok : forall F, limits F -> all_pass (limit_dinvgauss F).
Proof. lim. Qed.
Lemma limit_dlaplace_ok : forall F, limits F -> all_pass (limit_dlaplace F).
Proof. lim. Qed.
Lemma limit_dlnorm_ok : forall F, limits F -> all_pass (limit_dlnorm F).
Proof. lim. Qed.
Lemma limit_dlogis_ok : forall F, limits F -> all_pass (limit_dlogis F).
Proof. lim. Qed.
Lemma limit_dnorm_ok : forall F, limits F -> all_pass (limit_dnorm F).
Proof. lim. Qed.
Lemma limit_dpois_ok : forall F, limits F -> all_pass (limit_dpois F).
Proof. lim. Qed.
Lemma limit_dradem_ok : forall F, limits F -> all_pass (limit_dradem F).
Proof. lim. Qed.
Lemma limit_dt_ok : forall F, limits F -> all_pass (limit_dt F).
Proof. lim. Qed.
Lemma limit_dunif_ok : forall F, limits F -> all_pass (limit_dunif F).
Proof. lim. Qed.
Lemma limit_dweibull_ok : forall F, limits F -> all_pass (limit_dweibull F).
Proof. lim. Qed.
Lemma limit_pbern_ok : forall F, limits F -> all_pass (limit_pbern F).
Proof. lim. Qed.
Lemma limit_pbeta_ok : forall F, limits F -> all_pass (limit_pbeta F).
Proof. lim. Qed.
Lemma limit_pbinom_ok : forall F, limits F -> all_pass (limit_pbinom F).
Proof. lim. Qed.
Lemma limit_pcauchy_ok : forall F, limits F -> all_pass (limit_pcauchy F).
Proof. lim. Qed.
Lemma limit_pchisq_ok : forall F, limits F -> all_pass (limit_pchisq F).
Proof. lim. Qed.
Lemma limit_pexp_ok : forall F, limits F -> all_pass (limit_pexp F).
Proof. lim. Qed.
Lemma limit_pf_ok : forall F, limits F -> all_pass (limit_pf F).
Proof. lim. Qed.
Lemma limit_pinvgamma_ok : forall F, limits F -> all_pass (limit_pinvgamma F).
Proof. lim. Qed.
Lemma limit_pinvgauss_ok : forall F, limits F -> all_pass (limit_pinvgauss F).
Proof. lim. Qed.
Lemma limit_plaplace_ok : forall F, limits F -> all_pass (limit_plaplace F).
Proof. lim. Qed.
Lemma limit_plnorm_ok : forall F, limits F -> all_pass (limit_plnorm F).
Proof. lim. Qed.
Lemma limit_plogis_ok : forall F, limits F -> all_pass (limit_plogis F).
Proof. lim. Qed.
Lemma limit_pnorm_ok : forall F, limits F -> all_pass (limit_pnorm F).
Proof. lim. Qed.
Lemma limit_ppois_ok : forall F, limits F -> all_pass (limit_ppois F).
Proof. lim. Qed.
Lemma limit_pradem_ok : forall F, limits F -> all_pass (limit_pradem F).
Proof. lim. Qed.
Lemma limit_pt_ok : forall F, limits F -> all_pass (limit_pt F).
Proof. lim. Qed.
Lemma limit_punif_ok : forall F, limits F -> all_pass (limit_punif F).
Proof. lim. Qed.
Lemma limit_pweibull_ok : forall F, limits F -> all_pass (limit_pweibull F).
Proof. lim. Qed.
Lemma limit_qbern_ok : forall F, limits F -> all_pass (limit_qbern F).
Proof. lim. Qed.
Lemma limit_qbeta_ok : forall F, limits F -> all_pass (limit_qbeta F).
Proof. lim. Qed.
Lemma limit_qbinom_ok : forall F, limits F -> all_pass (limit_qbinom F).
Proof. lim. Qed.
Lemma limit_qcauchy_ok : forall F, limits F -> all_pass (limit_qcauchy F).
Proof. lim. Qed.
Lemma limit_qchisq_ok : forall F, limits F -> all_pass (limit_qchisq F).
Proof. lim. Qed.
Lemma limit_qexp_ok : forall F, limits F -> all_pass (limit_qexp F).
Proof. lim. Qed.
Lemma limit_qf_ok : forall F, limits F -> all_pass (limit_qf F).
Proof. lim. Qed.
Lemma limit_qgamma_ok : forall F, limits F -> all_pass (limit_qgamma F).
Proof. lim. Qed.
Lemma limit_qinvgamma_ok : forall F, limits F -> all_pass (limit_qinvgamma F).
Proof. lim. Qed.
Lemma limit_qinvgauss_ok : forall F, limits F -> all_pass (limit_qinvgauss F).
Proof. lim. Qed.
Lemma limit_qlaplace_ok : forall F, limits F -> all_pass (limit_qlaplace F).
Proof. lim. Qed.
Lemma limit_qlnorm_ok : forall F, limits F -> all_pass (limit_qlnorm F).
Proof. lim. Qed.
Lemma limit_qlogis_ok : forall F, limits F -> all_pass (limit_qlogis F).
Proof. lim. Qed.
Lemma limit_qnorm_ok : forall F, limits F -> all_pass (limit_qnorm F).
Proof. lim. Qed.
Lemma limit_qpois_ok : forall F, limits F -> all_pass (limit_qpois F).
Proof. lim. Qed.
Lemma limit_qradem_ok : forall F, limits F -> all_pass (limit_qradem F).
Proof. lim. Qed.
Lemma limit_qt_ok : forall F, limits F -> all_pass (limit_qt F).
Proof. lim. Qed.
Lemma limit_qunif_ok : forall F, limits F -> all_pass (limit_qunif F).
Proof. lim. Qed.
Lemma limit_qweibull_ok : forall F, limits F -> all_pass (limit_qweibull F).
Proof. lim. Qed.
Lemma value_dbern_ok : all_pass (value_dbern TFX).
Proof. apply all_pass_b. vm_cast_no_check (eq_refl true). Qed.
Lemma value_dbeta_ok : all_pass (value_dbeta TFX).
Proof. apply all_pass_b. vm_cast_no_check (eq_refl true). Qed.
Lemma value_dbinom_ok : all_pass (value_dbinom TFX).
Proof. apply all_pass_b. vm_cast_no_check (eq_refl true). Qed.
Lemma value_dcauchy_ok : all_pass (value_dcauchy TFX).
Proof. apply all_pass_b. vm_cast_no_check (eq_refl true). Qed.
Lemma value_dchisq_ok : all_pass (value_dchisq TFX).
Proof. apply all_pass_b. vm_cast_no_check (eq_refl true). Qed.
Lemma value_dexp_ok : all_pass (value_dexp TFX).
Proof. apply all_pass_b. vm_cast_no_check (eq_refl true). Qed.
Lemma value_df_ok : all_pass (value_df TFX).
Proof. apply all_pass_b. vm_cast_no_check (eq_refl true). Qed.
Lemma value_dgamma_ok : all_pass (value_dgamma TFX).
Proof. apply all_pass_b. vm_cast_no_check (eq_refl true). Qed.
Lemma value_pgamma_ok : all_pass (value_pgamma TFX).
Proof. apply all_pass_b. vm_cast_no_check (eq_refl true). Qed.
Lemma value_dinvgamma_ok : all_pass (value_dinvgamma TFX).
Proof. apply all_pass_b. vm_cast_no_check (eq_refl true). Qed.
Lemma value_dinvgauss_ok : all_pass (value_dinvgauss TFX).
Proof. apply all_pass_b. vm_cast_no_check (eq_refl true). Qed.
Lemma value_dlaplace_ok : all_pass (value_dlaplace TFX).
Proof. apply all_pass_b. vm_cast_no_check (eq_refl true). Qed.
Lemma value_dlnorm_ok : all_pass (value_dlnorm TFX).
Proof. apply all_pass_b. vm_cast_no_check (eq_refl true). Qed.
Lemma value_dlogis_ok : all_pass (value_dlogis TFX).
Proof. apply all_pass_b. vm_cast_no_check (eq_refl true). Qed.
Lemma value_dnorm_ok : all_pass (value_dnorm TFX).
Proof. apply all_pass_b. vm_cast_no_check (eq_refl true). Qed.
Lemma value_dpois_ok : all_pass (value_dpois TFX).
Proof. apply all_pass_b. vm_cast_no_check (eq_refl true). Qed.
Lemma value_dradem_ok : all_pass (value_dradem TFX).
Proof. apply all_pass_b. vm_cast_no_check (eq_refl true). Qed.
Lemma value_dt_ok : all_pass (value_dt TFX).
Proof. apply all_pass_b. vm_cast_no_check (eq_refl true). Qed.
Lemma value_dunif_ok : all_pass (value_dunif TFX).
Proof. apply all_pass_b. vm_cast_no_check (eq_refl true). Qed.
Lemma value_dweibull_ok : all_pass (value_dweibull TFX).
Proof. apply all_pass_b. vm_cast_no_check (eq_refl true). Qed.
Lemma value_pbern_ok : all_pass (value_pbern TFX).
Proof. apply all_pass_b. vm_cast_no_check (eq_refl true). Qed.
Lemma value_pbeta_ok : all_pass (value_pbeta TFX).
Proof. apply all_pass_b. vm_cast_no_check (eq_refl true). Qed.
Lemma value_pbinom_ok : all_pass (value_pbinom TFX).
Proof. apply all_pass_b. vm_cast_no_check (eq_refl true). Qed.
Lemma value_pcauchy_ok : all_pass (value_pcauchy TFX).
Proof. apply all_pass_b. vm_cast_no_check (eq_refl true). Qed.
Lemma value_pchisq_ok : all_pass (value_pchisq TFX).
Proof. apply all_pass_b. vm_cast_no_check (eq_refl true). Qed.
Lemma value_pexp_ok : all_pass (value_pexp TFX).
Proof. apply all_pass_b. vm_cast_no_check (eq_refl true). Qed.
Lemma value_pf_ok : all_pass (value_pf TFX).
Proof. apply all_pass_b. vm_cast_no_check (eq_refl true). Qed.
Lemma value_pinvgamma_ok : all_pass (value_pinvgamma TFX).
Proof. apply all_pass_b. vm_cast_no_check (eq_refl true). Qed.
Lemma value_pinvgauss_ok : all_pass (value_pinvgauss TFX).
Proof. apply all_pass_b. vm_cast_no_check (eq_refl true). Qed.
Lemma value_plaplace_ok : all_pass (value_plaplace TFX).
Proof. apply all_pass_b. vm_cast_no_check (eq_refl true). Qed.
Lemma value_plnorm_ok : all_pass (value_plnorm TFX).
Proof. apply all_pass_b. vm_cast_no_check (eq_refl true). Qed.
Lemma value_plogis_ok : all_pass (value_plogis TFX).
Proof. apply all_pass_b. vm_cast_no_check (eq_refl true). Qed.
Lemma value_pnorm_ok : all_pass (value_pnorm TFX).
Proof. apply all_pass_b. vm_cast_no_check (eq_refl true). Qed.
Lemma value_ppois_ok : all_pass (value_ppois TFX).
Proof. apply all_pass_b. vm_cast_no_check (eq_refl true). Qed.
Lemma value_pradem_ok : all_pass (value_pradem TFX).
Proof. apply all_pass_b. vm_cast_no_check (eq_refl true). Qed.
Lemma value_pt_ok : all_pass (value_pt TFX).
Proof. apply all_pass_b. vm_cast_no_check (eq_refl true). Qed.
Lemma value_punif_ok : all_pass (value_punif TFX).
Proof. apply all_pass_b. vm_cast_no_check (eq_refl true). Qed.
Lemma value_pweibull_ok : all_pass (value_pweibull TFX).
Proof. apply all_pass_b. vm_cast_no_check (eq_refl true). Qed.
Lemma value_qbinom_ok : all_pass (value_qbinom TFX).
Proof. apply all_pass_b. vm_cast_no_check (eq_refl true). Qed.
Lemma value_qcauchy_ok : all_pass (value_qcauchy TFX).
Proof. apply all_pass_b. vm_cast_no_check (eq_refl true). Qed.
Lemma value_qexp_ok : all_pass (value_qexp TFX).
Proof. apply all_pass_b. vm_cast_no_check (eq_refl true). Qed.
Lemma value_qlaplace_ok : all_pass (value_qlaplace TFX).
Proof. apply all_pass_b. vm_cast_no_check (eq_refl true). Qed.
Lemma value_qlnorm_ok : all_pass (value_qlnorm TFX).
Proof. apply all_pass_b. vm_cast_no_check (eq_refl true). Qed.
Lemma value_qlogis_ok : all_pass (value_qlogis TFX).
Proof. apply all_pass_b. vm_cast_no_check (eq_refl true). Qed.
Lemma value_qt_ok : all_pass (value_qt TFX).
Proof. apply all_pass_b. vm_cast_no_check (eq_refl true). Qed.
Lemma value_qweibull_ok : all_pass (value_qweibull TFX).
Proof. apply all_pass_b. vm_cast_no_check (eq_refl true). Qed.
Lemma dens_limits_ok : forall F, limits F -> all_pass (dens_limits F).
Proof.
  intros F H. unfold dens_limits. cbn [concat].
  apply all_pass_app; [exact (limit_dbern_ok F H) |].
  apply all_pass_app; [exact (limit_dbeta_ok F H) |].
  apply all_pass_app; [exact (limit_dbinom_ok F H) |].
  apply all_pass_app; [exact (limit_dcauchy_ok F H) |].
  apply all_pass_app; [exact (limit_dchisq_ok F H) |].
  apply all_pass_app; [exact (limit_dexp_ok F H) |].
  apply all_pass_app; [exact (limit_df_ok F H) |].
  apply all_pass_app; [exact (limit_dgamma_ok F H) |].
  apply all_pass_app; [exact (limit_dinvgamma_ok F H) |].
  apply all_pass_app; [exact (limit_dinvgauss_ok F H) |].
  apply all_pass_app; [exact (limit_dlaplace_ok F H) |].
  apply all_pass_app; [exact (limit_dlnorm_ok F H) |].
  apply all_pass_app; [exact (limit_dlogis_ok F H) |].
  apply all_pass_app; [exact (limit_dnorm_ok F H) |].
  apply all_pass_app; [exact (limit_dpois_ok F H) |].
  apply all_pass_app; [exact (limit_dradem_ok F H) |].
  apply all_pass_app; [exact (limit_dt_ok F H) |].
  apply all_pass_app; [exact (limit_dunif_ok F H) |].
  apply all_pass_app; [exact (limit_dweibull_ok F H) |].
  apply all_pass_nil.
Qed.
Lemma dens_values_ok : exists F, limits F /\ all_pass (dens_values F).
Proof.
  exists TFX. split; [exact TFX_limits |]. unfold dens_values. cbn [concat].
  apply all_pass_app; [exact value_dbern_ok |].
  apply all_pass_app; [exact value_dbeta_ok |].
  apply all_pass_app; [exact value_dbinom_ok |].
  apply all_pass_app; [exact value_dcauchy_ok |].
  apply all_pass_app; [exact value_dchisq_ok |].
  apply all_pass_app; [exact value_dexp_ok |].
  apply all_pass_app; [exact value_df_ok |].
  apply all_pass_app; [exact value_dgamma_ok |].
  apply all_pass_app; [exact value_dinvgamma_ok |].
  apply all_pass_app; [exact value_dinvgauss_ok |].
  apply all_pass_app; [exact value_dlaplace_ok |].
  apply all_pass_app; [exact value_dlnorm_ok |].
  apply all_pass_app; [exact value_dlogis_ok |].
  apply all_pass_app; [exact value_dnorm_ok |].
  apply all_pass_app; [exact value_dpois_ok |].
  apply all_pass_app; [exact value_dradem_ok |].
  apply all_pass_app; [exact value_dt_ok |].
  apply all_pass_app; [exact value_dunif_ok |].
  apply all_pass_app; [exact value_dweibull_ok |].
  apply all_pass_nil.
Qed.
Lemma prob_limits_ok : forall F, limits F -> all_pass (prob_limits F).
Proof.
  intros F H. unfold prob_limits. cbn [concat].
  apply all_pass_app; [exact (limit_pgamma_ok F H) |].
  apply all_pass_app; [exact (limit_pbern_ok F H) |].
  apply all_pass_app; [exact (limit_pbeta_ok F H) |].
  apply all_pass_app; [exact (limit_pbinom_ok F H) |].
  apply all_pass_app; [exact (limit_pcauchy_ok F H) |].
  apply all_pass_app; [exact (limit_pchisq_ok F H) |].
  apply all_pass_app; [exact (limit_pexp_ok F H) |].
  apply all_pass_app; [exact (limit_pf_ok F H) |].
  apply all_pass_app; [exact (limit_pinvgamma_ok F H) |].
  apply all_pass_app; [exact (limit_pinvgauss_ok F H) |].
  apply all_pass_app; [exact (limit_plaplace_ok F H) |].
  apply all_pass_app; [exact (limit_plnorm_ok F H) |].
  apply all_pass_app; [exact (limit_plogis_ok F H) |].
  apply all_pass_app; [exact (limit_pnorm_ok F H) |].
  apply all_pass_app; [exact (limit_ppois_ok F H) |].
  apply all_pass_app; [exact (limit_pradem_ok F H) |].
  apply all_pass_app; [exact (limit_pt_ok F H) |].
  apply all_pass_app; [exact (limit_punif_ok F H) |].
  apply all_pass_app; [exact (limit_pweibull_ok F H) |].
  apply all_pass_nil.
Qed.
Lemma prob_values_ok : exists F, limits F /\ all_pass (prob_values F).
Proof.
  exists TFX. split; [exact TFX_limits |]. unfold prob_values. cbn [concat].
  apply all_pass_app; [exact value_pgamma_ok |].
  apply all_pass_app; [exact value_pbern_ok |].
  apply all_pass_app; [exact value_pbeta_ok |].
  apply all_pass_app; [exact value_pbinom_ok |].
  apply all_pass_app; [exact value_pcauchy_ok |].
  apply all_pass_app; [exact value_pchisq_ok |].
  apply all_pass_app; [exact value_pexp_ok |].
  apply all_pass_app; [exact value_pf_ok |].
  apply all_pass_app; [exact value_pinvgamma_ok |].
  apply all_pass_app; [exact value_pinvgauss_ok |].
  apply all_pass_app; [exact value_plaplace_ok |].
  apply all_pass_app; [exact value_plnorm_ok |].
  apply all_pass_app; [exact value_plogis_ok |].
  apply all_pass_app; [exact value_pnorm_ok |].
  apply all_pass_app; [exact value_ppois_ok |].
  apply all_pass_app; [exact value_pradem_ok |].
  apply all_pass_app; [exact value_pt_ok |].
  apply all_pass_app; [exact value_punif_ok |].
  apply all_pass_app; [exact value_pweibull_ok |].
  apply all_pass_nil.
Qed.
Lemma quant_limits_ok : forall F, limits F -> all_pass (quant_limits F).
Proof.
  intros F H. unfold quant_limits. cbn [concat].
  apply all_pass_app; [exact (limit_qbern_ok F H) |].
  apply all_pass_app; [exact (limit_qbeta_ok F H) |].
  apply all_pass_app; [exact (limit_qbinom_ok F H) |].
  apply all_pass_app; [exact (limit_qcauchy_ok F H) |].
  apply all_pass_app; [exact (limit_qchisq_ok F H) |].
  apply all_pass_app; [exact (limit_qexp_ok F H) |].
  apply all_pass_app; [exact (limit_qf_ok F H) |].
  apply all_pass_app; [exact (limit_qgamma_ok F H) |].
  apply all_pass_app; [exact (limit_qinvgamma_ok F H) |].
  apply all_pass_app; [exact (limit_qinvgauss_ok F H) |].
  apply all_pass_app; [exact (limit_qlaplace_ok F H) |].
  apply all_pass_app; [exact (limit_qlnorm_ok F H) |].
  apply all_pass_app; [exact (limit_qlogis_ok F H) |].
  apply all_pass_app; [exact (limit_qnorm_ok F H) |].
  apply all_pass_app; [exact (limit_qpois_ok F H) |].
  apply all_pass_app; [exact (limit_qradem_ok F H) |].
  apply all_pass_app; [exact (limit_qt_ok F H) |].
  apply all_pass_app; [exact (limit_qunif_ok F H) |].
  apply all_pass_app; [exact (limit_qweibull_ok F H) |].
  apply all_pass_nil.
Qed.
Lemma quant_values_ok : exists F, limits F /\ all_pass (quant_values F).
Proof.
  exists TFX. split; [exact TFX_limits |]. unfold quant_values. cbn [concat].
  apply all_pass_app; [exact value_qbinom_ok |].
  apply all_pass_app; [exact value_qcauchy_ok |].
  apply all_pass_app; [exact value_qexp_ok |].
  apply all_pass_app; [exact value_qlaplace_ok |].
  apply all_pass_app; [exact value_qlnorm_ok |].
  apply all_pass_app; [exact value_qlogis_ok |].
  apply all_pass_app; [exact value_qt_ok |].
  apply all_pass_app; [exact value_qweibull_ok |].
  apply all_pass_nil.
Qed.
