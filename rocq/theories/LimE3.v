(** Boundary parameters (C54): gamma-type, beta, inverse Gaussian and Poisson families. *)
From Coq Require Import Reals ZArith QArith Bool Lra Lia.
From Coquelicot Require Import Coquelicot.
From Verif Require Import Num Sanity ER ERTac Prob Dens Quant Spec SpecER ClosedElem RealElem
  LogForm Support Elem Norm NormR SpecSF FamR FamG FamB Discrete SpecLim LawR LimR LimR2 LimR3 LimR4 LimR5 LimE LimE2 GammaFn BetaFn.
Local Open Scope R_scope.

Section S.
Variable S : SF.
Notation NS := (ER_Num S).
Notation eps := (sf_eps S).
Ltac zpos := generalize right_pos; apply filter_imp; intros ? ?.
Ltac upos := exists 0; intros ? ?.
Ltac lv := cbn [bound]; unfold pgamma, pgamma_limit_vals, dgamma, dgamma_limit_vals, pchisq, dchisq, pinvgamma, pinvgamma_limit_vals, pinvgamma_compute,
  pgamma, pgamma_limit_vals, dinvgamma, dinvgamma_limit_vals, pbeta, pbeta_limit_vals, dbeta, dbeta_limit_vals,
  pinvgauss, pinvgauss_limit_vals, dinvgauss, dinvgauss_limit_vals, ppois, dpois; un_cls; er_arith; rdecide; try reflexivity.

(** ** gamma *)
Lemma pgamma_shape x th : incgamma_spec S -> 0 < eps -> eps <= x -> eps <= th ->
  extends Zero (fun k => pgamma (N:=NS) (Fin x) k (Fin th) false) /\ extends Up (fun k => pgamma (N:=NS) (Fin x) k (Fin th) false).
Proof.
  intros HI He Hx Ht. assert (0 < x / th) by (apply Rdiv_lt_0_compat; lra). split.
  - apply (ext_fin Zero _ (fun k => gamma_cdf k th x) 1); [lv| |now apply PG_a_0].
    zpos. rewrite pgamma_val by (auto; lra). reflexivity.
  - apply (ext_fin Up _ (fun k => gamma_cdf k th x) 0); [lv| |now apply PG_a_inf].
    upos. rewrite pgamma_val by (auto; lra). reflexivity.
Qed.
Lemma pgamma_scale x k : incgamma_spec S -> 0 < eps -> eps <= x -> 0 < k -> extends Up (fun th => pgamma (N:=NS) (Fin x) (Fin k) th false).
Proof.
  intros HI He Hx Hk. apply (ext_fin Up _ (fun th => gamma_cdf k th x) 0); [lv| |now apply gamma_cdf_thinf].
  exists eps. intros th Ht. rewrite pgamma_val by (auto; lra). reflexivity.
Qed.
Lemma dgamma_shape x th : lgamma_spec S -> 0 < eps -> 0 < x -> eps <= th ->
  extends Zero (fun k => dgamma (N:=NS) (Fin x) k (Fin th) false) /\ extends Up (fun k => dgamma (N:=NS) (Fin x) k (Fin th) false).
Proof.
  intros HL He Hx Ht. split.
  - apply (ext_fin Zero _ (fun k => gamma_pdf k th x) 0); [lv| |apply gamma_pdf_k0; lra].
    zpos. rewrite dgamma_val by (auto; lra). reflexivity.
  - apply (ext_fin Up _ (fun k => gamma_pdf k th x) 0); [lv| |apply gamma_pdf_kinf; lra].
    upos. rewrite dgamma_val by (auto; lra). reflexivity.
Qed.
Lemma dgamma_scale x k : lgamma_spec S -> 0 < eps -> 0 < x -> 0 < k -> extends Up (fun th => dgamma (N:=NS) (Fin x) (Fin k) th false).
Proof.
  intros HI He Hx Hk. apply (ext_fin Up _ (fun th => gamma_pdf k th x) 0); [lv| |now apply gamma_pdf_thinf].
  exists eps. intros th Ht. rewrite dgamma_val by (auto; lra). reflexivity.
Qed.
(** ** chi-squared *)
Lemma pchisq_dof x : incgamma_spec S -> 0 < eps -> eps <= x ->
  extends Zero (fun n => pchisq (N:=NS) (Fin x) n false) /\ extends Up (fun n => pchisq (N:=NS) (Fin x) n false).
Proof.
  intros HI He Hx. split.
  - apply (ext_fin Zero _ (fun n => chisq_cdf n x) 1); [lv| |apply chisq_cdf_0; lra].
    zpos. rewrite pchisq_val by (auto; lra). reflexivity.
  - apply (ext_fin Up _ (fun n => chisq_cdf n x) 0); [lv| |apply chisq_cdf_inf; lra].
    upos. rewrite pchisq_val by (auto; lra). reflexivity.
Qed.
(** at 0 degrees of freedom the density is computed from [lgamma(0)] *)
Lemma dchisq_dof x : lgamma_spec S -> 0 < x ->
  (sf_lgamma S (Fin 0) = PInf -> extends Zero (fun n => dchisq (N:=NS) (Fin x) n false)) /\ extends Up (fun n => dchisq (N:=NS) (Fin x) n false).
Proof.
  intros HL Hx. split.
  - intros H0. apply (ext_fin Zero _ (fun n => chisq_pdf n x) 0); [|zpos; rewrite dchisq_val by (auto; lra); reflexivity|now apply chisq_pdf_0].
    lv. unfold dchisq_compute. un_cls. er_arith. rewrite Rmult_0_r, H0. cbn [eneg]. er_arith. reflexivity.
  - apply (ext_fin Up _ (fun n => chisq_pdf n x) 0); [lv| |now apply chisq_pdf_inf].
    upos. rewrite dchisq_val by (auto; lra). reflexivity.
Qed.
(** ** inverse gamma *)
Lemma pinvgamma_shape x b : incgamma_spec S -> 0 < eps -> 0 < b <= / eps -> 0 < x <= / eps ->
  extends Zero (fun a => pinvgamma (N:=NS) (Fin x) a (Fin b) false) /\ extends Up (fun a => pinvgamma (N:=NS) (Fin x) a (Fin b) false).
Proof.
  intros HI He Hb Hx.
  assert (A : eps <= 1 / b) by (unfold Rdiv; rewrite Rmult_1_l; rewrite <- (Rinv_inv eps); apply Rinv_le_contravar; lra).
  assert (B : eps <= 1 / x) by (unfold Rdiv; rewrite Rmult_1_l; rewrite <- (Rinv_inv eps); apply Rinv_le_contravar; lra).
  split.
  - apply (ext_fin Zero _ (fun a => invgamma_cdf a b x) 0); [lv; cbn [eltb]; rdecide; cbn; f_equal; lra| |apply invgamma_cdf_a0; lra].
    zpos. rewrite pinvgamma_val by (auto; lra). reflexivity.
  - apply (ext_fin Up _ (fun a => invgamma_cdf a b x) 1); [lv; cbn [eltb]; rdecide; cbn; f_equal; lra| |apply invgamma_cdf_ainf; lra].
    upos. rewrite pinvgamma_val by (auto; lra). reflexivity.
Qed.
Lemma pinvgamma_rate x a : incgamma_spec S -> 0 < eps -> 0 < a -> 0 < x <= / eps ->
  extends Zero (fun b => pinvgamma (N:=NS) (Fin x) (Fin a) b false).
Proof.
  intros HI He Ha Hx.
  assert (B : eps <= 1 / x) by (unfold Rdiv; rewrite Rmult_1_l; rewrite <- (Rinv_inv eps); apply Rinv_le_contravar; lra).
  apply (ext_fin Zero _ (fun b => invgamma_cdf a b x) 1); [lv; cbn [eltb]; rdecide; cbn; f_equal; lra| |apply invgamma_cdf_b0; lra].
  generalize (right_lt (/ eps) (Rinv_0_lt_compat _ He)). apply filter_imp. intros b Hb. rewrite pinvgamma_val by (auto; lra). reflexivity.
Qed.
Lemma dinvgamma_shape x b : lgamma_spec S -> 0 < x -> 0 < b ->
  tends Zero (fun a => dinvgamma (N:=NS) (Fin x) (Fin a) (Fin b) false) (Fin 0) /\
  dinvgamma (N:=NS) (Fin x) (Fin 0) (Fin b) false = PInf /\
  extends Up (fun a => dinvgamma (N:=NS) (Fin x) a (Fin b) false).
Proof.
  intros HL Hx Hb. repeat split.
  - apply (tends_fin Zero _ (fun a => invgamma_pdf a b x)); [|apply invgamma_pdf_a0; lra].
    zpos. rewrite dinvgamma_val by (auto; lra). reflexivity.
  - lv.
  - apply (ext_fin Up _ (fun a => invgamma_pdf a b x) 0); [lv| |apply invgamma_pdf_ainf; lra].
    upos. rewrite dinvgamma_val by (auto; lra). reflexivity.
Qed.
Lemma dinvgamma_rate x a : lgamma_spec S -> 0 < x -> 0 < a ->
  extends Zero (fun b => dinvgamma (N:=NS) (Fin x) (Fin a) b false) /\ extends Up (fun b => dinvgamma (N:=NS) (Fin x) (Fin a) b false).
Proof.
  intros HL Hx Ha. split.
  - apply (ext_fin Zero _ (fun b => invgamma_pdf a b x) 0); [lv| |apply invgamma_pdf_b0; lra].
    zpos. rewrite dinvgamma_val by (auto; lra). reflexivity.
  - apply (ext_fin Up _ (fun b => invgamma_pdf a b x) 0); [lv| |apply invgamma_pdf_binf; lra].
    upos. rewrite dinvgamma_val by (auto; lra). reflexivity.
Qed.
(** ** beta *)
Lemma pbeta_params x a b : incbeta_spec S -> 0 < x < 1 -> 0 < a -> 0 < b ->
  extends Zero (fun a => pbeta (N:=NS) (Fin x) a (Fin b) false) /\ extends Up (fun a => pbeta (N:=NS) (Fin x) a (Fin b) false) /\
  extends Zero (fun b => pbeta (N:=NS) (Fin x) (Fin a) b false) /\ extends Up (fun b => pbeta (N:=NS) (Fin x) (Fin a) b false).
Proof.
  intros HI Hx Ha Hb. repeat split.
  - apply (ext_fin Zero _ (fun a => IB a b x) 1); [lv| |now apply IB_a_0]. zpos. rewrite pbeta_val by auto. reflexivity.
  - apply (ext_fin Up _ (fun a => IB a b x) 0); [lv| |now apply IB_a_inf]. upos. rewrite pbeta_val by auto. reflexivity.
  - apply (ext_fin Zero _ (fun b => IB a b x) 0); [lv| |now apply IB_b_0]. zpos. rewrite pbeta_val by auto. reflexivity.
  - apply (ext_fin Up _ (fun b => IB a b x) 1); [lv| |now apply IB_b_inf]. upos. rewrite pbeta_val by auto. reflexivity.
Qed.
Lemma pbeta_diag x : incbeta_spec S -> 0 < x < 1 ->
  extends Zero (fun a => pbeta (N:=NS) (Fin x) a a false) /\ (x <> / 2 -> extends Up (fun a => pbeta (N:=NS) (Fin x) a a false)).
Proof.
  intros HI Hx. split; [|intros D; destruct (Rlt_le_dec x (/ 2))].
  - apply (ext_fin Zero _ (fun a => IB a a x) (1 / 2)); [lv; cbn; f_equal; lra| |now apply IB_diag_0]. zpos. rewrite pbeta_val by auto. reflexivity.
  - apply (ext_fin Up _ (fun a => IB a a x) 0); [lv| |now apply IB_diag_inf_lo]. upos. rewrite pbeta_val by auto. reflexivity.
  - apply (ext_fin Up _ (fun a => IB a a x) 1); [lv| |apply IB_diag_inf_hi; lra]. upos. rewrite pbeta_val by auto. reflexivity.
Qed.
(** both parameters infinite: a point mass at one half *)
Lemma pbeta_point x : 0 < x < 1 -> pbeta (N:=NS) (Fin x) PInf PInf false = Fin (if Rlt_dec x (/ 2) then 0 else 1).
Proof. intros Hx. destruct Rlt_dec; lv. Qed.
Lemma dbeta_params x a b : lgamma_spec S -> 0 < x < 1 -> 0 < a -> 0 < b ->
  extends Zero (fun a => dbeta (N:=NS) (Fin x) a (Fin b) false) /\ extends Up (fun a => dbeta (N:=NS) (Fin x) a (Fin b) false) /\
  extends Zero (fun b => dbeta (N:=NS) (Fin x) (Fin a) b false) /\ extends Up (fun b => dbeta (N:=NS) (Fin x) (Fin a) b false).
Proof.
  intros HI Hx Ha Hb. repeat split.
  - apply (ext_fin Zero _ (fun a => beta_pdf a b x) 0); [lv| |now apply beta_pdf_a0]. zpos. rewrite dbeta_val by auto. reflexivity.
  - apply (ext_fin Up _ (fun a => beta_pdf a b x) 0); [lv| |now apply beta_pdf_ainf]. upos. rewrite dbeta_val by auto. reflexivity.
  - apply (ext_fin Zero _ (fun b => beta_pdf a b x) 0); [lv| |now apply beta_pdf_b0]. zpos. rewrite dbeta_val by auto. reflexivity.
  - apply (ext_fin Up _ (fun b => beta_pdf a b x) 0); [lv| |now apply beta_pdf_binf]. upos. rewrite dbeta_val by auto. reflexivity.
Qed.
Lemma dbeta_diag x : lgamma_spec S -> 0 < x < 1 ->
  extends Zero (fun a => dbeta (N:=NS) (Fin x) a a false) /\ extends Up (fun a => dbeta (N:=NS) (Fin x) a a false).
Proof.
  intros HI Hx. split; [|destruct (Req_EM_T x (/ 2)) as [->|D]].
  - apply (ext_fin Zero _ (fun a => beta_pdf a a x) 0); [lv| |now apply beta_pdf_diag_0]. zpos. rewrite dbeta_val by auto. reflexivity.
  - apply (ext_pinf Up _ (fun a => beta_pdf a a (/ 2))); [lv| |apply beta_pdf_diag_half]. upos. rewrite dbeta_val by auto. reflexivity.
  - apply (ext_fin Up _ (fun a => beta_pdf a a x) 0); [lv| |now apply beta_pdf_diag_inf]. upos. rewrite dbeta_val by auto. reflexivity.
Qed.
(** ** inverse Gaussian *)
Lemma pinvgauss_lambda x mu : erf_spec S -> 0 < x -> 0 < mu ->
  extends Zero (fun l => pinvgauss (N:=NS) (Fin x) (Fin mu) l false) /\
  (x <> mu -> extends Up (fun l => pinvgauss (N:=NS) (Fin x) (Fin mu) l false)).
Proof.
  intros HE Hx Hm. split; [|intros D; destruct (Rlt_le_dec x mu)].
  - apply (ext_fin Zero _ (fun l => invgauss_cdf mu l x) 1); [lv| |now apply ig_cdf_l0]. zpos. rewrite pinvgauss_val by auto. reflexivity.
  - apply (ext_fin Up _ (fun l => invgauss_cdf mu l x) 0); [lv| |now apply ig_cdf_linf_lo]. upos. rewrite pinvgauss_val by auto. reflexivity.
  - apply (ext_fin Up _ (fun l => invgauss_cdf mu l x) 1); [lv| |apply ig_cdf_linf_hi; lra]. upos. rewrite pinvgauss_val by auto. reflexivity.
Qed.
Lemma pinvgauss_mu x l : erf_spec S -> 0 < x -> 0 < l -> extends Zero (fun mu => pinvgauss (N:=NS) (Fin x) mu (Fin l) false).
Proof.
  intros HE Hx Hl. apply (ext_fin Zero _ (fun mu => invgauss_cdf mu l x) 1); [lv| |now apply ig_cdf_m0]. zpos. rewrite pinvgauss_val by auto. reflexivity.
Qed.
Lemma pinvgauss_mu_inf x l : erf_spec S -> 0 < x -> 0 < l ->
  tends Up (fun mu => pinvgauss (N:=NS) (Fin x) (Fin mu) (Fin l) false) (Fin (2 * norm_cdf 0 1 (- R_sqrt.sqrt (l / x)))) /\
  0 < 2 * norm_cdf 0 1 (- R_sqrt.sqrt (l / x)) /\ pinvgauss (N:=NS) (Fin x) PInf (Fin l) false = Fin 0.
Proof.
  intros HE Hx Hl. repeat split.
  - apply (tends_fin Up _ (fun mu => invgauss_cdf mu l x)); [|now apply ig_cdf_minf]. upos. rewrite pinvgauss_val by auto. reflexivity.
  - pose proof (norm_cdf_range 0 1 (- R_sqrt.sqrt (l / x))). lra.
  - lv.
Qed.
Lemma dinvgauss_lambda x mu : 0 < x -> 0 < mu ->
  extends Zero (fun l => dinvgauss (N:=NS) (Fin x) (Fin mu) l false) /\ extends Up (fun l => dinvgauss (N:=NS) (Fin x) (Fin mu) l false).
Proof.
  intros Hx Hm. split; [|destruct (Req_EM_T x mu) as [->|D]].
  - apply (ext_fin Zero _ (fun l => invgauss_pdf mu l x) 0); [lv| |now apply ig_pdf_l0]. zpos. rewrite dinvgauss_val by auto. reflexivity.
  - apply (ext_pinf Up _ (fun l => invgauss_pdf mu l mu)); [lv| |now apply ig_pdf_linf_mid]. upos. rewrite dinvgauss_val by auto. reflexivity.
  - apply (ext_fin Up _ (fun l => invgauss_pdf mu l x) 0); [lv| |now apply ig_pdf_linf]. upos. rewrite dinvgauss_val by auto. reflexivity.
Qed.
Lemma dinvgauss_mu_inf x l : 0 < x -> 0 < l ->
  exists v, 0 < v /\ tends Up (fun mu => dinvgauss (N:=NS) (Fin x) (Fin mu) (Fin l) false) (Fin v) /\
  dinvgauss (N:=NS) (Fin x) PInf (Fin l) false = Fin 0.
Proof.
  intros Hx Hl. exists (R_sqrt.sqrt (l * / (2 * Rtrigo1.PI * x ^ 3)) * Rtrigo_def.exp (- (l / (2 * x)))). repeat split.
  - apply Rmult_lt_0_compat; [|apply exp_pos]. apply sqrt_lt_R0. pose proof (c_pos' x Hx). nra.
  - apply (tends_fin Up _ (fun mu => invgauss_pdf mu l x)); [|now apply ig_pdf_minf]. upos. rewrite dinvgauss_val by auto. reflexivity.
  - lv.
Qed.
(** ** Poisson *)
Lemma dpois_rate k : lgamma_int_ok S -> extends Zero (fun r => dpois (N:=NS) (Z.of_nat k) r false) /\ extends Up (fun r => dpois (N:=NS) (Z.of_nat k) r false).
Proof.
  intros HL. split.
  - apply (ext_fin Zero _ (fun r => pois_pmf r k) (pois_pmf 0 k)); [| |apply pois_pmf_r0].
    + cbn [bound]. rewrite dpois_val by (auto; lra). reflexivity.
    + zpos. rewrite dpois_val by (auto; lra). reflexivity.
  - apply (ext_fin Up _ (fun r => pois_pmf r k) 0); [| |apply pois_pmf_rinf].
    + cbn [bound]. unfold dpois. un_cls. er_arith. rewrite (proj2 (Z.ltb_ge _ 0)) by lia. er_arith. rdecide. reflexivity.
    + upos. rewrite dpois_val by (auto; lra). reflexivity.
Qed.
Lemma ppois_rate k : incgamma_int_ok S -> extends Zero (fun r => ppois (N:=NS) (Z.of_nat k) r false) /\ extends Up (fun r => ppois (N:=NS) (Z.of_nat k) r false).
Proof.
  intros HL. split.
  - apply (ext_fin Zero _ (fun r => sum_f_R0 (pois_pmf r) k) (sum_f_R0 (pois_pmf 0) k)); [| |apply pois_cdf_r0].
    + cbn [bound]. rewrite ppois_val by (auto; lra). reflexivity.
    + zpos. rewrite ppois_val by (auto; lra). reflexivity.
  - apply (ext_fin Up _ (fun r => sum_f_R0 (pois_pmf r) k) 0); [| |apply pois_cdf_rinf].
    + cbn [bound]. unfold ppois. un_cls. er_arith. rewrite (proj2 (Z.ltb_ge _ 0)) by lia. er_arith. rdecide. reflexivity.
    + upos. rewrite ppois_val by (auto; lra). reflexivity.
Qed.
End S.
