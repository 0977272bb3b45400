(** Boundary parameters (C54): Student's t and F with infinite degrees of freedom. *)
From Coq Require Import Reals ZArith QArith Bool Lra Lia.
From Coquelicot Require Import Coquelicot.
From Verif Require Import Num Sanity ER ERTac Prob Dens Quant Spec SpecER ClosedElem RealElem
  LogForm Support Elem Norm NormR SpecSF FamR FamG FamB Discrete SpecLim LawR LimR LimR2 LimR3 LimR4 LimR5 LimE LimE2 LimE3 LimR6 LimR7 GammaFn BetaFn.
Local Open Scope R_scope.

Section S.
Variable S : SF.
Notation NS := (ER_Num S).
Notation eps := (sf_eps S).

(** ** t *)
Lemma dt_dof x : lgamma_spec S -> 0 < eps -> extends Up (fun n => dt (N:=NS) (Fin x) n false).
Proof.
  intros HL He. apply (ext_fin Up _ (fun n => t_pdf n x) (norm_pdf 0 1 x)); [| |apply t_pdf_inf].
  - cbn [bound]. unfold dt. change (dnorm (Fin x) (ofZ (Num:=NS) 0) (ofZ (Num:=NS) 1) false) with (dnorm (N:=NS) (Fin x) (Fin 0) (Fin 1) false).
    rewrite dnorm_val by lra. un_cls. er_arith. rdecide. reflexivity.
  - exists eps. intros n Hn. rewrite dt_val by (auto; lra). reflexivity.
Qed.
Lemma pt_dof x : erf_spec S -> incbeta_spec S -> 0 < eps -> extends Up (fun n => pt (N:=NS) (Fin x) n false).
Proof.
  intros HE HI He. apply (ext_fin Up _ (fun n => t_cdf n x) (norm_cdf 0 1 x)); [| |apply t_cdf_inf].
  - cbn [bound]. unfold pt. change (pnorm (Fin x) (ofZ (Num:=NS) 0) (ofZ (Num:=NS) 1) false) with (pnorm (N:=NS) (Fin x) (Fin 0) (Fin 1) false).
    rewrite pnorm_val by (auto; lra). un_cls. er_arith. rdecide. reflexivity.
  - exists eps. intros n Hn. rewrite pt_val by (auto; lra). reflexivity.
Qed.
(** ** F *)
Lemma pf_df2 x d1 : incbeta_spec S -> incgamma_spec S -> 0 < eps -> eps <= d1 -> eps <= x -> eps <= x * d1 ->
  extends Up (fun d2 => pf (N:=NS) (Fin x) (Fin d1) d2 false).
Proof.
  intros HB HG He H1 Hx Hp. apply (ext_fin Up _ (fun d2 => f_cdf d1 d2 x) (gamma_cdf (d1 / 2) (2 / d1) x)); [| |apply f_cdf_d2inf; lra].
  - cbn [bound]. rewrite gamma_chisq_d by lra. unfold pf, pf_limit_vals_dof.
    change (mul (Num:=NS) (Fin x) (Fin d1)) with (Fin (x * d1)). rewrite pchisq_val by (auto; lra). un_cls. er_arith. rdecide. reflexivity.
  - exists eps. intros n Hn. rewrite pf_val by (auto; lra). reflexivity.
Qed.
Lemma pf_df1 x d2 : incbeta_spec S -> incgamma_spec S -> 0 < eps -> eps <= d2 -> eps <= x -> eps <= d2 / x ->
  extends Up (fun d1 => pf (N:=NS) (Fin x) d1 (Fin d2) false).
Proof.
  intros HB HG He H1 Hx Hp. apply (ext_fin Up _ (fun d1 => f_cdf d1 d2 x) (1 - chisq_cdf d2 (d2 / x))); [| |apply f_cdf_d1inf; lra].
  - cbn [bound]. unfold pf, pf_limit_vals_dof.
    assert (E : div (Num:=NS) (Fin d2) (Fin x) = Fin (d2 / x)) by (un_cls; er_arith; reflexivity). rewrite E.
    rewrite pchisq_val by (auto; lra). un_cls. er_arith. rdecide. reflexivity.
  - exists eps. intros n Hn. rewrite pf_val by (auto; lra). reflexivity.
Qed.
Lemma pf_both x : incbeta_spec S -> 0 < eps -> eps <= x -> extends Up (fun d => pf (N:=NS) (Fin x) d d false).
Proof.
  intros HB He Hx.
  assert (V : forall d, eps < d -> pf (N:=NS) (Fin x) (Fin d) (Fin d) false = Fin (f_cdf d d x)).
  { intros d Hd. rewrite pf_val by (auto; lra). reflexivity. }
  destruct (Req_EM_T x 1) as [->|D].
  - apply (ext_fin Up _ (fun d => / 2) (/ 2)); [| |apply filterlim_const].
    + cbn [bound]. unfold pf, pf_limit_vals_dof. un_cls. er_arith. rdecide. unfold log_if. unfold Q2R. cbn. f_equal. lra.
    + exists eps. intros d Hd. rewrite V by lra. f_equal. apply f_cdf_diag1. lra.
  - apply (ext_fin Up _ (fun d => f_cdf d d x) (if Rlt_dec 1 x then 1 else 0)); [| |apply f_cdf_diag; auto; lra].
    + cbn [bound]. unfold pf, pf_limit_vals_dof. destruct (Rlt_dec 1 x); un_cls; er_arith; rdecide; try reflexivity.
    + exists eps. auto.
Qed.
Lemma df_df2 x d1 : lgamma_spec S -> 0 < eps -> eps <= d1 -> eps <= 2 / d1 -> 0 < x ->
  extends Up (fun d2 => df (N:=NS) (Fin x) (Fin d1) d2 false).
Proof.
  intros HL He H1 H2 Hx. apply (ext_fin Up _ (fun d2 => f_pdf d1 d2 x) (gamma_pdf (d1 / 2) (2 / d1) x)); [| |apply f_pdf_d2inf; lra].
  - cbn [bound]. unfold df, df_limit_vals_dof.
    assert (E : div (Num:=NS) (Fin d1) (ofZ (Num:=NS) 2) = Fin (d1 / 2)) by (un_cls; er_arith; reflexivity). rewrite E.
    assert (E2 : div (Num:=NS) (ofZ (Num:=NS) 2) (Fin d1) = Fin (2 / d1)) by (un_cls; er_arith; reflexivity). rewrite E2.
    rewrite dgamma_val by (auto; lra). un_cls. er_arith. rdecide. reflexivity.
  - exists eps. intros n Hn. rewrite df_val by (auto; lra). reflexivity.
Qed.
Lemma df_df1 x d2 : lgamma_spec S -> 0 < eps -> eps <= d2 -> 0 < x ->
  extends Up (fun d1 => df (N:=NS) (Fin x) d1 (Fin d2) false).
Proof.
  intros HL He H1 Hx. apply (ext_fin Up _ (fun d1 => f_pdf d1 d2 x) (invgamma_pdf (d2 / 2) (d2 / 2) x)); [| |apply f_pdf_d1inf; lra].
  - cbn [bound]. unfold df, df_limit_vals_dof.
    assert (E : div (Num:=NS) (Fin d2) (ofZ (Num:=NS) 2) = Fin (d2 / 2)) by (un_cls; er_arith; reflexivity). rewrite E.
    rewrite dinvgamma_val by (auto; lra). un_cls. er_arith. rdecide. reflexivity.
  - exists eps. intros n Hn. rewrite df_val by (auto; lra). reflexivity.
Qed.
Lemma df_both x : lgamma_spec S -> 0 < eps -> 0 < x -> extends Up (fun d => df (N:=NS) (Fin x) d d false).
Proof.
  intros HL He Hx. destruct (Req_EM_T x 1) as [->|D].
  - apply (ext_pinf Up _ (fun d => f_pdf d d 1)); [| |apply f_pdf_diag1].
    + cbn [bound]. unfold df, df_limit_vals_dof. un_cls. er_arith. rdecide. reflexivity.
    + exists eps. intros d Hd. rewrite df_val by (auto; lra). reflexivity.
  - apply (ext_fin Up _ (fun d => f_pdf d d x) 0); [| |apply f_pdf_diag; auto].
    + cbn [bound]. unfold df, df_limit_vals_dof. un_cls. er_arith. rdecide. reflexivity.
    + exists eps. intros d Hd. rewrite df_val by (auto; lra). reflexivity.
Qed.
(** ** inverse Gaussian, vanishing mean *)
Lemma dinvgauss_mu x l : 0 < x -> 0 < l -> extends Zero (fun mu => dinvgauss (N:=NS) (Fin x) mu (Fin l) false).
Proof.
  intros Hx Hl. apply (ext_fin Zero _ (fun mu => invgauss_pdf mu l x) 0); [| |now apply ig_pdf_m0].
  - cbn [bound]. unfold dinvgauss, dinvgauss_log_compute, dinvgauss_term_1, dinvgauss_term_2. un_cls. er_arith. rdecide.
    assert (E : ediv (Fin (- l * ((x - 0) * (x - 0)))) (Fin (2 * 0 * 0 * x)) = MInf).
    { replace (2 * 0 * 0 * x) with 0 by ring. assert (0 < (x - 0) * (x - 0)) by nra. assert (- l * ((x - 0) * (x - 0)) < 0) by nra.
      cbn [ediv]. unfold scale_inf. repeat (destruct (Req_EM_T _ _) || destruct (Rlt_dec _ _); try lra); reflexivity. }
    rewrite E. reflexivity.
  - generalize right_pos. apply filter_imp. intros mu Hm. rewrite dinvgauss_val by auto. reflexivity.
Qed.
(** ** where the boundary value is not the limit *)
Lemma punif_a_ref x b : x < b -> ~ extends Down (fun a => punif (N:=NS) (Fin x) a (Fin b) false).
Proof. intros H. destruct (punif_a S x b H) as (A & B). apply (not_ext Down _ 1 A). cbn [bound]. rewrite B. discriminate. Qed.
Lemma dweibull_scale_ref x k : 0 < eps -> 0 < x -> eps <= k -> k <= 1 -> ~ extends Up (fun th => dweibull (N:=NS) (Fin x) (Fin k) th false).
Proof.
  intros He Hx Hk H1. apply (not_ext Up _ 0 (dweibull_scale_tends S x k He Hx Hk)). cbn [bound]. rewrite dweibull_scale_nan by auto. discriminate.
Qed.
Lemma dinvgamma_shape_ref x b : lgamma_spec S -> 0 < x -> 0 < b -> ~ extends Zero (fun a => dinvgamma (N:=NS) (Fin x) a (Fin b) false).
Proof.
  intros HL Hx Hb. destruct (dinvgamma_shape S x b HL Hx Hb) as (A & B & _). apply (not_ext Zero _ 0 A). cbn [bound]. rewrite B. discriminate.
Qed.
Lemma pinvgauss_mu_ref x l : erf_spec S -> 0 < x -> 0 < l -> ~ extends Up (fun mu => pinvgauss (N:=NS) (Fin x) mu (Fin l) false).
Proof.
  intros HE Hx Hl. destruct (pinvgauss_mu_inf S x l HE Hx Hl) as (A & B & C). apply (not_ext Up _ _ A). cbn [bound]. rewrite C.
  intros E. injection E. lra.
Qed.
Lemma dinvgauss_mu_ref x l : 0 < x -> 0 < l -> ~ extends Up (fun mu => dinvgauss (N:=NS) (Fin x) mu (Fin l) false).
Proof.
  intros Hx Hl. destruct (dinvgauss_mu_inf S x l Hx Hl) as (v & B & A & C). apply (not_ext Up _ _ A). cbn [bound]. rewrite C.
  intros E. injection E. lra.
Qed.
Lemma dinvgamma_shape_inf x b : lgamma_spec S -> 0 < x -> 0 < b -> extends Up (fun a => dinvgamma (N:=NS) (Fin x) a (Fin b) false).
Proof. intros. now apply (dinvgamma_shape S x b). Qed.
End S.
(** a library whose log-gamma is infinite at 0 *)
Definition SFL : SF := {|
  sf_eps := / 4503599627370496; sf_tmin := / 2 ^ 1022; sf_pow_special := fun _ _ => NaN;
  sf_erf := fun _ => NaN; sf_erf_inv := fun _ => NaN;
  sf_lgamma := fun x => match x with Fin a => if Req_EM_T a 0 then PInf else Fin (ln (Gam a)) | _ => NaN end;
  sf_incgamma := fun _ _ => NaN; sf_incgamma_inv := fun _ _ => NaN;
  sf_incbeta := fun _ _ _ => NaN; sf_incbeta_inv := fun _ _ _ => NaN |}.
Lemma SFL_lgamma : lgamma_spec SFL /\ sf_lgamma SFL (Fin 0) = PInf.
Proof. split; [intros a Ha|]; cbn; destruct (Req_EM_T _ 0); auto; lra. Qed.
