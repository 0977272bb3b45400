(** Limits of the beta and inverse Gaussian formulas at boundary parameters. *)
From Coq Require Import Reals Lra Lia.
From Coquelicot Require Import Coquelicot.
From Verif Require Import Spec RealElem Analysis PowInt Erf GammaFn BetaFn NormR SpecSF FamR LawR LimR LimR2 LimR3.
Local Open Scope R_scope.

(** ** beta: bounds *)
Lemma om_bounds b y : 0 < y < 1 -> exists m M, 0 < m /\ 0 < M /\ forall t, 0 < t < y -> m <= Rpower (1 - t) (b - 1) <= M.
Proof.
  intros Hy. assert (P1 : forall k, Rpower 1 k = 1) by (intros; unfold Rpower; now rewrite ln_1, Rmult_0_r, exp_0).
  assert (Q : 0 < Rpower (1 - y) (b - 1)) by apply exp_pos.
  destruct (Rle_lt_dec 1 b).
  - exists (Rpower (1 - y) (b - 1)), 1. repeat split; auto; [lra| |].
    + apply pow_pos_le; lra.
    + eapply Rle_trans; [apply (pow_pos_le _ 1); lra|]. rewrite P1. lra.
  - exists 1, (Rpower (1 - y) (b - 1)). repeat split; auto; [lra| |].
    + eapply Rle_trans; [|apply (pow_neg_le _ 1); lra]. rewrite P1. lra.
    + apply pow_neg_le; lra.
Qed.
Lemma betaL_lower a b x m : 0 < a -> 0 < x < 1 -> (forall t, 0 < t < x -> m <= Rpower (1 - t) (b - 1)) ->
  m / a * Rpower x a <= betaL a b x.
Proof.
  intros Ha Hx H. cut (betaL a b 0 - m / a * pw 0 a <= betaL a b x - m / a * pw x a).
  { rewrite betaL_0, pw_0, pw_pos by lra. lra. }
  apply (mono_of_derive (fun t => betaL a b t - m / a * pw t a)
    (fun t => Rpower t (a - 1) * Rpower (1 - t) (b - 1) - m / a * (a * Rpower t (a - 1)))); [lra|..].
  - intros t Ht. apply d_minus; [apply betaL_derive; lra|]. apply d_scal. apply pw_derive. lra.
  - intros t Ht. replace (m / a * (a * Rpower t (a - 1))) with (Rpower t (a - 1) * m) by (field; lra).
    specialize (H t Ht). assert (0 < Rpower t (a - 1)) by apply exp_pos. nra.
  - intros t Ht. apply continuity_pt_minus; [apply betaL_cont; lra|].
    apply continuity_pt_mult; [apply continuity_pt_const; intros ? ?; auto|]. apply cont_pt. now apply pw_cont.
Qed.
Lemma betaL_upper a b x m : 0 < a -> 0 < x < 1 -> (forall t, 0 < t < x -> Rpower (1 - t) (b - 1) <= m) ->
  betaL a b x <= m / a * Rpower x a.
Proof.
  intros Ha Hx H. cut (m / a * pw 0 a - betaL a b 0 <= m / a * pw x a - betaL a b x).
  { rewrite betaL_0, pw_0, pw_pos by lra. lra. }
  apply (mono_of_derive (fun t => m / a * pw t a - betaL a b t)
    (fun t => m / a * (a * Rpower t (a - 1)) - Rpower t (a - 1) * Rpower (1 - t) (b - 1))); [lra|..].
  - intros t Ht. apply d_minus; [apply d_scal; apply pw_derive; lra|apply betaL_derive; lra].
  - intros t Ht. replace (m / a * (a * Rpower t (a - 1))) with (Rpower t (a - 1) * m) by (field; lra).
    specialize (H t Ht). assert (0 < Rpower t (a - 1)) by apply exp_pos. nra.
  - intros t Ht. apply continuity_pt_minus; [|apply betaL_cont; lra].
    apply continuity_pt_mult; [apply continuity_pt_const; intros ? ?; auto|]. apply cont_pt. now apply pw_cont.
Qed.
Lemma Beta_small b : 0 < b -> exists c, 0 < c /\ forall a, 0 < a <= 1 -> c / a <= Beta a b.
Proof.
  intros Hb. destruct (om_bounds b (/ 2) ltac:(lra)) as (m & M & Hm & _ & H). exists (m / 2). split; [lra|]. intros a Ha.
  pose proof (betaL_lower a b (/ 2) m ltac:(lra) ltac:(lra) (fun t Ht => proj1 (H t Ht))) as L.
  pose proof (betaL_pos b a (/ 2) Hb ltac:(lra)). unfold Beta.
  assert (/ 2 <= Rpower (/ 2) a).
  { rewrite <- (Rpower_1 (/ 2)) at 1 by lra. unfold Rpower. apply exp_le_compat.
    assert (ln (/ 2) < 0) by (rewrite <- ln_1; apply ln_increasing; lra). nra. }
  assert (0 < m / a) by (apply Rdiv_lt_0_compat; lra). replace (m / 2 / a) with (m / a * / 2) by (field; lra). nra.
Qed.
Lemma Beta_big b y : 0 < b -> 0 < y < 1 -> exists c, 0 < c /\ forall a, 0 < a -> c / a * Rpower y a <= Beta a b.
Proof.
  intros Hb Hy. destruct (om_bounds b y Hy) as (m & M & Hm & _ & H). exists m. split; auto. intros a Ha.
  pose proof (betaL_lower a b y m Ha Hy (fun t Ht => proj1 (H t Ht))) as L.
  pose proof (betaL_lt_Beta a b y Ha Hb ltac:(lra)). lra.
Qed.
Lemma IB_a_0 b x : 0 < b -> 0 < x < 1 -> filterlim (fun a => IB a b x) (at_right 0) (locally 1).
Proof.
  intros Hb Hx. apply lim_1m'; [typeclasses eauto|]. destruct (Beta_small b Hb) as (c & Hc & B).
  set (K := (1 + x) / x / b * Rpower (1 - x) b).
  assert (HK : 0 < K) by (unfold K; apply Rmult_lt_0_compat; [repeat apply Rdiv_lt_0_compat; lra|apply exp_pos]).
  apply (filt_le _ _ (fun a => K / c * a)).
  - generalize (right_lt 1 Rlt_0_1). apply filter_imp. intros a Ha.
    pose proof (IB_range a b x ltac:(lra) Hb ltac:(lra)). split; [lra|].
    rewrite IB_high by lra. specialize (B a ltac:(lra)). pose proof (Beta_pos a b ltac:(lra) Hb).
    replace (1 - (1 - betaL b a (1 - x) / Beta a b)) with (betaL b a (1 - x) / Beta a b) by ring.
    apply (Rmult_le_reg_r (Beta a b)); auto. replace (betaL b a (1 - x) / Beta a b * Beta a b) with (betaL b a (1 - x)) by (field; lra).
    apply Rle_trans with K.
    + apply betaL_upper; [auto|lra|]. intros t Ht.
      eapply Rle_trans; [apply (pow_neg_le x); lra|]. replace (a - 1) with (a + - (1)) by ring.
      rewrite Rpower_plus, Rpower_Ropp, Rpower_1 by lra. apply Rmult_le_compat_r; [left; apply Rinv_0_lt_compat; lra|].
      apply pow_le_1p; lra.
    + replace K with (K / c * a * (c / a)) at 1 by (field; lra). apply Rmult_le_compat_l; auto.
      apply Rmult_le_pos; [left; apply Rdiv_lt_0_compat; lra|lra].
  - apply lim_scal0; [typeclasses eauto|apply id_right0].
Qed.
Lemma quot_lt1 x y : 0 < x < y -> 0 < x / y < 1.
Proof.
  intros. split; [apply Rdiv_lt_0_compat; lra|]. apply (Rmult_lt_reg_r y); [lra|]. unfold Rdiv. rewrite Rmult_assoc, Rinv_l; lra.
Qed.
Lemma IB_a_inf b x : 0 < b -> 0 < x < 1 -> filterlim (fun a => IB a b x) (Rbar_locally p_infty) (locally 0).
Proof.
  intros Hb Hx. set (y := (1 + x) / 2). assert (Hy : x < y < 1) by (unfold y; lra).
  destruct (Beta_big b y Hb ltac:(lra)) as (c & Hc & B). destruct (om_bounds b x Hx) as (m & M & Hm & HM & H).
  apply (filt_le _ _ (fun a => M / c * Rpower (x / y) a)).
  - exists 0. intros a Ha. split; [apply IB_range; lra|]. rewrite IB_low by lra.
    specialize (B a Ha). pose proof (Beta_pos a b Ha Hb).
    apply (Rmult_le_reg_r (Beta a b)); auto. replace (betaL a b x / Beta a b * Beta a b) with (betaL a b x) by (field; lra).
    pose proof (betaL_upper a b x M Ha Hx (fun t Ht => proj2 (H t Ht))) as U. eapply Rle_trans; [exact U|].
    rewrite Rpower_quot by lra. assert (0 < Rpower y a) by apply exp_pos. assert (0 < Rpower x a) by apply exp_pos.
    replace (M / a * Rpower x a) with (M / c * (Rpower x a / Rpower y a) * (c / a * Rpower y a)) by (field; lra).
    apply Rmult_le_compat_l; auto. apply Rmult_le_pos; left; now apply Rdiv_lt_0_compat.
  - apply lim_scal0; [typeclasses eauto|]. apply geo_lim, quot_lt1. lra.
Qed.
Lemma IB_b_0 a x : 0 < a -> 0 < x < 1 -> filterlim (fun b => IB a b x) (at_right 0) (locally 0).
Proof.
  intros Ha Hx. apply (lim_eq _ (fun b => 1 - IB b a (1 - x))).
  { generalize right_pos. apply filter_imp. intros b Hb. symmetry. now apply IB_sym. }
  apply (lim_1m _ _ 1); [ring|]. apply IB_a_0; lra.
Qed.
Lemma IB_b_inf a x : 0 < a -> 0 < x < 1 -> filterlim (fun b => IB a b x) (Rbar_locally p_infty) (locally 1).
Proof.
  intros Ha Hx. apply (lim_eq _ (fun b => 1 - IB b a (1 - x))).
  { exists 0. intros b Hb. symmetry. now apply IB_sym. }
  apply (lim_1m _ _ 0); [ring|]. apply IB_a_inf; lra.
Qed.
Lemma beta_pdf_a0 b x : 0 < b -> 0 < x < 1 -> filterlim (fun a => beta_pdf a b x) (at_right 0) (locally 0).
Proof.
  intros Hb Hx. destruct (Beta_small b Hb) as (c & Hc & B).
  assert (0 < Rpower (1 - x) (b - 1)) by apply exp_pos. set (Q := Rpower (1 - x) (b - 1)) in *.
  apply (filt_le _ _ (fun a => (1 + x) / x * Q / c * a)).
  - generalize (right_lt 1 Rlt_0_1). apply filter_imp. intros a Ha. unfold beta_pdf. fold Q.
    pose proof (Beta_pos a b ltac:(lra) Hb). assert (0 < Rpower x (a - 1)) by apply exp_pos. specialize (B a ltac:(lra)).
    split. { repeat apply Rmult_le_pos; try lra. left. now apply Rinv_0_lt_compat. }
    apply (Rmult_le_reg_r (Beta a b)); auto. replace (1 / Beta a b * Rpower x (a - 1) * Q * Beta a b) with (Rpower x (a - 1) * Q) by (field; lra).
    apply Rle_trans with ((1 + x) / x * Q).
    + apply Rmult_le_compat_r; [lra|]. replace (a - 1) with (a + - (1)) by ring.
      rewrite Rpower_plus, Rpower_Ropp, Rpower_1 by lra. apply Rmult_le_compat_r; [left; apply Rinv_0_lt_compat; lra|].
      apply pow_le_1p; lra.
    + replace ((1 + x) / x * Q) with ((1 + x) / x * Q / c * a * (c / a)) at 1 by (field; lra). apply Rmult_le_compat_l; auto.
      apply Rmult_le_pos; [|lra]. left. apply Rdiv_lt_0_compat; auto. apply Rmult_lt_0_compat; auto. apply Rdiv_lt_0_compat; lra.
  - apply lim_scal0; [typeclasses eauto|apply id_right0].
Qed.
Lemma beta_pdf_ainf b x : 0 < b -> 0 < x < 1 -> filterlim (fun a => beta_pdf a b x) (Rbar_locally p_infty) (locally 0).
Proof.
  intros Hb Hx. set (y := (1 + x) / 2). assert (Hy : x < y < 1) by (unfold y; lra).
  destruct (Beta_big b y Hb ltac:(lra)) as (c & Hc & B).
  assert (0 < Rpower (1 - x) (b - 1)) by apply exp_pos. set (Q := Rpower (1 - x) (b - 1)) in *.
  apply (filt_le _ _ (fun a => Q / (c * x) * (a * Rpower (x / y) a))).
  - exists 0. intros a Ha. unfold beta_pdf. fold Q.
    pose proof (Beta_pos a b ltac:(lra) Hb). assert (0 < Rpower x (a - 1)) by apply exp_pos. specialize (B a ltac:(lra)).
    split. { repeat apply Rmult_le_pos; try lra. left. now apply Rinv_0_lt_compat. }
    apply (Rmult_le_reg_r (Beta a b)); auto. replace (1 / Beta a b * Rpower x (a - 1) * Q * Beta a b) with (Rpower x (a - 1) * Q) by (field; lra).
    rewrite Rpower_quot by lra. assert (0 < Rpower y a) by apply exp_pos. assert (0 < Rpower x a) by apply exp_pos.
    replace (a - 1) with (a + - (1)) by ring. rewrite Rpower_plus, Rpower_Ropp, Rpower_1 by lra.
    replace (Rpower x a * / x * Q) with (Q / (c * x) * (a * (Rpower x a / Rpower y a)) * (c / a * Rpower y a)) by (field; lra).
    apply Rmult_le_compat_l; auto. assert (0 < c * x) by (apply Rmult_lt_0_compat; lra).
    apply Rmult_le_pos; [left; now apply Rdiv_lt_0_compat|]. apply Rmult_le_pos; [lra|left; now apply Rdiv_lt_0_compat].
  - apply lim_scal0; [typeclasses eauto|]. apply lin_geo, quot_lt1. lra.
Qed.
Lemma beta_pdf_sym a b x : beta_pdf a b x = beta_pdf b a (1 - x).
Proof. unfold beta_pdf. rewrite (Beta_sym b a). replace (1 - (1 - x)) with x by ring. ring. Qed.
Lemma beta_pdf_b0 a x : 0 < a -> 0 < x < 1 -> filterlim (fun b => beta_pdf a b x) (at_right 0) (locally 0).
Proof.
  intros. apply (filterlim_ext (fun b => beta_pdf b a (1 - x))); [intros; now rewrite (beta_pdf_sym a)|]. apply beta_pdf_a0; lra.
Qed.
Lemma beta_pdf_binf a x : 0 < a -> 0 < x < 1 -> filterlim (fun b => beta_pdf a b x) (Rbar_locally p_infty) (locally 0).
Proof.
  intros. apply (filterlim_ext (fun b => beta_pdf b a (1 - x))); [intros; now rewrite (beta_pdf_sym a)|]. apply beta_pdf_ainf; lra.
Qed.

(** ** beta: both parameters together *)
Lemma g_mono x y : 0 < x -> x <= y -> y <= / 2 -> 0 < x * (1 - x) <= y * (1 - y).
Proof. intros. nra. Qed.
Lemma diag_prod t a : 0 < t < 1 -> Rpower t (a - 1) * Rpower (1 - t) (a - 1) = Rpower (t * (1 - t)) (a - 1).
Proof. intros. apply Rpower_mult_distr; lra. Qed.
Lemma betaL_diag_up a x y : 1 <= a -> 0 <= x -> x < y -> y <= / 2 ->
  betaL a a y - betaL a a x <= (y - x) * Rpower (y * (1 - y)) (a - 1).
Proof.
  intros Ha Hx Hxy Hy. destruct (mvt (betaL a a) (fun t => Rpower t (a - 1) * Rpower (1 - t) (a - 1)) x y) as (c & Hc & E); [lra|..].
  - intros t Ht. apply betaL_derive; lra.
  - intros t Ht. apply betaL_cont; lra.
  - rewrite diag_prod in E by lra. pose proof (g_mono c y ltac:(lra) ltac:(lra) Hy).
    pose proof (pow_pos_le (c * (1 - c)) (y * (1 - y)) (a - 1) ltac:(lra) ltac:(lra) ltac:(lra)). nra.
Qed.
Lemma betaL_diag_low a x y : 1 <= a -> 0 < x -> x < y -> y <= / 2 ->
  (y - x) * Rpower (x * (1 - x)) (a - 1) <= betaL a a y - betaL a a x.
Proof.
  intros Ha Hx Hxy Hy. destruct (mvt (betaL a a) (fun t => Rpower t (a - 1) * Rpower (1 - t) (a - 1)) x y) as (c & Hc & E); [lra|..].
  - intros t Ht. apply betaL_derive; lra.
  - intros t Ht. apply betaL_cont; lra.
  - rewrite diag_prod in E by lra. pose proof (g_mono x c ltac:(lra) ltac:(lra) ltac:(lra)).
    pose proof (pow_pos_le (x * (1 - x)) (c * (1 - c)) (a - 1) ltac:(lra) ltac:(lra) ltac:(lra)). nra.
Qed.
Lemma Beta_diag_low a y : 1 <= a -> 0 < y < / 2 -> (/ 2 - y) * Rpower (y * (1 - y)) (a - 1) <= Beta a a.
Proof.
  intros Ha Hy. pose proof (betaL_diag_low a y (/ 2) Ha ltac:(lra) ltac:(lra) ltac:(lra)).
  pose proof (betaL_pos a a y ltac:(lra) ltac:(lra)). pose proof (betaL_pos a a (/ 2) ltac:(lra) ltac:(lra)). unfold Beta. lra.
Qed.
Lemma pred_inf : filterlim (fun a => a - 1) (Rbar_locally p_infty) (Rbar_locally p_infty).
Proof. intros P [M HP]. exists (M + 1). intros n Hn. apply HP. lra. Qed.
Lemma geo_lim1 r : 0 < r < 1 -> filterlim (fun a => Rpower r (a - 1)) (Rbar_locally p_infty) (locally 0).
Proof. intros. apply (filterlim_comp _ _ _ (fun a => a - 1) (fun k => Rpower r k) _ (Rbar_locally p_infty)); [apply pred_inf|now apply geo_lim]. Qed.
Lemma IB_diag_inf_lo x : 0 < x < / 2 -> filterlim (fun a => IB a a x) (Rbar_locally p_infty) (locally 0).
Proof.
  intros Hx. set (y := (x + / 2) / 2). assert (Hy : x < y < / 2) by (unfold y; lra).
  set (r := x * (1 - x) / (y * (1 - y))). assert (Hr : 0 < r < 1) by (apply quot_lt1; nra).
  apply (filt_le _ _ (fun a => x / (/ 2 - y) * Rpower r (a - 1))).
  - exists 1. intros a Ha. split; [apply IB_range; lra|]. rewrite IB_low by lra. pose proof (Beta_pos a a ltac:(lra) ltac:(lra)).
    apply (Rmult_le_reg_r (Beta a a)); auto. replace (betaL a a x / Beta a a * Beta a a) with (betaL a a x) by (field; lra).
    pose proof (betaL_diag_up a 0 x ltac:(lra) ltac:(lra) ltac:(lra) ltac:(lra)) as U. rewrite betaL_0 in U.
    pose proof (Beta_diag_low a y ltac:(lra) ltac:(lra)) as L.
    unfold r. rewrite Rpower_quot by nra. assert (0 < Rpower (y * (1 - y)) (a - 1)) by apply exp_pos.
    assert (0 < Rpower (x * (1 - x)) (a - 1)) by apply exp_pos.
    apply Rle_trans with (x * Rpower (x * (1 - x)) (a - 1)); [lra|].
    replace (x * Rpower (x * (1 - x)) (a - 1)) with (x / (/ 2 - y) * (Rpower (x * (1 - x)) (a - 1) / Rpower (y * (1 - y)) (a - 1))
      * ((/ 2 - y) * Rpower (y * (1 - y)) (a - 1))) at 1 by (field; lra).
    apply Rmult_le_compat_l; auto. apply Rmult_le_pos; left; apply Rdiv_lt_0_compat; lra.
  - apply lim_scal0; [typeclasses eauto|]. now apply geo_lim1.
Qed.
Lemma IB_diag_inf_hi x : / 2 < x < 1 -> filterlim (fun a => IB a a x) (Rbar_locally p_infty) (locally 1).
Proof.
  intros Hx. apply (lim_eq _ (fun a => 1 - IB a a (1 - x))).
  { exists 0. intros a Ha. symmetry. now apply IB_sym. }
  apply (lim_1m _ _ 0); [ring|]. apply IB_diag_inf_lo; lra.
Qed.
Lemma IB_diag_mid a : 0 < a -> IB a a (/ 2) = / 2.
Proof. intros. pose proof (IB_sym a a (/ 2) H H). replace (1 - / 2) with (/ 2) in H0 by field. lra. Qed.
Lemma Beta_diag_small a : 0 < a <= 1 -> / (2 * a) <= Beta a a.
Proof.
  intros Ha. pose proof (betaL_lower a a (/ 2) 1 ltac:(lra) ltac:(lra)) as L.
  assert (H : forall t, 0 < t < / 2 -> 1 <= Rpower (1 - t) (a - 1)).
  { intros t Ht. replace 1 with (Rpower 1 (a - 1)) at 1 by (unfold Rpower; now rewrite ln_1, Rmult_0_r, exp_0). apply pow_neg_le; lra. }
  specialize (L H). pose proof (betaL_pos a a (/ 2) ltac:(lra) ltac:(lra)). unfold Beta.
  assert (/ 2 <= Rpower (/ 2) a).
  { rewrite <- (Rpower_1 (/ 2)) at 1 by lra. unfold Rpower. apply exp_le_compat.
    assert (ln (/ 2) < 0) by (rewrite <- ln_1; apply ln_increasing; lra). nra. }
  assert (0 < 1 / a) by (apply Rdiv_lt_0_compat; lra). replace (/ (2 * a)) with (1 / a * / 2) by (field; lra). nra.
Qed.
Lemma IB_diag_0_lo x : 0 < x <= / 2 -> filterlim (fun a => IB a a x) (at_right 0) (locally (1 / 2)).
Proof.
  intros Hx. assert (0 < x * (1 - x)) by nra.
  assert (D : filterlim (fun a => / 2 - IB a a x) (at_right 0) (locally 0)).
  { set (K := (1 + x * (1 - x)) / (x * (1 - x))). assert (0 < K) by (apply Rdiv_lt_0_compat; lra).
    apply (filt_le _ _ (fun a => 2 * K * a)).
    - generalize (right_lt 1 Rlt_0_1). apply filter_imp. intros a Ha. rewrite <- (IB_diag_mid a) at 1 by lra.
      rewrite <- (IB_diag_mid a) at 2 by lra.
      pose proof (IB_le a a x (/ 2) ltac:(lra) ltac:(lra) ltac:(lra) ltac:(lra) ltac:(lra)). split; [lra|].
      rewrite !IB_low by lra. pose proof (Beta_pos a a ltac:(lra) ltac:(lra)).
      apply (Rmult_le_reg_r (Beta a a)); auto.
      replace ((betaL a a (/ 2) / Beta a a - betaL a a x / Beta a a) * Beta a a) with (betaL a a (/ 2) - betaL a a x) by (field; lra).
      pose proof (Beta_diag_small a ltac:(lra)) as B.
      assert (U : betaL a a (/ 2) - betaL a a x <= K).
      { destruct Hx as (Hx & [Hx2| ->]); [|lra].
        destruct (mvt (betaL a a) (fun t => Rpower t (a - 1) * Rpower (1 - t) (a - 1)) x (/ 2)) as (c & Hc & E); [lra|..].
        - intros t Ht. apply betaL_derive; lra.
        - intros t Ht. apply betaL_cont; lra.
        - rewrite diag_prod in E by lra. pose proof (g_mono x c ltac:(lra) ltac:(lra) ltac:(lra)) as G.
          pose proof (pow_neg_le (x * (1 - x)) (c * (1 - c)) (a - 1) ltac:(lra) ltac:(lra) ltac:(lra)) as P1.
          assert (P2 : Rpower (x * (1 - x)) (a - 1) <= K).
          { replace (a - 1) with (a + - (1)) by ring. rewrite Rpower_plus, Rpower_Ropp, Rpower_1 by lra.
            apply Rmult_le_compat_r; [left; apply Rinv_0_lt_compat; lra|]. apply pow_le_1p; lra. }
          nra. }
      assert (Q : 2 * K * a * / (2 * a) <= 2 * K * a * Beta a a) by (apply Rmult_le_compat_l; [nra|auto]).
      replace (2 * K * a * / (2 * a)) with K in Q by (field; lra). lra.
    - apply lim_scal0; [typeclasses eauto|apply id_right0]. }
  apply (filterlim_ext (fun a => / 2 - (/ 2 - IB a a x))); [intros; ring|].
  replace (locally (1 / 2)) with (locally (/ 2 - 0)) by (f_equal; lra).
  apply (lim_comp _ (fun a => / 2 - IB a a x) (fun y => / 2 - y)); auto.
  apply (derive_cont_pt _ _ (-1)). auto_derive; auto.
Qed.
Lemma IB_diag_0 x : 0 < x < 1 -> filterlim (fun a => IB a a x) (at_right 0) (locally (1 / 2)).
Proof.
  intros Hx. destruct (Rle_lt_dec x (/ 2)); [now apply IB_diag_0_lo; lra|].
  apply (lim_eq _ (fun a => 1 - IB a a (1 - x))).
  { generalize right_pos. apply filter_imp. intros a Ha. symmetry. now apply IB_sym. }
  apply (lim_1m _ _ (1 / 2)); [lra|]. apply IB_diag_0_lo; lra.
Qed.
Lemma beta_pdf_diag_inf_lo x : 0 < x < / 2 -> filterlim (fun a => beta_pdf a a x) (Rbar_locally p_infty) (locally 0).
Proof.
  intros Hx. set (y := (x + / 2) / 2). assert (Hy : x < y < / 2) by (unfold y; lra).
  set (r := x * (1 - x) / (y * (1 - y))). assert (Hr : 0 < r < 1) by (apply quot_lt1; nra).
  apply (filt_le _ _ (fun a => / (/ 2 - y) * Rpower r (a - 1))).
  - exists 1. intros a Ha. unfold beta_pdf. rewrite Rmult_assoc, diag_prod by lra. pose proof (Beta_pos a a ltac:(lra) ltac:(lra)).
    assert (0 < Rpower (y * (1 - y)) (a - 1)) by apply exp_pos.
    assert (0 < Rpower (x * (1 - x)) (a - 1)) by apply exp_pos.
    split; [left; apply Rmult_lt_0_compat; auto; apply Rdiv_lt_0_compat; lra|].
    apply (Rmult_le_reg_r (Beta a a)); auto. replace (1 / Beta a a * Rpower (x * (1 - x)) (a - 1) * Beta a a) with (Rpower (x * (1 - x)) (a - 1)) by (field; lra).
    pose proof (Beta_diag_low a y ltac:(lra) ltac:(lra)) as L.
    unfold r. rewrite Rpower_quot by nra.
    replace (Rpower (x * (1 - x)) (a - 1)) with (/ (/ 2 - y) * (Rpower (x * (1 - x)) (a - 1) / Rpower (y * (1 - y)) (a - 1))
      * ((/ 2 - y) * Rpower (y * (1 - y)) (a - 1))) at 1 by (field; lra).
    apply Rmult_le_compat_l; auto. apply Rmult_le_pos; left; [apply Rinv_0_lt_compat|apply Rdiv_lt_0_compat]; lra.
  - apply lim_scal0; [typeclasses eauto|]. now apply geo_lim1.
Qed.
Lemma beta_pdf_diag_inf x : 0 < x < 1 -> x <> / 2 -> filterlim (fun a => beta_pdf a a x) (Rbar_locally p_infty) (locally 0).
Proof.
  intros Hx D. destruct (Rlt_le_dec x (/ 2)); [apply beta_pdf_diag_inf_lo; lra|].
  apply (filterlim_ext (fun a => beta_pdf a a (1 - x))); [intros; symmetry; apply beta_pdf_sym|]. apply beta_pdf_diag_inf_lo; lra.
Qed.
Lemma beta_pdf_diag_0 x : 0 < x < 1 -> filterlim (fun a => beta_pdf a a x) (at_right 0) (locally 0).
Proof.
  intros Hx. assert (0 < x * (1 - x)) by nra. set (K := (1 + x * (1 - x)) / (x * (1 - x))). assert (0 < K) by (apply Rdiv_lt_0_compat; lra).
  apply (filt_le _ _ (fun a => 2 * K * a)).
  - generalize (right_lt 1 Rlt_0_1). apply filter_imp. intros a Ha. unfold beta_pdf. rewrite Rmult_assoc, diag_prod by lra.
    pose proof (Beta_pos a a ltac:(lra) ltac:(lra)). assert (0 < Rpower (x * (1 - x)) (a - 1)) by apply exp_pos.
    split; [left; apply Rmult_lt_0_compat; auto; apply Rdiv_lt_0_compat; lra|].
    apply (Rmult_le_reg_r (Beta a a)); auto. replace (1 / Beta a a * Rpower (x * (1 - x)) (a - 1) * Beta a a) with (Rpower (x * (1 - x)) (a - 1)) by (field; lra).
    pose proof (Beta_diag_small a ltac:(lra)) as B.
    assert (P2 : Rpower (x * (1 - x)) (a - 1) <= K).
    { replace (a - 1) with (a + - (1)) by ring. rewrite Rpower_plus, Rpower_Ropp, Rpower_1 by lra.
      apply Rmult_le_compat_r; [left; apply Rinv_0_lt_compat; lra|]. apply pow_le_1p; lra. }
    assert (Q : 2 * K * a * / (2 * a) <= 2 * K * a * Beta a a) by (apply Rmult_le_compat_l; [nra|auto]).
    replace (2 * K * a * / (2 * a)) with K in Q by (field; lra). lra.
  - apply lim_scal0; [typeclasses eauto|apply id_right0].
Qed.
(** at one half the density of the symmetric beta law grows without bound *)
Lemma Beta_diag_up a y : 1 <= a -> 0 < y < / 2 ->
  Beta a a <= 2 * ((/ 2 - y) * Rpower (/ 4) (a - 1) + / 2 * Rpower (y * (1 - y)) (a - 1)).
Proof.
  intros Ha Hy. pose proof (betaL_diag_up a 0 y Ha ltac:(lra) ltac:(lra) ltac:(lra)) as U1. rewrite betaL_0 in U1.
  pose proof (betaL_diag_up a y (/ 2) Ha ltac:(lra) ltac:(lra) ltac:(lra)) as U2.
  replace (/ 2 * (1 - / 2)) with (/ 4) in U2 by field. unfold Beta.
  assert (0 < Rpower (y * (1 - y)) (a - 1)) by apply exp_pos. nra.
Qed.
Lemma beta_pdf_diag_half : filterlim (fun a => beta_pdf a a (/ 2)) (Rbar_locally p_infty) (Rbar_locally p_infty).
Proof.
  intros P [M HP]. set (M' := Rmax M 5). assert (5 <= M') by apply Rmax_r. assert (M <= M') by apply Rmax_l.
  set (e := / (4 * M')). assert (He : 0 < e < / 4). { split; [apply Rinv_0_lt_compat; lra|]. apply Rinv_lt_contravar; lra. }
  set (y := / 2 - e). assert (Hy : 0 < y < / 2) by (unfold y; lra).
  assert (Hr : 0 < y * (1 - y) / / 4 < 1) by (apply quot_lt1; nra).
  destruct (geo_lim1 _ Hr (fun z => z < e)) as [N HN].
  { exists (mkposreal e (proj1 He)). intros z Hz. unfold ball in Hz. cbn in Hz. unfold AbsRing_ball, abs, minus, plus, opp in Hz. cbn in Hz.
    rewrite Ropp_0, Rplus_0_r in Hz. apply Rabs_def2 in Hz. lra. }
  exists (Rmax N 1). intros a Ha. pose proof (Rmax_l N 1). pose proof (Rmax_r N 1). apply HP. specialize (HN a ltac:(lra)).
  rewrite Rpower_quot in HN by nra. assert (0 < Rpower (/ 4) (a - 1)) by apply exp_pos. set (q := Rpower (/ 4) (a - 1)) in *.
  pose proof (Beta_diag_up a y ltac:(lra) Hy) as U. fold q in U. set (w := Rpower (y * (1 - y)) (a - 1)) in *.
  assert (w < e * q). { apply (Rmult_lt_compat_r q) in HN; auto. unfold Rdiv in HN. rewrite Rmult_assoc, Rinv_l in HN; lra. }
  replace (/ 2 - y) with e in U by (unfold y; ring).
  assert (B : Beta a a < 3 * e * q) by nra.
  pose proof (Beta_pos a a ltac:(lra) ltac:(lra)).
  unfold beta_pdf. rewrite Rmult_assoc, diag_prod by lra. replace (/ 2 * (1 - / 2)) with (/ 4) by field. fold q.
  apply Rle_lt_trans with M'; auto. apply (Rmult_lt_reg_r (Beta a a)); auto.
  replace (1 / Beta a a * q * Beta a a) with q by (field; lra).
  apply Rlt_trans with (M' * (3 * e * q)); [apply Rmult_lt_compat_l; lra|].
  replace (M' * (3 * e * q)) with (3 / 4 * q) by (unfold e; field; lra). lra.
Qed.
