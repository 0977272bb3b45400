(** Limits of the textbook formulas at boundary parameters: exponential, Weibull, gamma. *)
From Coq Require Import Reals Lra Lia.
From Coquelicot Require Import Coquelicot.
From Verif Require Import Spec RealElem Analysis PowInt Erf GammaFn BetaFn NormR SpecSF FamR LawR LimR.
Local Open Scope R_scope.

(** ** tools *)
Lemma right_cont (f : R -> R) l : continuity_pt f 0 -> f 0 = l -> filterlim f (at_right 0) (locally l).
Proof.
  intros C <- P HP. pose proof (cont_lim f 0 C P HP) as Q. unfold filtermap in *.
  unfold at_right, within. generalize Q. apply filter_imp. auto.
Qed.
Lemma lim_eq (F : (R -> Prop) -> Prop) {FF : Filter F} (f g : R -> R) (G : (R -> Prop) -> Prop) :
  F (fun s => f s = g s) -> filterlim f F G -> filterlim g F G.
Proof. intros H L. now apply (filterlim_ext_loc f). Qed.
(** continuous image of a limit *)
Lemma lim_comp (F : (R -> Prop) -> Prop) {FF : Filter F} (f H : R -> R) l :
  filterlim f F (locally l) -> continuity_pt H l -> filterlim (fun s => H (f s)) F (locally (H l)).
Proof. intros L C. apply (filterlim_comp _ _ _ f H F (locally l)); auto. now apply cont_lim. Qed.
Lemma lim_1m (F : (R -> Prop) -> Prop) {FF : Filter F} (f : R -> R) l l' : l' = 1 - l ->
  filterlim f F (locally l) -> filterlim (fun s => 1 - f s) F (locally l').
Proof.
  intros -> L. apply (lim_comp F f (fun y => 1 - y)); auto. apply cont_pt.
  apply (continuous_minus (V := R_NormedModule)); [apply continuous_const|apply continuous_id].
Qed.
Lemma lim_1m' (F : (R -> Prop) -> Prop) {FF : Filter F} (f : R -> R) :
  filterlim (fun s => 1 - f s) F (locally 0) -> filterlim f F (locally 1).
Proof.
  intros L. apply (filterlim_ext (fun s => 1 - (1 - f s))); [intros; ring|]. apply (lim_1m F _ 0); auto. lra.
Qed.
Lemma lim_scal0 (F : (R -> Prop) -> Prop) {FF : Filter F} c (g : R -> R) :
  filterlim g F (locally 0) -> filterlim (fun s => c * g s) F (locally 0).
Proof. intros G. replace (locally 0) with (locally (c * 0)) by (f_equal; ring). now apply scal_lim. Qed.
Lemma neg_inf c : 0 < c -> filterlim (fun k => - (k * c)) (Rbar_locally p_infty) (Rbar_locally m_infty).
Proof.
  intros Hc P [M HP]. exists (- M / c). intros k Hk. apply HP.
  apply (Rmult_lt_compat_r c) in Hk; auto. unfold Rdiv in Hk. rewrite Rmult_assoc, Rinv_l in Hk; lra.
Qed.
Lemma exp_neg_lin c : 0 < c -> filterlim (fun k => exp (- (k * c))) (Rbar_locally p_infty) (locally 0).
Proof. intros. apply (filterlim_comp _ _ _ _ exp _ (Rbar_locally m_infty)); [now apply neg_inf|apply exp_minf]. Qed.
(** geometric decay *)
Lemma geo_lim r : 0 < r < 1 -> filterlim (fun k => Rpower r k) (Rbar_locally p_infty) (locally 0).
Proof.
  intros Hr. assert (L : ln r < 0) by (rewrite <- ln_1; apply ln_increasing; lra).
  apply (filterlim_ext (fun k => exp (- (k * (- ln r))))); [|apply exp_neg_lin; lra].
  intros k. unfold Rpower. f_equal. ring.
Qed.
Lemma lin_geo r : 0 < r < 1 -> filterlim (fun k => k * Rpower r k) (Rbar_locally p_infty) (locally 0).
Proof.
  intros Hr. assert (L : ln r < 0) by (rewrite <- ln_1; apply ln_increasing; lra). set (c := - ln r).
  assert (0 < c) by (unfold c; lra).
  apply (filt_le _ _ (fun k => 2 / c * exp (- (k * (c / 2))))).
  - exists 0. intros k Hk. unfold Rpower. replace (k * ln r) with (- (k * (c / 2)) + - (k * (c / 2))) by (unfold c; field).
    rewrite exp_plus. set (y := exp (- (k * (c / 2)))). assert (0 < y) by apply exp_pos. split; [apply Rmult_le_pos; nra|].
    assert (k * (c / 2) * y <= 1).
    { pose proof (exp_ge_1 (k * (c / 2))). assert (E : exp (k * (c / 2)) * y = 1) by (unfold y; rewrite <- exp_plus, Rplus_opp_r, exp_0; auto).
      nra. }
    replace (k * (y * y)) with (2 / c * (k * (c / 2) * y) * y) by (field; lra).
    apply Rmult_le_compat_r; [lra|]. rewrite <- (Rmult_1_r (2 / c)) at 2.
    apply Rmult_le_compat_l; [left; apply Rdiv_lt_0_compat; lra|auto].
  - apply lim_scal0; [typeclasses eauto|]. apply exp_neg_lin. lra.
Qed.
Lemma id_right0 : filterlim (fun s : R => s) (at_right 0) (locally 0).
Proof. apply (right_cont (fun s => s)); auto. apply derivable_continuous_pt, derivable_pt_id. Qed.
Lemma pow_le_1p u k : 0 < u -> 0 <= k <= 1 -> Rpower u k <= 1 + u.
Proof.
  intros Hu Hk. destruct (Rle_lt_dec u 1) as [L|L].
  - assert (Rpower u k <= 1); [|lra]. unfold Rpower. rewrite <- exp_0. apply exp_le_compat.
    assert (ln u <= 0); [|nra]. destruct L as [L| ->]; [|rewrite ln_1; lra]. left. rewrite <- ln_1. now apply ln_increasing.
  - assert (Rpower u k <= u); [|lra]. rewrite <- (Rpower_1 u) at 2 by auto. apply Rle_Rpower; lra.
Qed.

(** ** exponential *)
Lemma exp_cdf_r0 x : filterlim (fun r => exp_cdf r x) (at_right 0) (locally 0).
Proof.
  apply right_cont; [|unfold exp_cdf; replace (- 0 * x) with 0 by ring; rewrite exp_0; ring].
  apply (derive_cont_pt _ _ (x * exp (- 0 * x))). unfold exp_cdf. auto_derive; auto. ring.
Qed.
Lemma exp_cdf_rinf x : 0 < x -> filterlim (fun r => exp_cdf r x) (Rbar_locally p_infty) (locally 1).
Proof.
  intros. unfold exp_cdf. apply (lim_1m _ _ 0); [lra|].
  apply (filterlim_ext (fun r => exp (- (r * x)))); [intros; f_equal; ring|now apply exp_neg_lin].
Qed.
Lemma exp_pdf_r0 x : filterlim (fun r => exp_pdf r x) (at_right 0) (locally 0).
Proof.
  apply right_cont; [|unfold exp_pdf; ring].
  apply (derive_cont_pt _ _ (exp (- 0 * x) + 0 * (- x * exp (- 0 * x)))). unfold exp_pdf. auto_derive; auto. ring.
Qed.
(** ** uniform *)
Lemma unif_pdf_binf a : filterlim (fun b => unif_pdf a b) (Rbar_locally p_infty) (locally 0).
Proof.
  apply (filterlim_comp _ _ _ (fun b => b - a) (fun d => 1 / d) _ (Rbar_locally p_infty)); [|apply div_inf].
  intros P [M HP]. exists (M + a). intros b Hb. apply HP. lra.
Qed.
Lemma unif_pdf_ainf b : filterlim (fun a => unif_pdf a b) (Rbar_locally m_infty) (locally 0).
Proof.
  apply (filterlim_comp _ _ _ (fun a => b - a) (fun d => 1 / d) _ (Rbar_locally p_infty)); [|apply div_inf].
  intros P [M HP]. exists (b - M). intros a Ha. apply HP. lra.
Qed.
Lemma unif_cdf_binf a x : filterlim (fun b => unif_cdf a b x) (Rbar_locally p_infty) (locally 0).
Proof.
  apply (filterlim_comp _ _ _ (fun b => b - a) (fun d => (x - a) / d) _ (Rbar_locally p_infty)); [|apply div_inf].
  intros P [M HP]. exists (M + a). intros b Hb. apply HP. lra.
Qed.
Lemma unif_cdf_ainf b x : filterlim (fun a => unif_cdf a b x) (Rbar_locally m_infty) (locally 1).
Proof.
  apply lim_1m'; [typeclasses eauto|].
  apply (lim_eq _ (fun a => (b - x) / (b - a))); [exists b; intros a Ha; unfold unif_cdf; field; lra|].
  apply (filterlim_comp _ _ _ (fun a => b - a) (fun d => (b - x) / d) _ (Rbar_locally p_infty)); [|apply div_inf].
  intros P [M HP]. exists (b - M). intros a Ha. apply HP. lra.
Qed.
(** ** Weibull *)
Lemma weib_k_inf_lo th x : 0 < th -> 0 < x < th -> filterlim (fun k => weibull_cdf k th x) (Rbar_locally p_infty) (locally 0).
Proof.
  intros Ht Hx. unfold weibull_cdf.
  assert (0 < x / th < 1).
  { split; [apply Rdiv_lt_0_compat; lra|]. apply (Rmult_lt_reg_r th); auto. unfold Rdiv. rewrite Rmult_assoc, Rinv_l; lra. }
  replace 0 with (1 - exp (- 0)) by (rewrite Ropp_0, exp_0; ring).
  apply (lim_comp _ (fun k => Rpower (x / th) k) (fun y => 1 - exp (- y))); [now apply geo_lim|].
  apply (derive_cont_pt _ _ (exp (- 0))). auto_derive; auto. ring.
Qed.
Lemma exp_neg_right : filterlim (fun y => exp (- y)) (Rbar_locally p_infty) (locally 0).
Proof.
  apply (filterlim_ext (fun y => exp (- (y * 1)))); [intros; f_equal; ring|]. apply exp_neg_lin. lra.
Qed.
Lemma pow_inf u : 1 < u -> filterlim (fun k => Rpower u k) (Rbar_locally p_infty) (Rbar_locally p_infty).
Proof.
  intros Hu. assert (0 < ln u) by (rewrite <- ln_1; apply ln_increasing; lra).
  apply (filt_ge_inf _ _ (fun k => k * ln u)).
  - exists 0. intros k Hk. unfold Rpower. pose proof (exp_ge_1 (k * ln u)). lra.
  - intros P [M HP]. exists (M / ln u). intros k Hk. apply HP. apply (Rmult_lt_compat_r (ln u)) in Hk; auto.
    unfold Rdiv in Hk. rewrite Rmult_assoc, Rinv_l in Hk; lra.
Qed.
Lemma weib_k_inf_hi th x : 0 < th -> th < x -> filterlim (fun k => weibull_cdf k th x) (Rbar_locally p_infty) (locally 1).
Proof.
  intros Ht Hx. unfold weibull_cdf. apply (lim_1m _ _ 0); [lra|].
  apply (filterlim_comp _ _ _ (fun k => Rpower (x / th) k) (fun y => exp (- y)) _ (Rbar_locally p_infty)); [|apply exp_neg_right].
  apply pow_inf. apply (Rmult_lt_reg_r th); auto. unfold Rdiv. rewrite Rmult_assoc, Rinv_l; lra.
Qed.
Lemma weib_k_inf_mid th : 0 < th -> filterlim (fun k => weibull_cdf k th th) (Rbar_locally p_infty) (locally (1 - exp (- 1))).
Proof.
  intros Ht. apply (filterlim_ext (fun _ => 1 - exp (- 1))); [|apply filterlim_const].
  intros k. unfold weibull_cdf. replace (th / th) with 1 by (field; lra). unfold Rpower. rewrite ln_1, Rmult_0_r, exp_0. auto.
Qed.
(** [(x/th)^k -> 0] as the scale grows *)
Lemma pow_scale_inf k x : 0 < k -> 0 < x -> filterlim (fun th => Rpower (x / th) k) (Rbar_locally p_infty) (locally 0).
Proof.
  intros Hk Hx.
  apply (lim_eq _ (fun th => pw (x / th) k)).
  { exists 0. intros th Ht. apply pw_pos. now apply Rdiv_lt_0_compat. }
  rewrite <- (pw_0 k). apply (lim_comp _ (fun th => x / th) (fun y => pw y k)); [apply div_inf|].
  apply cont_pt. now apply pw_cont.
Qed.
Lemma weib_th_inf k x : 0 < k -> 0 < x -> filterlim (fun th => weibull_cdf k th x) (Rbar_locally p_infty) (locally 0).
Proof.
  intros Hk Hx. unfold weibull_cdf.
  replace 0 with (1 - exp (- 0)) by (rewrite Ropp_0, exp_0; ring).
  apply (lim_comp _ (fun th => Rpower (x / th) k) (fun y => 1 - exp (- y))); [now apply pow_scale_inf|].
  apply (derive_cont_pt _ _ (exp (- 0))). auto_derive; auto. ring.
Qed.
(** [weibull_pdf] as the scale grows: [k u^k e^{-u^k} / x] *)
Lemma weib_pdf_u k th x : 0 < th -> 0 < x ->
  weibull_pdf k th x = k / x * Rpower (x / th) k * exp (- Rpower (x / th) k).
Proof.
  intros Ht Hx. unfold weibull_pdf. replace k with (k - 1 + 1) at 5 by ring.
  rewrite Rpower_plus, Rpower_1 by now apply Rdiv_lt_0_compat. field. lra.
Qed.
Lemma weib_pdf_th_inf k x : 0 < k -> 0 < x -> filterlim (fun th => weibull_pdf k th x) (Rbar_locally p_infty) (locally 0).
Proof.
  intros Hk Hx. apply (lim_eq _ (fun th => k / x * Rpower (x / th) k * exp (- Rpower (x / th) k))).
  { exists 0. intros. symmetry. now apply weib_pdf_u. }
  replace 0 with (k / x * 0 * exp (- 0)) by ring.
  apply (lim_comp _ (fun th => Rpower (x / th) k) (fun y => k / x * y * exp (- y))); [now apply pow_scale_inf|].
  apply (derive_cont_pt _ _ (k / x * exp (- 0) - k / x * 0 * exp (- 0))). auto_derive; auto. ring.
Qed.

(** ** gamma: bounds *)
Lemma lgam_1_lower a : 0 < a -> exp (-1) / a <= lgam a 1.
Proof.
  intros Ha. cut (lgam a 0 - exp (-1) / a * pw 0 a <= lgam a 1 - exp (-1) / a * pw 1 a).
  { rewrite lgam_0, pw_0, pw_1. lra. }
  apply (mono_of_derive (fun t => lgam a t - exp (-1) / a * pw t a)
    (fun t => Rpower t (a - 1) * exp (- t) - exp (-1) / a * (a * Rpower t (a - 1)))); [lra|..].
  - intros t Ht. apply d_minus; [apply lgam_derive; lra|]. apply d_scal. now apply pw_derive.
  - intros t Ht. replace (exp (-1) / a * (a * Rpower t (a - 1))) with (Rpower t (a - 1) * exp (-1)) by (field; lra).
    assert (exp (-1) <= exp (- t)) by (apply exp_le_compat; lra). assert (0 < Rpower t (a - 1)) by apply exp_pos. nra.
  - intros t Ht. apply continuity_pt_minus; [now apply lgam_cont|].
    apply continuity_pt_mult; [apply continuity_pt_const; intros ? ?; auto|]. apply cont_pt. now apply pw_cont.
Qed.
Lemma Gam_small a : 0 < a -> exp (-1) / a <= Gam a.
Proof. intros. eapply Rle_trans; [now apply lgam_1_lower|]. apply lgam_le_Gam; lra. Qed.
Lemma pow_neg_le x t b : b <= 0 -> 0 < x -> x <= t -> Rpower t b <= Rpower x b.
Proof.
  intros. unfold Rpower. apply exp_le_compat. assert (ln x <= ln t); [|nra].
  destruct H1 as [H1| ->]; [|lra]. left. now apply ln_increasing.
Qed.
Lemma pow_pos_le x t b : 0 <= b -> 0 < x -> x <= t -> Rpower x b <= Rpower t b.
Proof.
  intros. unfold Rpower. apply exp_le_compat. assert (ln x <= ln t); [|nra].
  destruct H1 as [H1| ->]; [|lra]. left. now apply ln_increasing.
Qed.
Lemma Gam_tail_small a x : 0 < a <= 1 -> 0 < x -> Gam a - lgam a x <= Rpower x (a - 1).
Proof.
  intros Ha Hx. apply Rnot_lt_le. intros C. destruct (lgam_near a (lgam a x + Rpower x (a - 1))) as (y & Hy & Q); [lra|lra|].
  destruct (Rle_lt_dec y x) as [L|L].
  { pose proof (lgam_le a y x ltac:(lra) ltac:(lra) L). assert (0 < Rpower x (a - 1)) by apply exp_pos. lra. }
  assert (H : - (lgam a x + Rpower x (a - 1) * exp (- x)) <= - (lgam a y + Rpower x (a - 1) * exp (- y))).
  { apply (mono_of_derive (fun t => - (lgam a t + Rpower x (a - 1) * exp (- t)))
      (fun t => - (Rpower t (a - 1) * exp (- t) + Rpower x (a - 1) * (- exp (- t))))); [lra|..].
    - intros t Ht. apply (is_derive_opp (K := R_AbsRing) (V := R_NormedModule)). apply d_plus; [apply lgam_derive; lra|].
      apply d_scal. auto_derive; auto. ring.
    - intros t Ht. pose proof (pow_neg_le x t (a - 1) ltac:(lra) Hx ltac:(lra)). pose proof (exp_pos (- t)). nra.
    - intros t Ht. apply continuity_pt_opp, continuity_pt_plus; [apply lgam_cont; lra|].
      apply (derive_cont_pt _ _ (Rpower x (a - 1) * (- exp (- t)))). apply d_scal. auto_derive; auto. ring. }
  assert (0 < Rpower x (a - 1)) by apply exp_pos. pose proof (exp_pos (- y)).
  assert (exp (- x) <= 1) by (rewrite <- exp_0; apply exp_le_compat; lra). nra.
Qed.
Lemma PG_a_0 x : 0 < x -> filterlim (fun a => PG a x) (at_right 0) (locally 1).
Proof.
  intros Hx. apply lim_1m'; [typeclasses eauto|].
  apply (filt_le _ _ (fun a => (1 + x) / x * exp 1 * a)).
  - generalize (right_lt 1 Rlt_0_1). apply filter_imp. intros a Ha.
    pose proof (PG_range a x ltac:(lra) ltac:(lra)). split; [lra|].
    pose proof (Gam_pos a ltac:(lra)). pose proof (Gam_small a ltac:(lra)) as G.
    pose proof (Gam_tail_small a x ltac:(lra) Hx) as T.
    pose proof (pow_le_1p x a Hx ltac:(lra)) as B.
    replace (a - 1) with (a + - (1)) in T by ring. rewrite Rpower_plus, Rpower_Ropp, Rpower_1 in T by auto.
    unfold PG. apply (Rmult_le_reg_r (Gam a)); auto.
    replace ((1 - lgam a x / Gam a) * Gam a) with (Gam a - lgam a x) by (field; lra).
    eapply Rle_trans; [exact T|].
    apply Rle_trans with ((1 + x) / x).
    { unfold Rdiv. apply Rmult_le_compat_r; [left; now apply Rinv_0_lt_compat|auto]. }
    replace ((1 + x) / x) with ((1 + x) / x * exp 1 * a * (exp (-1) / a)) at 1.
    2: { replace (-1) with (- (1)) by ring. rewrite exp_Ropp. pose proof (exp_pos 1). field. repeat split; lra. }
    apply Rmult_le_compat_l; [|exact G].
    repeat apply Rmult_le_pos; try lra; [left; now apply Rinv_0_lt_compat|left; apply exp_pos].
  - apply lim_scal0; [typeclasses eauto|apply id_right0].
Qed.
Lemma Gam_big a y : 1 <= a -> 0 < y -> Rpower y (a - 1) * exp (- (y + 1)) <= Gam a.
Proof.
  intros Ha Hy. destruct (mvt (lgam a) (fun t => Rpower t (a - 1) * exp (- t)) y (y + 1)) as (c & Hc & E); [lra|..].
  - intros t Ht. apply lgam_derive; lra.
  - intros t Ht. apply lgam_cont; lra.
  - pose proof (lgam_lt_Gam a (y + 1) ltac:(lra) ltac:(lra)). pose proof (lgam_pos a y ltac:(lra) Hy).
    assert (Rpower y (a - 1) * exp (- (y + 1)) <= Rpower c (a - 1) * exp (- c)); [|lra].
    apply Rmult_le_compat; [left; apply exp_pos|left; apply exp_pos|apply pow_pos_le; lra|apply exp_le_compat; lra].
Qed.
Lemma lgam_up a x : 1 <= a -> 0 < x -> lgam a x <= x * Rpower x (a - 1).
Proof.
  intros Ha Hx. destruct (mvt (lgam a) (fun t => Rpower t (a - 1) * exp (- t)) 0 x) as (c & Hc & E); [lra|..].
  - intros t Ht. apply lgam_derive; lra.
  - intros t Ht. apply lgam_cont; lra.
  - rewrite lgam_0 in E. assert (Rpower c (a - 1) * exp (- c) <= Rpower x (a - 1) * 1); [|nra].
    apply Rmult_le_compat; [left; apply exp_pos|left; apply exp_pos|apply pow_pos_le; lra|].
    rewrite <- exp_0. apply exp_le_compat; lra.
Qed.
Lemma PG_a_inf x : 0 < x -> filterlim (fun a => PG a x) (Rbar_locally p_infty) (locally 0).
Proof.
  intros Hx. apply (filt_le _ _ (fun a => 2 * x * exp (2 * x + 1) * Rpower (/ 2) a)).
  - exists 1. intros a Ha. split; [apply PG_range; lra|]. pose proof (Gam_pos a ltac:(lra)).
    unfold PG. apply (Rmult_le_reg_r (Gam a)); auto. replace (lgam a x / Gam a * Gam a) with (lgam a x) by (field; lra).
    eapply Rle_trans; [apply lgam_up; lra|].
    pose proof (Gam_big a (2 * x) ltac:(lra) ltac:(lra)) as G.
    rewrite <- Rpower_mult_distr in G by lra.
    assert (E2 : 2 * Rpower (/ 2) a * Rpower 2 (a - 1) = 1).
    { replace a with (a - 1 + 1) at 1 by ring. rewrite Rpower_plus, Rpower_1 by lra.
      replace (2 * (Rpower (/ 2) (a - 1) * / 2) * Rpower 2 (a - 1)) with (Rpower (/ 2) (a - 1) * Rpower 2 (a - 1)) by field.
      rewrite Rpower_mult_distr by lra. rewrite Rinv_l by lra. unfold Rpower. now rewrite ln_1, Rmult_0_r, exp_0. }
    assert (E3 : exp (2 * x + 1) * exp (- (2 * x + 1)) = 1) by (rewrite <- exp_plus, Rplus_opp_r, exp_0; auto).
    apply (Rmult_le_compat_l (2 * x * exp (2 * x + 1) * Rpower (/ 2) a)) in G.
    2: { repeat apply Rmult_le_pos; try lra; left; apply exp_pos. }
    eapply Rle_trans; [|exact G].
    replace (2 * x * exp (2 * x + 1) * Rpower (/ 2) a * (Rpower 2 (a - 1) * Rpower x (a - 1) * exp (- (2 * x + 1))))
      with (x * Rpower x (a - 1) * (2 * Rpower (/ 2) a * Rpower 2 (a - 1)) * (exp (2 * x + 1) * exp (- (2 * x + 1)))) by ring.
    rewrite E2, E3. lra.
  - apply lim_scal0; [typeclasses eauto|]. apply geo_lim. lra.
Qed.
(** ** u^a / Gam a *)
Lemma pw_Gam_0 u : 0 < u -> filterlim (fun a => Rpower u a / Gam a) (at_right 0) (locally 0).
Proof.
  intros Hu. apply (filt_le _ _ (fun a => (1 + u) * exp 1 * a)).
  - generalize (right_lt 1 Rlt_0_1). apply filter_imp. intros a Ha.
    pose proof (Gam_pos a ltac:(lra)). pose proof (Gam_small a ltac:(lra)) as G.
    split; [left; apply Rdiv_lt_0_compat; [apply exp_pos|auto]|].
    apply (Rmult_le_reg_r (Gam a)); auto. replace (Rpower u a / Gam a * Gam a) with (Rpower u a) by (field; lra).
    eapply Rle_trans; [apply pow_le_1p; lra|].
    replace (1 + u) with ((1 + u) * exp 1 * a * (exp (-1) / a)) at 1.
    2: { replace (-1) with (- (1)) by ring. rewrite exp_Ropp. pose proof (exp_pos 1). field. repeat split; lra. }
    apply Rmult_le_compat_l; [|exact G]. pose proof (exp_pos 1). repeat apply Rmult_le_pos; lra.
  - apply lim_scal0; [typeclasses eauto|apply id_right0].
Qed.
Lemma pw_Gam_inf u : 0 < u -> filterlim (fun a => Rpower u a / Gam a) (Rbar_locally p_infty) (locally 0).
Proof.
  intros Hu. apply (filt_le _ _ (fun a => 2 * u * exp (2 * u + 1) * Rpower (/ 2) a)).
  - exists 1. intros a Ha. pose proof (Gam_pos a ltac:(lra)). split; [left; apply Rdiv_lt_0_compat; [apply exp_pos|auto]|].
    apply (Rmult_le_reg_r (Gam a)); auto. replace (Rpower u a / Gam a * Gam a) with (Rpower u a) by (field; lra).
    pose proof (Gam_big a (2 * u) ltac:(lra) ltac:(lra)) as G. rewrite <- Rpower_mult_distr in G by lra.
    assert (E2 : 2 * Rpower (/ 2) a * Rpower 2 (a - 1) = 1).
    { replace a with (a - 1 + 1) at 1 by ring. rewrite Rpower_plus, Rpower_1 by lra.
      replace (2 * (Rpower (/ 2) (a - 1) * / 2) * Rpower 2 (a - 1)) with (Rpower (/ 2) (a - 1) * Rpower 2 (a - 1)) by field.
      rewrite Rpower_mult_distr by lra. rewrite Rinv_l by lra. unfold Rpower. now rewrite ln_1, Rmult_0_r, exp_0. }
    assert (E3 : exp (2 * u + 1) * exp (- (2 * u + 1)) = 1) by (rewrite <- exp_plus, Rplus_opp_r, exp_0; auto).
    apply (Rmult_le_compat_l (2 * u * exp (2 * u + 1) * Rpower (/ 2) a)) in G.
    2: { repeat apply Rmult_le_pos; try lra; left; apply exp_pos. }
    eapply Rle_trans; [|exact G].
    replace (2 * u * exp (2 * u + 1) * Rpower (/ 2) a * (Rpower 2 (a - 1) * Rpower u (a - 1) * exp (- (2 * u + 1))))
      with (Rpower u (a - 1) * u * (2 * Rpower (/ 2) a * Rpower 2 (a - 1)) * (exp (2 * u + 1) * exp (- (2 * u + 1)))) by ring.
    rewrite E2, E3. replace a with (a - 1 + 1) at 1 by ring. rewrite Rpower_plus, Rpower_1 by lra. lra.
  - apply lim_scal0; [typeclasses eauto|]. apply geo_lim. lra.
Qed.
