(** Student's t and F laws with infinite degrees of freedom. *)
From Coq Require Import Reals Lra Lia.
From Coquelicot Require Import Coquelicot.
From Verif Require Import Spec RealElem Analysis PowInt Erf GammaFn BetaFn NormR SpecSF FamR SymR LawR LimR LimR2 LimR3 LimR4 LimR6.
Local Open Scope R_scope.

Lemma ln1p_bounds u : 0 <= u -> u - u * u / 2 <= ln (1 + u) <= u.
Proof.
  intros Hu. split.
  - cut (ln (1 + 0) - (0 - 0 * 0 / 2) <= ln (1 + u) - (u - u * u / 2)); [rewrite Rplus_0_r, ln_1; lra|].
    apply (mono_of_derive (fun t => ln (1 + t) - (t - t * t / 2)) (fun t => t * t / (1 + t))); auto.
    + intros t Ht. auto_derive; [lra|]. field. lra.
    + intros t Ht. apply Rmult_le_pos; [nra|left; apply Rinv_0_lt_compat; lra].
    + intros t Ht. apply (derive_cont_pt _ _ (t * t / (1 + t))). auto_derive; [lra|]. field. lra.
  - pose proof (ln_le_lin (1 + u) ltac:(lra)). lra.
Qed.
(** comparison of increments *)
Lemma inc_le (F G f g : R -> R) M x : 0 <= x ->
  (forall t, 0 < t < x -> is_derive F t (f t)) -> (forall t, 0 < t < x -> is_derive G t (g t)) ->
  (forall t, 0 <= t <= x -> continuity_pt F t) -> (forall t, 0 <= t <= x -> continuity_pt G t) ->
  (forall t, 0 < t < x -> f t <= M * g t) -> F x - F 0 <= M * (G x - G 0).
Proof.
  intros Hx DF DG CF CG H. cut (M * G 0 - F 0 <= M * G x - F x); [lra|].
  apply (mono_of_derive (fun t => M * G t - F t) (fun t => M * g t - f t)); auto.
  - intros t Ht. apply d_minus; [apply d_scal; auto|auto].
  - intros t Ht. specialize (H t Ht). lra.
  - intros t Ht. apply continuity_pt_minus; auto. apply continuity_pt_mult; auto. apply continuity_pt_const. intros ? ?; auto.
Qed.
Lemma inc_ge (F G f g : R -> R) M x : 0 <= x ->
  (forall t, 0 < t < x -> is_derive F t (f t)) -> (forall t, 0 < t < x -> is_derive G t (g t)) ->
  (forall t, 0 <= t <= x -> continuity_pt F t) -> (forall t, 0 <= t <= x -> continuity_pt G t) ->
  (forall t, 0 < t < x -> M * g t <= f t) -> M * (G x - G 0) <= F x - F 0.
Proof.
  intros Hx DF DG CF CG H. cut (F 0 - M * G 0 <= F x - M * G x); [lra|].
  apply (mono_of_derive (fun t => F t - M * G t) (fun t => f t - M * g t)); auto.
  - intros t Ht. apply d_minus; [auto|apply d_scal; auto].
  - intros t Ht. specialize (H t Ht). lra.
  - intros t Ht. apply continuity_pt_minus; auto. apply continuity_pt_mult; auto. apply continuity_pt_const. intros ? ?; auto.
Qed.
(** a factor [g e^{c/n}] tends to 1 *)
Lemma factor_lim (F : (R -> Prop) -> Prop) {FF : Filter F} (g h : R -> R) :
  filterlim g F (locally 1) -> filterlim h F (locally 0) -> filterlim (fun n => g n * exp (h n)) F (locally 1).
Proof.
  intros G H. replace (locally 1) with (locally (1 * exp 0)) by (f_equal; rewrite exp_0; ring). apply lim_mul; auto.
  apply (lim_comp _ h exp); auto. apply (derive_cont_pt _ _ (exp 0)). auto_derive; auto. ring.
Qed.
Lemma lim_1c (F : (R -> Prop) -> Prop) {FF : Filter F} (g : R -> R) c :
  filterlim g F (locally 1) -> filterlim (fun n => g n * c) F (locally c).
Proof.
  intros G. replace (locally c) with (locally (1 * c)) by (f_equal; ring). apply lim_mul; auto. apply filterlim_const.
Qed.

(** ** Student's t *)
Lemma t_pdf_g n y : 0 < n -> t_pdf n y = gratio (/ 2) (n / 2) * (1 / sqrt (2 * PI)) * exp (- ((n + 1) / 2 * ln (1 + y ^ 2 / n))).
Proof.
  intros Hn. unfold t_pdf, gratio. pose proof PI_RGT_0. replace (n / 2 + / 2) with ((n + 1) / 2) by field.
  rewrite Rpower_sqrt by lra. pose proof (Gam_pos (n / 2) ltac:(lra)).
  replace (n * PI) with (n / 2 * (2 * PI)) by field. rewrite sqrt_mult by lra.
  assert (0 < sqrt (n / 2)) by (apply sqrt_lt_R0; lra). assert (0 < sqrt (2 * PI)) by (apply sqrt_lt_R0; lra).
  unfold Rpower. replace (- ((n + 1) / 2) * ln (1 + y ^ 2 / n)) with (- ((n + 1) / 2 * ln (1 + y ^ 2 / n))) by ring. field. lra.
Qed.
Lemma phi_e y : norm_pdf 0 1 y = 1 / sqrt (2 * PI) * exp (- (y ^ 2 / 2)).
Proof. unfold norm_pdf. rewrite Rmult_1_r. do 3 f_equal. field. Qed.
Definition t_lo (X n : R) : R := gratio (/ 2) (n / 2) * exp (- (X ^ 2 / 2) / n).
Definition t_hi (X n : R) : R := gratio (/ 2) (n / 2) * exp (X ^ 4 / 2 / n).
Lemma t_sandwich X n y : 1 <= n -> 0 <= y <= X -> t_lo X n * norm_pdf 0 1 y <= t_pdf n y <= t_hi X n * norm_pdf 0 1 y.
Proof.
  intros Hn Hy. rewrite t_pdf_g, phi_e by lra. unfold t_lo, t_hi.
  destruct (gratio_bounds (/ 2) (n / 2) ltac:(lra) ltac:(lra)) as (G & _).
  assert (0 < gratio (/ 2) (n / 2)) by (eapply Rlt_le_trans; [|exact G]; apply exp_pos).
  set (g := gratio (/ 2) (n / 2)) in *. assert (0 < 1 / sqrt (2 * PI)).
  { apply Rdiv_lt_0_compat; [lra|]. apply sqrt_lt_R0. pose proof PI_RGT_0. lra. }
  set (c := 1 / sqrt (2 * PI)) in *.
  assert (Hu : 0 <= y ^ 2 / n) by (apply Rmult_le_pos; [nra|left; apply Rinv_0_lt_compat; lra]).
  destruct (ln1p_bounds _ Hu) as (B1 & B2). set (L := ln (1 + y ^ 2 / n)) in *.
  assert (Hi : 0 < / n) by (apply Rinv_0_lt_compat; lra).
  assert (Y2 : y ^ 2 <= X ^ 2) by nra. assert (Y4 : y ^ 4 <= X ^ 4) by (replace (y ^ 4) with (y ^ 2 * y ^ 2) by ring; replace (X ^ 4) with (X ^ 2 * X ^ 2) by ring; nra).
  replace (g * exp (- (X ^ 2 / 2) / n) * (c * exp (- (y ^ 2 / 2)))) with (g * c * exp (- (X ^ 2 / 2) / n + - (y ^ 2 / 2))) by (rewrite exp_plus; ring).
  replace (g * exp (X ^ 4 / 2 / n) * (c * exp (- (y ^ 2 / 2)))) with (g * c * exp (X ^ 4 / 2 / n + - (y ^ 2 / 2))) by (rewrite exp_plus; ring).
  assert (0 < g * c) by nra. split; apply Rmult_le_compat_l; try lra; apply exp_le_compat.
  - apply (Rmult_le_compat_l ((n + 1) / 2)) in B2; [|lra].
    replace ((n + 1) / 2 * (y ^ 2 / n)) with (y ^ 2 / 2 + y ^ 2 / 2 / n) in B2 by (field; lra).
    assert (y ^ 2 / 2 / n <= X ^ 2 / 2 / n) by (apply Rmult_le_compat_r; lra). unfold Rdiv in *. lra.
  - apply (Rmult_le_compat_l ((n + 1) / 2)) in B1; [|lra].
    replace ((n + 1) / 2 * (y ^ 2 / n - y ^ 2 / n * (y ^ 2 / n) / 2)) with (y ^ 2 / 2 + y ^ 2 / 2 / n - (n + 1) / (4 * n) * (y ^ 4 / n)) in B1 by (field; lra).
    assert (0 <= y ^ 2 / 2 / n) by (apply Rmult_le_pos; nra).
    assert ((n + 1) / (4 * n) <= / 2).
    { apply (Rmult_le_reg_r (4 * n)); [lra|]. replace ((n + 1) / (4 * n) * (4 * n)) with (n + 1) by (field; lra). lra. }
    assert (0 <= y ^ 4 / n) by (apply Rmult_le_pos; [replace (y ^ 4) with (y ^ 2 * y ^ 2) by ring; nra|lra]).
    assert (y ^ 4 / n <= X ^ 4 / n) by (apply Rmult_le_compat_r; lra).
    assert ((n + 1) / (4 * n) * (y ^ 4 / n) <= / 2 * (X ^ 4 / n)) by (apply Rmult_le_compat; try lra; left; apply Rdiv_lt_0_compat; lra).
    replace (X ^ 4 / 2 / n) with (/ 2 * (X ^ 4 / n)) by (unfold Rdiv; ring). lra.
Qed.
Lemma gr_half a : 0 < a -> filterlim (fun n => gratio a (n / 2)) (Rbar_locally p_infty) (locally 1).
Proof. intros. apply (filterlim_comp _ _ _ (fun n => n / 2) (gratio a) _ (Rbar_locally p_infty)); [apply half_inf|now apply gratio_lim]. Qed.
Lemma t_lo_lim X : filterlim (t_lo X) (Rbar_locally p_infty) (locally 1).
Proof. apply factor_lim; [typeclasses eauto|apply gr_half; lra|apply div_inf]. Qed.
Lemma t_hi_lim X : filterlim (t_hi X) (Rbar_locally p_infty) (locally 1).
Proof. apply factor_lim; [typeclasses eauto|apply gr_half; lra|apply div_inf]. Qed.
Lemma t_pdf_inf x : filterlim (fun n => t_pdf n x) (Rbar_locally p_infty) (locally (norm_pdf 0 1 x)).
Proof.
  assert (P : forall y, 0 <= y -> filterlim (fun n => t_pdf n y) (Rbar_locally p_infty) (locally (norm_pdf 0 1 y))).
  { intros y Hy. apply (lim_squeeze _ (fun n => t_lo y n * norm_pdf 0 1 y) _ (fun n => t_hi y n * norm_pdf 0 1 y)).
    - exists 1. intros n Hn. apply t_sandwich; lra.
    - apply lim_1c; [typeclasses eauto|apply t_lo_lim].
    - apply lim_1c; [typeclasses eauto|apply t_hi_lim]. }
  destruct (Rle_lt_dec 0 x); auto.
  apply (lim_eq _ (fun n => t_pdf n (- x))); [exists 0; intros; now rewrite t_pdf_even|].
  replace (norm_pdf 0 1 x) with (norm_pdf 0 1 (- x)) by (rewrite !phi_e; do 3 f_equal; field). apply P. lra.
Qed.
Lemma t_cdf_inf x : filterlim (fun n => t_cdf n x) (Rbar_locally p_infty) (locally (norm_cdf 0 1 x)).
Proof.
  assert (H0 : norm_cdf 0 1 0 = 1 / 2) by apply norm_lc.
  assert (P : forall y, 0 <= y -> filterlim (fun n => t_cdf n y) (Rbar_locally p_infty) (locally (norm_cdf 0 1 y))).
  { intros y Hy.
    assert (Q : filterlim (fun n => t_cdf n y - 1 / 2) (Rbar_locally p_infty) (locally (norm_cdf 0 1 y - norm_cdf 0 1 0))).
    { set (D := norm_cdf 0 1 y - norm_cdf 0 1 0).
      apply (lim_squeeze _ (fun n => t_lo y n * D) _ (fun n => t_hi y n * D)).
      - exists 1. intros n Hn. rewrite <- (t_cdf_0 n). unfold D. split.
        + apply (inc_ge (t_cdf n) (norm_cdf 0 1) (t_pdf n) (norm_pdf 0 1)); auto.
          * intros t Ht. apply t_cdf_derive; lra.
          * intros t Ht. apply norm_cdf_derive; lra.
          * intros t Ht. eapply derive_cont_pt, t_cdf_derive; lra.
          * intros t Ht. eapply derive_cont_pt, norm_cdf_derive; lra.
          * intros t Ht. apply t_sandwich; lra.
        + apply (inc_le (t_cdf n) (norm_cdf 0 1) (t_pdf n) (norm_pdf 0 1)); auto.
          * intros t Ht. apply t_cdf_derive; lra.
          * intros t Ht. apply norm_cdf_derive; lra.
          * intros t Ht. eapply derive_cont_pt, t_cdf_derive; lra.
          * intros t Ht. eapply derive_cont_pt, norm_cdf_derive; lra.
          * intros t Ht. apply t_sandwich; lra.
      - apply lim_1c; [typeclasses eauto|apply t_lo_lim].
      - apply lim_1c; [typeclasses eauto|apply t_hi_lim]. }
    apply (filterlim_ext (fun n => (t_cdf n y - 1 / 2) + 1 / 2)); [intros; ring|].
    replace (locally (norm_cdf 0 1 y)) with (locally (norm_cdf 0 1 y - norm_cdf 0 1 0 + 1 / 2)) by (f_equal; lra).
    apply (lim_comp _ (fun n => t_cdf n y - 1 / 2) (fun z => z + 1 / 2)); auto.
    apply (derive_cont_pt _ _ 1). auto_derive; auto. }
  destruct (Rle_lt_dec 0 x); auto.
  apply (lim_eq _ (fun n => 1 - t_cdf n (- x))); [exists 0; intros n Hn; rewrite t_cdf_sym by auto; ring|].
  apply (lim_1m _ _ (norm_cdf 0 1 (- x))); [|apply P; lra].
  replace x with (0 - - x) at 1 by ring. rewrite norm_cdf_sym by lra. now rewrite Rplus_0_l.
Qed.

(** ** F, second degrees of freedom *)
Section F.
Variable d1 : R.
Hypothesis Hd : 0 < d1.
Let a := d1 / 2.
Lemma f_pdf_g d2 y : 0 < d2 -> 0 < y ->
  f_pdf d1 d2 y = gratio a (d2 / 2) * exp (a * y - (a + d2 / 2) * ln (1 + a * y / (d2 / 2))) * gamma_pdf a (2 / d1) y.
Proof.
  intros H2 Hy. assert (Ha : 0 < a) by (unfold a; lra). set (b := d2 / 2). assert (Hb : 0 < b) by (unfold b; lra).
  unfold f_pdf, gamma_pdf, gratio. fold a. fold b. rewrite Beta_val by auto.
  replace (d1 / d2) with (a / b) by (unfold a, b; field; lra). replace ((d1 + d2) / 2) with (a + b) by (unfold a, b; field).
  replace (2 / d1) with (/ a) by (unfold a; field; lra). replace (a / b * y) with (a * y / b) by (unfold Rdiv; ring).
  rewrite Rpower_quot by auto.
  assert (E : Rpower (/ a) a = / Rpower a a) by (unfold Rpower; rewrite ln_Rinv, <- exp_Ropp by auto; f_equal; ring). rewrite E.
  assert (E2 : exp (a * y - (a + b) * ln (1 + a * y / b)) = exp (a * y) * Rpower (1 + a * y / b) (- (a + b))).
  { unfold Rpower. rewrite <- exp_plus. f_equal. ring. }
  rewrite E2.
  replace (- y / / a) with (- (a * y)) by (field; lra). rewrite (exp_Ropp (a * y)).
  pose proof (Gam_pos a Ha). pose proof (Gam_pos b Hb). pose proof (Gam_pos (a + b) ltac:(lra)).
  pose proof (exp_pos (a * y)). rewrite (Rplus_comm b a).
  assert (0 < Rpower a a) by apply exp_pos. assert (0 < Rpower b a) by apply exp_pos.
  field. lra.
Qed.
Definition f_lo (X d2 : R) : R := gratio a (d2 / 2) * exp (- (a * a * X * 2) / d2).
Definition f_hi (X d2 : R) : R := gratio a (d2 / 2) * exp (a * a * X * X * 2 / d2).
Lemma f_sandwich X d2 y : d1 <= d2 -> 0 < y <= X ->
  f_lo X d2 * gamma_pdf a (2 / d1) y <= f_pdf d1 d2 y <= f_hi X d2 * gamma_pdf a (2 / d1) y.
Proof.
  intros H2 Hy. rewrite f_pdf_g by lra. assert (Ha : 0 < a) by (unfold a; lra). unfold f_lo, f_hi.
  set (b := d2 / 2). assert (Hb : a <= b) by (unfold a, b; lra).
  assert (0 < gratio a b).
  { unfold gratio. apply Rdiv_lt_0_compat; [apply Gam_pos; lra|]. apply Rmult_lt_0_compat; [apply exp_pos|apply Gam_pos; lra]. }
  pose proof (gamma_pdf_pos a (2 / d1) Ha y). set (q := gamma_pdf a (2 / d1) y) in *.
  assert (Hi : 0 < / b) by (apply Rinv_0_lt_compat; lra).
  set (u := a * y / b). assert (0 <= a * y) by nra. assert (Hu : 0 <= u) by (unfold u; apply Rmult_le_pos; lra).
  destruct (ln1p_bounds _ Hu) as (B1 & B2). set (L := ln (1 + u)) in *.
  assert (Eu : b * u = a * y) by (unfold u; field; lra).
  replace (- (a * a * X * 2) / d2) with (- (a * (a * X / b))) by (unfold b; field; lra).
  replace (a * a * X * X * 2 / d2) with (a * X * (a * X / b)) by (unfold b; field; lra).
  assert (Hu2 : u <= a * X / b). { unfold u. apply Rmult_le_compat_r; [lra|]. apply Rmult_le_compat_l; lra. }
  split; apply Rmult_le_compat_r; try lra; apply Rmult_le_compat_l; try lra; apply exp_le_compat.
  - assert ((a + b) * L <= (a + b) * u) by (apply Rmult_le_compat_l; lra).
    assert (a * u <= a * (a * X / b)) by (apply Rmult_le_compat_l; lra). lra.
  - assert ((a + b) * (u - u * u / 2) <= (a + b) * L) by (apply Rmult_le_compat_l; lra).
    assert (0 <= a * u) by nra.
    assert ((a + b) * (u * u / 2) <= (b + b) * (u * u / 2)) by (apply Rmult_le_compat_r; nra).
    assert (b * u * u <= a * X * (a * X / b)).
    { rewrite Eu. apply Rmult_le_compat; auto; nra. }
    lra.
Qed.
Lemma f_lo_lim X : filterlim (f_lo X) (Rbar_locally p_infty) (locally 1).
Proof. apply factor_lim; [typeclasses eauto|apply gr_half; unfold a; lra|apply div_inf]. Qed.
Lemma f_hi_lim X : filterlim (f_hi X) (Rbar_locally p_infty) (locally 1).
Proof. apply factor_lim; [typeclasses eauto|apply gr_half; unfold a; lra|apply div_inf]. Qed.
Lemma f_pdf_d2inf x : 0 < x -> filterlim (fun d2 => f_pdf d1 d2 x) (Rbar_locally p_infty) (locally (gamma_pdf (d1 / 2) (2 / d1) x)).
Proof.
  intros Hx. fold a. apply (lim_squeeze _ (fun d2 => f_lo x d2 * gamma_pdf a (2 / d1) x) _ (fun d2 => f_hi x d2 * gamma_pdf a (2 / d1) x)).
  - exists d1. intros n Hn. apply f_sandwich; lra.
  - apply lim_1c; [typeclasses eauto|apply f_lo_lim].
  - apply lim_1c; [typeclasses eauto|apply f_hi_lim].
Qed.
Lemma f_cdf_d2inf x : 0 < x -> filterlim (fun d2 => f_cdf d1 d2 x) (Rbar_locally p_infty) (locally (gamma_cdf (d1 / 2) (2 / d1) x)).
Proof.
  intros Hx. fold a. assert (Ha : 0 < a) by (unfold a; lra). assert (Ht : 0 < 2 / d1) by (apply Rdiv_lt_0_compat; lra).
  set (D := gamma_cdf a (2 / d1) x).
  assert (G0 : gamma_cdf a (2 / d1) 0 = 0) by (unfold gamma_cdf, Rdiv; now rewrite Rmult_0_l, PG_0).
  assert (F0 : forall d2, 0 < d2 -> f_cdf d1 d2 0 = 0).
  { intros d2 H. unfold f_cdf, Rdiv. rewrite Rmult_0_r, Rmult_0_l. apply IB_0; lra. }
  assert (FC : forall d2 t, 0 < d2 -> 0 <= t -> continuity_pt (f_cdf d1 d2) t).
  { intros d2 t H2 H. unfold f_cdf. apply (continuity_pt_comp (fun t => d1 * t / (d2 + d1 * t)) (IB (d1 / 2) (d2 / 2))); [|apply IB_cont; lra].
    apply (derive_cont_pt _ _ (d1 * d2 / (d2 + d1 * t) ^ 2)). assert (0 <= d1 * t) by nra. auto_derive; [lra|]. field. lra. }
  assert (GC : forall t, continuity_pt (gamma_cdf a (2 / d1)) t).
  { intros t. unfold gamma_cdf. apply (continuity_pt_comp (fun t => t / (2 / d1)) (PG a)); [|now apply PG_cont].
    apply (derive_cont_pt _ _ (/ (2 / d1))). apply d_div. }
  apply (lim_squeeze _ (fun d2 => f_lo x d2 * D) _ (fun d2 => f_hi x d2 * D)).
  - exists d1. intros n Hn. replace (f_cdf d1 n x) with (f_cdf d1 n x - f_cdf d1 n 0) by (rewrite F0 by lra; ring).
    replace D with (gamma_cdf a (2 / d1) x - gamma_cdf a (2 / d1) 0) by (rewrite G0; unfold D; ring). split.
    + apply (inc_ge (f_cdf d1 n) (gamma_cdf a (2 / d1)) (f_pdf d1 n) (gamma_pdf a (2 / d1))); [lra|..]; intros t Ht'; auto.
      * apply f_cdf_derive; lra.
      * apply gamma_cdf_derive; lra.
      * apply FC; lra.
      * apply f_sandwich; lra.
    + apply (inc_le (f_cdf d1 n) (gamma_cdf a (2 / d1)) (f_pdf d1 n) (gamma_pdf a (2 / d1))); [lra|..]; intros t Ht'; auto.
      * apply f_cdf_derive; lra.
      * apply gamma_cdf_derive; lra.
      * apply FC; lra.
      * apply f_sandwich; lra.
  - apply lim_1c; [typeclasses eauto|apply f_lo_lim].
  - apply lim_1c; [typeclasses eauto|apply f_hi_lim].
Qed.
End F.
(** ** F, first degrees of freedom, by reflection *)
Lemma f_cdf_swap d1 d2 x : 0 < d1 -> 0 < d2 -> 0 < x -> f_cdf d1 d2 x = 1 - f_cdf d2 d1 (1 / x).
Proof.
  intros. unfold f_cdf. assert (0 < d1 * x) by nra. rewrite IB_sym by lra. do 2 f_equal. field. lra.
Qed.
Lemma f_pdf_swap d1 d2 x : 0 < d1 -> 0 < d2 -> 0 < x -> f_pdf d1 d2 x = f_pdf d2 d1 (1 / x) * / x ^ 2.
Proof.
  intros. assert (0 < d1 * x) by nra. assert (0 < 1 / x) by (apply Rdiv_lt_0_compat; lra). rewrite !f_beta_pdf by auto.
  rewrite beta_pdf_sym. replace (1 - d1 * x / (d2 + d1 * x)) with (d2 * (1 / x) / (d1 + d2 * (1 / x))) by (field; lra).
  rewrite Rmult_assoc. f_equal. field. lra.
Qed.
Lemma f_pdf_d1inf d2 x : 0 < d2 -> 0 < x -> filterlim (fun d1 => f_pdf d1 d2 x) (Rbar_locally p_infty) (locally (invgamma_pdf (d2 / 2) (d2 / 2) x)).
Proof.
  intros H2 Hx. assert (0 < 1 / x) by (apply Rdiv_lt_0_compat; lra).
  apply (lim_eq _ (fun d1 => f_pdf d2 d1 (1 / x) * / x ^ 2)); [exists 0; intros; symmetry; now apply f_pdf_swap|].
  replace (locally (invgamma_pdf (d2 / 2) (d2 / 2) x)) with (locally (gamma_pdf (d2 / 2) (2 / d2) (1 / x) * / x ^ 2)).
  { apply lim_mul; [typeclasses eauto| |apply filterlim_const]. now apply f_pdf_d2inf. }
  f_equal. unfold gamma_pdf, invgamma_pdf. set (a := d2 / 2). assert (Ha : 0 < a) by (unfold a; lra).
  replace (2 / d2) with (/ a) by (unfold a; field; lra). replace (1 / x) with (/ x) by (field; lra).
  rewrite !Rpower_inv by auto. rewrite Rpower_m1 by auto. replace (- / x / / a) with (- a / x) by (field; lra).
  replace (- a - 1) with (- (a + 1)) by ring. rewrite Rpower_Ropp, Rpower_plus, Rpower_1 by auto.
  pose proof (Rpower_nz a a). pose proof (Rpower_nz x a). pose proof (Gam_pos a Ha). field. repeat split; auto; lra.
Qed.
Lemma f_cdf_d1inf d2 x : 0 < d2 -> 0 < x -> filterlim (fun d1 => f_cdf d1 d2 x) (Rbar_locally p_infty) (locally (1 - chisq_cdf d2 (d2 / x))).
Proof.
  intros H2 Hx. assert (0 < 1 / x) by (apply Rdiv_lt_0_compat; lra).
  apply (lim_eq _ (fun d1 => 1 - f_cdf d2 d1 (1 / x))); [exists 0; intros; symmetry; now apply f_cdf_swap|].
  apply (lim_1m _ _ (gamma_cdf (d2 / 2) (2 / d2) (1 / x))); [|now apply f_cdf_d2inf].
  unfold chisq_cdf, gamma_cdf. do 2 f_equal. field. lra.
Qed.
Lemma gamma_chisq_d d1 x : 0 < d1 -> gamma_cdf (d1 / 2) (2 / d1) x = chisq_cdf d1 (x * d1).
Proof. intros. unfold chisq_cdf, gamma_cdf. f_equal. field. lra. Qed.
(** ** both, along the diagonal *)
Lemma f_diag_arg d x : 0 < d -> 0 < x -> d * x / (d + d * x) = x / (1 + x).
Proof. intros. field. split; nra. Qed.
Lemma f_cdf_diag x : 0 < x -> x <> 1 ->
  filterlim (fun d => f_cdf d d x) (Rbar_locally p_infty) (locally (if Rlt_dec 1 x then 1 else 0)).
Proof.
  intros Hx Hn. assert (Q := quot_lt1 x (1 + x) ltac:(lra)).
  apply (lim_eq _ (fun d => (fun a => IB a a (x / (1 + x))) (d / 2))).
  { exists 0. intros d Hd. unfold f_cdf. now rewrite f_diag_arg. }
  apply (filterlim_comp _ _ _ (fun d => d / 2) (fun a => IB a a (x / (1 + x))) _ (Rbar_locally p_infty)); [apply half_inf|].
  assert (E : x / (1 + x) * (1 + x) = x) by (field; lra).
  destruct (Rlt_dec 1 x); [apply IB_diag_inf_hi|apply IB_diag_inf_lo]; nra.
Qed.
Lemma f_cdf_diag1 d : 0 < d -> f_cdf d d 1 = / 2.
Proof. intros. unfold f_cdf. rewrite f_diag_arg by lra. replace (1 / (1 + 1)) with (/ 2) by field. apply IB_diag_mid. lra. Qed.
Lemma f_pdf_diag_e d x : 0 < d -> 0 < x -> f_pdf d d x = beta_pdf (d / 2) (d / 2) (x / (1 + x)) * / (1 + x) ^ 2.
Proof. intros. rewrite f_beta_pdf by auto. rewrite f_diag_arg by auto. f_equal. field. split; nra. Qed.
Lemma f_pdf_diag x : 0 < x -> x <> 1 -> filterlim (fun d => f_pdf d d x) (Rbar_locally p_infty) (locally 0).
Proof.
  intros Hx Hn. assert (Q := quot_lt1 x (1 + x) ltac:(lra)).
  apply (lim_eq _ (fun d => beta_pdf (d / 2) (d / 2) (x / (1 + x)) * / (1 + x) ^ 2)).
  { exists 0. intros d Hd. now rewrite f_pdf_diag_e. }
  replace (locally 0) with (locally (0 * / (1 + x) ^ 2)) by (f_equal; ring).
  apply lim_mul; [typeclasses eauto| |apply filterlim_const].
  apply (filterlim_comp _ _ _ (fun d => d / 2) (fun a => beta_pdf a a (x / (1 + x))) _ (Rbar_locally p_infty)); [apply half_inf|].
  apply beta_pdf_diag_inf; auto. intros E. apply Hn.
  assert (x / (1 + x) * (1 + x) = x) by (field; lra). rewrite E in H. lra.
Qed.
Lemma f_pdf_diag1 : filterlim (fun d => f_pdf d d 1) (Rbar_locally p_infty) (Rbar_locally p_infty).
Proof.
  pose proof (filterlim_comp _ _ _ (fun d => d / 2) (fun a => beta_pdf a a (/ 2)) _ _ _ half_inf beta_pdf_diag_half) as H.
  intros P [M HP]. destruct (H (fun y => 4 * M < y)) as [N HN]; [exists (4 * M); auto|].
  exists (Rmax N 0). intros d Hd. pose proof (Rmax_l N 0). pose proof (Rmax_r N 0). apply HP. rewrite f_pdf_diag_e by lra.
  replace (1 / (1 + 1)) with (/ 2) by field. specialize (HN d ltac:(lra)). cbv beta in HN. nra.
Qed.
