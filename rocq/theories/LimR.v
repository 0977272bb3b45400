(** Limits of the textbook formulas when a parameter tends to 0 or to infinity. *)
From Coq Require Import Reals Lra Lia.
From Coquelicot Require Import Coquelicot.
From Verif Require Import Spec RealElem Analysis Erf NormR SpecSF FamR LawR.
Local Open Scope R_scope.

(** ** bounds used in both directions *)
Lemma exp_ge_1 x : 1 + x <= exp x.
Proof. apply exp_ineq1_le. Qed.
Lemma filt_le (F : (R -> Prop) -> Prop) {HF : Filter F} (f g : R -> R) :
  F (fun s => 0 <= f s <= g s) -> filterlim g F (locally 0) -> filterlim f F (locally 0).
Proof.
  intros H G P [e HP]. assert (B : F (fun s => Rabs (g s) < e)).
  { apply (G (fun y => Rabs y < e)). exists e. intros y Hy. unfold ball in Hy. cbn in Hy.
    unfold AbsRing_ball, abs, minus, plus, opp in Hy. cbn in Hy. now rewrite Ropp_0, Rplus_0_r in Hy. }
  unfold filtermap. generalize (filter_and _ _ H B). apply filter_imp. intros s (H1 & H2). apply HP.
  unfold ball. cbn. unfold AbsRing_ball, abs, minus, plus, opp. cbn. rewrite Ropp_0, Rplus_0_r.
  rewrite Rabs_right in H2 by lra. rewrite Rabs_right; lra.
Qed.
Lemma filt_ge_inf (F : (R -> Prop) -> Prop) {HF : Filter F} (f g : R -> R) :
  F (fun s => g s <= f s) -> filterlim g F (Rbar_locally p_infty) -> filterlim f F (Rbar_locally p_infty).
Proof.
  intros H G P [M HP]. unfold filtermap. assert (B : F (fun s => M < g s)) by exact (G (fun y => M < y) (ex_intro _ M (fun x h => h))).
  generalize (filter_and _ _ H B).
  apply filter_imp. intros s (H1 & H2). apply HP. lra.
Qed.
Lemma right_pos : at_right 0 (fun s => 0 < s).
Proof. exists (mkposreal 1 Rlt_0_1). intros y _ H. exact H. Qed.
Lemma right_lt c : 0 < c -> at_right 0 (fun s => 0 < s < c).
Proof.
  intros H. exists (mkposreal c H). intros y B Hy. unfold ball in B. cbn in B.
  unfold AbsRing_ball, abs, minus, plus, opp in B. cbn in B. apply Rabs_def2 in B. lra.
Qed.
Lemma inf_gt c : Rbar_locally p_infty (fun s => c < s).
Proof. exists c. auto. Qed.
Lemma minf_lt c : Rbar_locally m_infty (fun s => s < c).
Proof. exists c. auto. Qed.

(** ** inner limits *)
Lemma div_inf c : filterlim (fun s => c / s) (Rbar_locally p_infty) (locally 0).
Proof.
  apply lim_inf. intros e He. exists (Rabs c / e). intros x Hx. pose proof (Rabs_pos c).
  assert (0 <= Rabs c / e) by (apply Rmult_le_pos; [auto|left; now apply Rinv_0_lt_compat]).
  rewrite Rminus_0_r. unfold Rdiv. rewrite Rabs_mult, (Rabs_right (/ x)) by (left; apply Rinv_0_lt_compat; lra).
  apply (Rmult_lt_reg_r x); [lra|]. rewrite Rmult_assoc, Rinv_l, Rmult_1_r by lra.
  apply (Rmult_lt_compat_r e) in Hx; auto. unfold Rdiv in Hx. rewrite Rmult_assoc, Rinv_l in Hx; lra.
Qed.
Lemma div_right_pos c : 0 < c -> filterlim (fun s => c / s) (at_right 0) (Rbar_locally p_infty).
Proof.
  intros Hc P [M HP]. set (M' := Rmax M 1). assert (1 <= M') by apply Rmax_r. assert (M <= M') by apply Rmax_l.
  assert (D : 0 < c / M') by (apply Rdiv_lt_0_compat; lra).
  unfold filtermap. generalize (right_lt _ D). apply filter_imp. intros s Hs. apply HP.
  assert (M' < c / s); [|lra]. apply (Rmult_lt_reg_r s); [lra|]. unfold Rdiv. rewrite Rmult_assoc, Rinv_l, Rmult_1_r by lra.
  destruct Hs as (H1 & H2). apply (Rmult_lt_compat_r M') in H2; [|lra]. unfold Rdiv in H2. rewrite Rmult_assoc, Rinv_l in H2; lra.
Qed.
Lemma div_right_neg c : c < 0 -> filterlim (fun s => c / s) (at_right 0) (Rbar_locally m_infty).
Proof.
  intros Hc P [M HP]. unfold filtermap.
  assert (B : at_right 0 (fun s => - M < - c / s)) by exact (div_right_pos (- c) ltac:(lra) (fun y => - M < y) (ex_intro _ (- M) (fun x h => h))).
  generalize B.
  apply filter_imp. intros s Hs. apply HP. unfold Rdiv in *. lra.
Qed.
Lemma lin_minf x s : 0 < s -> filterlim (fun m => (x - m) / s) (Rbar_locally m_infty) (Rbar_locally p_infty).
Proof.
  intros Hs P [M HP]. exists (x - M * s). intros m Hm. apply HP. apply (Rmult_lt_reg_r s); auto.
  unfold Rdiv. rewrite Rmult_assoc, Rinv_l; lra.
Qed.
Lemma lin_inf x s : 0 < s -> filterlim (fun m => (x - m) / s) (Rbar_locally p_infty) (Rbar_locally m_infty).
Proof.
  intros Hs P [M HP]. exists (x - M * s). intros m Hm. apply HP. apply (Rmult_lt_reg_r s); auto.
  unfold Rdiv. rewrite Rmult_assoc, Rinv_l; lra.
Qed.
Lemma cont_lim (H : R -> R) z : continuity_pt H z -> filterlim H (locally z) (locally (H z)).
Proof. intros C. now apply continuity_pt_filterlim. Qed.

(** ** location-scale families *)
Record loc_cdf (H : R -> R) := {
  lc_hi : filterlim H (Rbar_locally p_infty) (locally 1);
  lc_lo : filterlim H (Rbar_locally m_infty) (locally 0);
  lc_0 : filterlim H (locally 0) (locally (1 / 2));
  lc_mid : H 0 = 1 / 2 }.
Section LS.
Variable H : R -> R.
Hypothesis HH : loc_cdf H.
Lemma lc_mu_minf x s : 0 < s -> filterlim (fun m => H ((x - m) / s)) (Rbar_locally m_infty) (locally 1).
Proof. intros. eapply filterlim_comp; [now apply lin_minf|apply HH]. Qed.
Lemma lc_mu_inf x s : 0 < s -> filterlim (fun m => H ((x - m) / s)) (Rbar_locally p_infty) (locally 0).
Proof. intros. eapply filterlim_comp; [now apply lin_inf|apply HH]. Qed.
Lemma lc_s_inf x m : filterlim (fun s => H ((x - m) / s)) (Rbar_locally p_infty) (locally (1 / 2)).
Proof. eapply filterlim_comp; [apply div_inf|apply HH]. Qed.
Lemma lc_s_0_hi x m : m < x -> filterlim (fun s => H ((x - m) / s)) (at_right 0) (locally 1).
Proof. intros. eapply filterlim_comp; [apply div_right_pos; lra|apply HH]. Qed.
Lemma lc_s_0_lo x m : x < m -> filterlim (fun s => H ((x - m) / s)) (at_right 0) (locally 0).
Proof. intros. eapply filterlim_comp; [apply div_right_neg; lra|apply HH]. Qed.
Lemma lc_s_0_mid m : filterlim (fun s => H ((m - m) / s)) (at_right 0) (locally (1 / 2)).
Proof.
  apply (filterlim_ext (fun _ => 1 / 2)); [|apply filterlim_const].
  intros s. replace ((m - m) / s) with 0 by (unfold Rdiv; ring). symmetry. apply HH.
Qed.
End LS.
Lemma norm_cdf_std m s x : 0 < s -> norm_cdf m s x = norm_cdf 0 1 ((x - m) / s).
Proof. intros. unfold norm_cdf. pose proof Rlt_sqrt2_0.
  replace (((x - m) / s - 0) / (sqrt 2 * 1)) with ((x - m) / (sqrt 2 * s)) by (field; lra). reflexivity. Qed.
Lemma norm_lc : loc_cdf (norm_cdf 0 1).
Proof.
  assert (E0 : norm_cdf 0 1 0 = 1 / 2).
  { unfold norm_cdf. replace ((0 - 0) / (sqrt 2 * 1)) with 0 by (unfold Rdiv; ring). rewrite erfR_0. lra. }
  split; auto.
  - apply norm_lim_high.
  - apply lim_minf. intros e He. destruct (norm_cdf_low e He) as (m & Hm & B). exists (- m). intros x Hx.
    specialize (B x ltac:(lra)). pose proof (norm_cdf_range 0 1 x). rewrite Rminus_0_r, Rabs_right; lra.
  - rewrite <- E0. apply cont_lim. apply (derive_cont_pt _ _ _ (norm_cdf_derive 0 1 0 ltac:(lra))).
Qed.
Lemma exp_minf : filterlim exp (Rbar_locally m_infty) (locally 0).
Proof. apply (is_lim_exp_m). Qed.
Lemma laplace_cdf_std m s x : 0 < s -> laplace_cdf m s x = laplace_cdf 0 1 ((x - m) / s).
Proof.
  intros Hs. unfold laplace_cdf. rewrite Rminus_0_r.
  assert (E : Rabs ((x - m) / s) = Rabs (x - m) / s).
  { unfold Rdiv. rewrite Rabs_mult, (Rabs_right (/ s)); auto. left. now apply Rinv_0_lt_compat. }
  rewrite E. replace (- (Rabs (x - m) / s) / 1) with (- Rabs (x - m) / s) by (field; lra). do 3 f_equal.
  assert (I : 0 < / s) by now apply Rinv_0_lt_compat.
  unfold Rsign. destruct (Rlt_dec 0 (x - m)), (Rlt_dec 0 ((x - m) / s)); auto; unfold Rdiv in *; try nra.
  destruct (Rlt_dec (x - m) 0), (Rlt_dec ((x - m) * / s) 0); auto; nra.
Qed.
Lemma laplace_lc : loc_cdf (laplace_cdf 0 1).
Proof.
  assert (E0 : laplace_cdf 0 1 0 = 1 / 2).
  { rewrite laplace_cdf_low by lra. replace ((0 - 0) / 1) with 0 by field. rewrite exp_0. lra. }
  split; auto.
  - apply lim_inf. intros e He.
    destruct (exp_minf (fun y => Rabs y < e)) as (M & HM).
    { exists (mkposreal e He). intros y Hy. unfold ball in Hy. cbn in Hy. unfold AbsRing_ball, abs, minus, plus, opp in Hy. cbn in Hy.
      now rewrite Ropp_0, Rplus_0_r in Hy. }
    exists (Rmax 0 (- M)). intros x Hx. pose proof (Rmax_l 0 (- M)). pose proof (Rmax_r 0 (- M)).
    rewrite laplace_cdf_high by lra. replace ((x - 0) / 1) with x by field.
    specialize (HM (- x) ltac:(lra)). pose proof (exp_pos (- x)). rewrite Rabs_right in HM by lra. rewrite Rabs_left; lra.
  - apply lim_minf. intros e He.
    destruct (exp_minf (fun y => Rabs y < e)) as (M & HM).
    { exists (mkposreal e He). intros y Hy. unfold ball in Hy. cbn in Hy. unfold AbsRing_ball, abs, minus, plus, opp in Hy. cbn in Hy.
      now rewrite Ropp_0, Rplus_0_r in Hy. }
    exists (Rmin 0 M). intros x Hx. pose proof (Rmin_l 0 M). pose proof (Rmin_r 0 M).
    rewrite laplace_cdf_low by lra. replace ((x - 0) / 1) with x by field.
    specialize (HM x ltac:(lra)). pose proof (exp_pos x). rewrite Rabs_right in HM by lra. rewrite Rminus_0_r, Rabs_right; lra.
  - intros P [e He]. exists e. intros x Hx. apply He. unfold ball in *. cbn in *.
    unfold AbsRing_ball, abs, minus, plus, opp in *. cbn in *. rewrite Ropp_0, Rplus_0_r in Hx.
    unfold laplace_cdf. rewrite Rminus_0_r. pose proof (exp_ge_1 (- Rabs x / 1)). pose proof (Rabs_pos x).
    assert (exp (- Rabs x / 1) <= 1). { rewrite <- exp_0 at 2. apply exp_le_compat. unfold Rdiv. lra. }
    set (t := exp (- Rabs x / 1)) in *. assert (0 <= 1 - t <= Rabs x) by (split; [lra|unfold Rdiv in *; lra]).
    assert (-1 <= Rsign x <= 1) by (unfold Rsign; destruct (Rlt_dec 0 x), (Rlt_dec x 0); lra).
    apply Rabs_def1; nra.
Qed.
Lemma logis_cdf_std m s x : 0 < s -> logis_cdf m s x = logis_cdf 0 1 ((x - m) / s).
Proof. intros. unfold logis_cdf. replace (((x - m) / s - 0) / 1) with ((x - m) / s) by (field; lra). reflexivity. Qed.
Lemma logis_lc : loc_cdf (logis_cdf 0 1).
Proof.
  assert (E0 : logis_cdf 0 1 0 = 1 / 2).
  { unfold logis_cdf. replace (- ((0 - 0) / 1)) with 0 by field. rewrite exp_0. lra. }
  assert (C : forall l, 1 + l <> 0 -> filterlim (fun y => 1 / (1 + y)) (locally l) (locally (1 / (1 + l)))).
  { intros l Hl. apply (cont_lim (fun y => 1 / (1 + y))). apply (derive_cont_pt _ l (- 1 / (1 + l) ^ 2)). auto_derive; auto. field. auto. }
  split; auto.
  - replace (locally 1) with (locally (1 / (1 + 0))) by (f_equal; field). unfold logis_cdf.
    apply (filterlim_comp _ _ _ (fun x => exp (- ((x - 0) / 1))) (fun y => 1 / (1 + y)) _ (locally 0)); [|apply C; lra].
    apply (filterlim_comp _ _ _ (fun x => - ((x - 0) / 1)) exp _ (Rbar_locally m_infty)); [|apply exp_minf].
    intros P [M HP]. exists (- M). intros x Hx. apply HP. unfold Rdiv. lra.
  - apply lim_minf. intros e He. exists (- / e). intros x Hx. unfold logis_cdf.
    replace (- ((x - 0) / 1)) with (- x) by field. pose proof (exp_ge_1 (- x)). assert (0 < / e) by now apply Rinv_0_lt_compat.
    rewrite Rminus_0_r. unfold Rdiv. rewrite Rmult_1_l, Rabs_right by (left; apply Rinv_0_lt_compat; lra).
    rewrite <- (Rinv_inv e). apply Rinv_lt_contravar; [|lra]. apply Rmult_lt_0_compat; lra.
  - rewrite <- E0. apply cont_lim. apply (derive_cont_pt _ _ _ (logis_cdf_derive 0 1 0 ltac:(lra))).
Qed.
Lemma cauchy_cdf_std m s x : 0 < s -> cauchy_cdf m s x = cauchy_cdf 0 1 ((x - m) / s).
Proof. intros. unfold cauchy_cdf. replace (((x - m) / s - 0) / 1) with ((x - m) / s) by (field; lra). reflexivity. Qed.
Lemma cauchy_lc : loc_cdf (cauchy_cdf 0 1).
Proof.
  pose proof PI_RGT_0.
  assert (E0 : cauchy_cdf 0 1 0 = 1 / 2).
  { unfold cauchy_cdf. replace ((0 - 0) / 1) with 0 by field. rewrite atan_0. field. lra. }
  assert (T : forall e, 0 < e -> exists M, forall x, M < x -> PI / 2 - e < atan x).
  { intros e He. set (d := Rmin (e / 2) 1). assert (0 < d) by (apply Rmin_glb_lt; lra).
    assert (d <= e / 2) by apply Rmin_l. assert (d <= 1) by apply Rmin_r. pose proof PI2_1.
    exists (tan (PI / 2 - d)). intros x Hx. apply atan_increasing in Hx. rewrite atan_tan in Hx by lra. lra. }
  split; auto.
  - apply lim_inf. intros e He. destruct (T (e * PI) ltac:(nra)) as (M & HM). exists M. intros x Hx.
    unfold cauchy_cdf. replace ((x - 0) / 1) with x by field. specialize (HM x Hx). pose proof (atan_bound x).
    assert (- e < 1 / 2 + 1 / PI * atan x - 1 < 0); [|rewrite Rabs_left; lra].
    replace (1 / 2 + 1 / PI * atan x - 1) with ((atan x - PI / 2) * / PI) by (field; lra).
    assert (0 < / PI) by now apply Rinv_0_lt_compat. split; [|nra].
    apply (Rmult_lt_reg_r PI); auto. rewrite Rmult_assoc, Rinv_l; lra.
  - apply lim_minf. intros e He. destruct (T (e * PI) ltac:(nra)) as (M & HM). exists (- M). intros x Hx.
    unfold cauchy_cdf. replace ((x - 0) / 1) with x by field. specialize (HM (- x) ltac:(lra)). rewrite atan_opp in HM. pose proof (atan_bound x).
    assert (0 < 1 / 2 + 1 / PI * atan x - 0 < e); [|rewrite Rabs_right; lra].
    replace (1 / 2 + 1 / PI * atan x - 0) with ((PI / 2 + atan x) * / PI) by (field; lra).
    assert (0 < / PI) by now apply Rinv_0_lt_compat. split; [nra|].
    apply (Rmult_lt_reg_r PI); auto. rewrite Rmult_assoc, Rinv_l; lra.
  - rewrite <- E0. apply cont_lim. apply (derive_cont_pt _ _ _ (cauchy_cdf_derive 0 1 0 ltac:(lra))).
Qed.

(** ** densities of location-scale families: h(z)/s *)
Record loc_pdf (h : R -> R) := {
  lp_hi : filterlim h (Rbar_locally p_infty) (locally 0);
  lp_lo : filterlim h (Rbar_locally m_infty) (locally 0);
  lp_0 : filterlim h (locally 0) (locally (h 0)) }.
Section LP.
Variable h : R -> R.
Hypothesis HP : loc_pdf h.
Lemma scal_lim F {FF : Filter F} (g : R -> R) c l : filterlim g F (locally l) -> filterlim (fun x => c * g x) F (locally (c * l)).
Proof. intros G. eapply filterlim_comp; [exact G|]. apply (cont_lim (fun y => c * y)). apply (derive_cont_pt _ l c). auto_derive; auto. ring. Qed.
Lemma lp_mu_minf x s : 0 < s -> filterlim (fun m => h ((x - m) / s) / s) (Rbar_locally m_infty) (locally 0).
Proof.
  intros. replace 0 with (/ s * 0) by ring. apply (filterlim_ext (fun m => / s * h ((x - m) / s))); [intros; unfold Rdiv; ring|].
  apply scal_lim. { typeclasses eauto. } eapply filterlim_comp; [now apply lin_minf|apply HP].
Qed.
Lemma lp_mu_inf x s : 0 < s -> filterlim (fun m => h ((x - m) / s) / s) (Rbar_locally p_infty) (locally 0).
Proof.
  intros. replace 0 with (/ s * 0) by ring. apply (filterlim_ext (fun m => / s * h ((x - m) / s))); [intros; unfold Rdiv; ring|].
  apply scal_lim. { typeclasses eauto. } eapply filterlim_comp; [now apply lin_inf|apply HP].
Qed.
Lemma lp_s_inf x m : filterlim (fun s => h ((x - m) / s) / s) (Rbar_locally p_infty) (locally 0).
Proof.
  replace 0 with (h 0 * 0) by ring.
  apply (filterlim_ext (fun s => h ((x - m) / s) * (1 / s))); [intros; unfold Rdiv; ring|].
  eapply (filterlim_comp_2 (G := locally (h 0)) (H := locally 0)); [|apply div_inf|].
  - eapply filterlim_comp; [apply div_inf|apply HP].
  - apply (filterlim_mult (K := R_AbsRing) (h 0) 0).
Qed.
Lemma lp_s_0_mid m : 0 < h 0 -> filterlim (fun s => h ((m - m) / s) / s) (at_right 0) (Rbar_locally p_infty).
Proof.
  intros H0. apply (filterlim_ext (fun s => h 0 / s)).
  - intros s. replace ((m - m) / s) with 0; auto. unfold Rdiv. ring.
  - now apply div_right_pos.
Qed.
Hypothesis Hz : filterlim (fun z => z * h z) (Rbar_locally p_infty) (locally 0).
Hypothesis Hz' : filterlim (fun z => z * h z) (Rbar_locally m_infty) (locally 0).
Lemma lp_s_0 x m : x <> m -> filterlim (fun s => h ((x - m) / s) / s) (at_right 0) (locally 0).
Proof.
  intros D. replace 0 with (/ (x - m) * 0) at 2 by ring.
  apply (filterlim_ext_loc (fun s => / (x - m) * ((x - m) / s * h ((x - m) / s)))).
  - generalize right_pos. apply filter_imp. intros s Hs. field. lra.
  - apply scal_lim. { typeclasses eauto. }
    destruct (Rlt_dec m x).
    + eapply (filterlim_comp _ _ _ (fun s => (x - m) / s) (fun z => z * h z)); [apply div_right_pos; lra|exact Hz].
    + eapply (filterlim_comp _ _ _ (fun s => (x - m) / s) (fun z => z * h z)); [apply div_right_neg; lra|exact Hz'].
Qed.
End LP.

Section Even.
Variable h : R -> R.
Variable C : R.
Hypothesis He : forall z, h (- z) = h z.
Hypothesis Hb : forall z, 0 < z -> 0 <= h z /\ z ^ 2 * h z <= C.
Lemma even_z : filterlim (fun z => z * h z) (Rbar_locally p_infty) (locally 0).
Proof.
  apply (filt_le _ _ (fun z => C / z)); [|apply div_inf].
  exists 0. intros z Hz. destruct (Hb z Hz) as (B1 & B2). split; [nra|].
  apply (Rmult_le_reg_r z); auto. unfold Rdiv. rewrite (Rmult_assoc C), Rinv_l; nra.
Qed.
Lemma even_hi : filterlim h (Rbar_locally p_infty) (locally 0).
Proof.
  apply (filt_le _ _ (fun z => z * h z)); [|apply even_z].
  exists 1. intros z Hz. destruct (Hb z ltac:(lra)) as (B1 & B2). nra.
Qed.
Lemma opp_minf : filterlim (fun z => - z) (Rbar_locally m_infty) (Rbar_locally p_infty).
Proof. intros P [M HM]. exists (- M). intros z Hz. apply HM. lra. Qed.
Lemma even_lo : filterlim h (Rbar_locally m_infty) (locally 0).
Proof.
  apply (filterlim_ext (fun z => h (- z))); [apply He|].
  eapply filterlim_comp; [apply opp_minf|apply even_hi].
Qed.
Lemma even_z' : filterlim (fun z => z * h z) (Rbar_locally m_infty) (locally 0).
Proof.
  apply (filterlim_ext (fun z => -1 * (- z * h (- z)))); [intros; rewrite He; ring|].
  replace (locally 0) with (locally (-1 * 0)) by (f_equal; ring).
  apply (scal_lim _ (fun z => - z * h (- z))).
  eapply (filterlim_comp _ _ _ (fun z => - z) (fun z => z * h z)); [apply opp_minf|apply even_z].
Qed.
Lemma even_lp : continuity_pt h 0 -> loc_pdf h.
Proof. intros. split; [apply even_hi|apply even_lo|now apply cont_lim]. Qed.
End Even.
Lemma sq_exp z : 0 < z -> z ^ 2 * exp (- z) <= 4.
Proof.
  intros Hz. pose proof (exp_ge_1 (z / 2)). assert (E : exp (z / 2) * exp (z / 2) * exp (- z) = 1).
  { rewrite <- !exp_plus. replace (z / 2 + z / 2 + - z) with 0 by field. apply exp_0. }
  pose proof (exp_pos (- z)). assert (z ^ 2 / 4 <= exp (z / 2) * exp (z / 2)) by nra. nra.
Qed.
Lemma norm_pdf_std m s x : 0 < s -> norm_pdf m s x = norm_pdf 0 1 ((x - m) / s) / s.
Proof.
  intros. unfold norm_pdf. replace (((x - m) / s - 0) ^ 2 / (2 * 1 ^ 2)) with ((x - m) ^ 2 / (2 * s ^ 2)) by (field; lra).
  assert (0 < sqrt (2 * PI)) by (pose proof PI_RGT_0; apply sqrt_lt_R0; lra). field. lra.
Qed.
Lemma norm_even z : norm_pdf 0 1 (- z) = norm_pdf 0 1 z.
Proof. unfold norm_pdf. replace ((- z - 0) ^ 2) with ((z - 0) ^ 2) by ring. reflexivity. Qed.
Lemma norm_bd z : 0 < z -> 0 <= norm_pdf 0 1 z /\ z ^ 2 * norm_pdf 0 1 z <= 2 / sqrt (2 * PI).
Proof.
  intros Hz. unfold norm_pdf. assert (0 < sqrt (2 * PI)) by (pose proof PI_RGT_0; apply sqrt_lt_R0; lra).
  assert (0 < / sqrt (2 * PI)) by now apply Rinv_0_lt_compat.
  replace (1 / (sqrt (2 * PI) * 1)) with (/ sqrt (2 * PI)) by (field; lra).
  replace ((z - 0) ^ 2 / (2 * 1 ^ 2)) with (z ^ 2 / 2) by field.
  pose proof (exp_pos (- (z ^ 2 / 2))). pose proof (exp_ge_1 (z ^ 2 / 2)).
  assert (exp (z ^ 2 / 2) * exp (- (z ^ 2 / 2)) = 1) by (rewrite <- exp_plus, Rplus_opp_r; apply exp_0).
  split; [apply Rmult_le_pos; lra|]. unfold Rdiv at 2. rewrite <- Rmult_assoc, (Rmult_comm (z ^ 2)), Rmult_assoc, Rmult_comm.
  apply Rmult_le_compat_r; [lra|]. nra.
Qed.
Lemma norm_lp : loc_pdf (norm_pdf 0 1).
Proof.
  apply (even_lp _ _ norm_even norm_bd). unfold norm_pdf.
  assert (0 < sqrt (2 * PI)) by (pose proof PI_RGT_0; apply sqrt_lt_R0; lra).
  eapply derive_cont_pt. auto_derive; [|reflexivity]. auto.
Qed.
Lemma laplace_pdf_std m s x : 0 < s -> laplace_pdf m s x = laplace_pdf 0 1 ((x - m) / s) / s.
Proof.
  intros. unfold laplace_pdf. rewrite Rminus_0_r.
  assert (E : Rabs ((x - m) / s) = Rabs (x - m) / s).
  { unfold Rdiv. rewrite Rabs_mult, (Rabs_right (/ s)); auto. left. now apply Rinv_0_lt_compat. }
  rewrite E. replace (- (Rabs (x - m) / s) / 1) with (- Rabs (x - m) / s) by (field; lra). field. lra.
Qed.
Lemma laplace_even z : laplace_pdf 0 1 (- z) = laplace_pdf 0 1 z.
Proof. unfold laplace_pdf. rewrite !Rminus_0_r, Rabs_Ropp. reflexivity. Qed.
Lemma laplace_bd z : 0 < z -> 0 <= laplace_pdf 0 1 z /\ z ^ 2 * laplace_pdf 0 1 z <= 2.
Proof.
  intros Hz. unfold laplace_pdf. rewrite Rminus_0_r, Rabs_right by lra. replace (- z / 1) with (- z) by field.
  pose proof (sq_exp z Hz). pose proof (exp_pos (- z)). split; [lra|]. lra.
Qed.
Lemma laplace_lp : loc_pdf (laplace_pdf 0 1).
Proof.
  apply (even_lp _ _ laplace_even laplace_bd). unfold laplace_pdf.
  apply (continuity_pt_mult (fun _ => 1 / (2 * 1)) (fun x => exp (- Rabs (x - 0) / 1))); [apply continuity_pt_const; intros x y; reflexivity|].
  apply (continuity_pt_comp (fun x => - Rabs (x - 0) / 1) exp); [|apply derivable_continuous_pt, derivable_pt_exp].
  apply (continuity_pt_mult (fun x => - Rabs (x - 0)) (fun _ => / 1)); [|apply continuity_pt_const; intros x y; reflexivity].
  apply continuity_pt_opp. apply (continuity_pt_comp (fun x => x - 0) Rabs); [|apply Rcontinuity_abs].
  eapply derive_cont_pt. auto_derive; [|reflexivity]. auto.
Qed.
Lemma logis_pdf_std m s x : 0 < s -> logis_pdf m s x = logis_pdf 0 1 ((x - m) / s) / s.
Proof.
  intros. unfold logis_pdf. replace (((x - m) / s - 0) / 1) with ((x - m) / s) by (field; lra).
  pose proof (exp_pos (- ((x - m) / s))). field. lra.
Qed.
Lemma logis_even z : logis_pdf 0 1 (- z) = logis_pdf 0 1 z.
Proof.
  unfold logis_pdf. replace (- ((- z - 0) / 1)) with z by field. replace (- ((z - 0) / 1)) with (- z) by field.
  rewrite exp_Ropp. pose proof (exp_pos z). field. lra.
Qed.
Lemma logis_bd z : 0 < z -> 0 <= logis_pdf 0 1 z /\ z ^ 2 * logis_pdf 0 1 z <= 4.
Proof.
  intros Hz. unfold logis_pdf. replace (- ((z - 0) / 1)) with (- z) by field.
  pose proof (sq_exp z Hz). pose proof (exp_pos (- z)). set (t := exp (- z)) in *.
  assert (0 < 1 * (1 + t) ^ 2) by nra. assert (I : 0 < / (1 * (1 + t) ^ 2) <= 1).
  { split; [now apply Rinv_0_lt_compat|]. rewrite <- Rinv_1. apply Rinv_le_contravar; nra. }
  unfold Rdiv. split; [nra|]. rewrite <- Rmult_assoc. assert (0 <= z ^ 2 * t) by nra. nra.
Qed.
Lemma logis_lp : loc_pdf (logis_pdf 0 1).
Proof.
  apply (even_lp _ _ logis_even logis_bd). unfold logis_pdf.
  eapply derive_cont_pt. auto_derive; [|reflexivity].
  match goal with |- context [exp ?a] => pose proof (exp_pos a); set (t := exp a) in * end. apply Rgt_not_eq.
  replace (1 * _) with ((1 + t) * (1 + t)) by ring. nra.
Qed.
Lemma cauchy_pdf_std m s x : 0 < s -> cauchy_pdf m s x = cauchy_pdf 0 1 ((x - m) / s) / s.
Proof.
  intros. unfold cauchy_pdf. replace (((x - m) / s - 0) / 1) with ((x - m) / s) by (field; lra).
  pose proof PI_RGT_0. set (z := (x - m) / s).
  pose proof (pow2_ge_0 z). clearbody z. field. repeat split; lra.
Qed.
Lemma cauchy_even z : cauchy_pdf 0 1 (- z) = cauchy_pdf 0 1 z.
Proof. unfold cauchy_pdf. replace (((- z - 0) / 1) ^ 2) with (((z - 0) / 1) ^ 2) by field. reflexivity. Qed.
Lemma cauchy_bd z : 0 < z -> 0 <= cauchy_pdf 0 1 z /\ z ^ 2 * cauchy_pdf 0 1 z <= 1 / PI.
Proof.
  intros Hz. unfold cauchy_pdf. replace (((z - 0) / 1) ^ 2) with (z ^ 2) by field. pose proof PI_RGT_0.
  assert (0 < 1 + z ^ 2) by nra. assert (0 < PI * 1 * (1 + z ^ 2)) by nra.
  split; [apply Rmult_le_pos; [lra|left; now apply Rinv_0_lt_compat]|].
  apply (Rmult_le_reg_r (PI * (1 + z ^ 2))); [nra|].
  replace (z ^ 2 * (1 / (PI * 1 * (1 + z ^ 2))) * (PI * (1 + z ^ 2))) with (z ^ 2) by (field; split; lra).
  replace (1 / PI * (PI * (1 + z ^ 2))) with (1 + z ^ 2) by (field; lra). lra.
Qed.
Lemma cauchy_lp : loc_pdf (cauchy_pdf 0 1).
Proof.
  apply (even_lp _ _ cauchy_even cauchy_bd). unfold cauchy_pdf. pose proof PI_RGT_0.
  eapply derive_cont_pt. auto_derive; [|reflexivity].
  apply Rgt_not_eq. replace (PI * 1 * _) with PI by (field). lra.
Qed.
