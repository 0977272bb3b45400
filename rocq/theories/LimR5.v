(** Limits of the inverse Gaussian formulas at boundary parameters. *)
From Coq Require Import Reals Lra Lia.
From Coquelicot Require Import Coquelicot.
From Verif Require Import Spec RealElem Analysis PowInt Erf GammaFn BetaFn NormR SpecSF FamR LawR LimR LimR2 LimR3.
Local Open Scope R_scope.

Lemma s2pi_ge1 : 1 <= sqrt (2 * PI).
Proof. rewrite <- sqrt_1. apply sqrt_le_1_alt. pose proof PI2_1. unfold PI2 in *. lra. Qed.
Lemma Phi_neg_bound z : 1 <= z -> norm_cdf 0 1 (- z) <= exp (- (z * z / 2)).
Proof.
  intros Hz. apply Rnot_lt_le. intros C.
  destruct (norm_cdf_low (norm_cdf 0 1 (- z) - exp (- (z * z / 2))) ltac:(lra)) as (m & Hm & B).
  set (w := Rmax z m). assert (z <= w) by apply Rmax_l. assert (m <= w) by apply Rmax_r.
  specialize (B (- w) ltac:(lra)).
  assert (norm_cdf 0 1 (- z) - exp (- (z * z / 2)) <= norm_cdf 0 1 (- w) - exp (- (w * w / 2))).
  { apply (mono_of_derive (fun t => norm_cdf 0 1 (- t) - exp (- (t * t / 2)))
      (fun t => (- 1) * norm_pdf 0 1 (- t) - (- t * exp (- (t * t / 2))))); auto.
    - intros t Ht. apply d_minus.
      + apply (d_comp (norm_cdf 0 1) (fun t => - t)); [apply norm_cdf_derive; lra|]. auto_derive; auto.
      + auto_derive; auto. unfold Rdiv. field.
    - intros t Ht. unfold norm_pdf. replace (- ((- t - 0) ^ 2 / (2 * 1 ^ 2))) with (- (t * t / 2)) by field.
      pose proof s2pi_ge1. pose proof (exp_pos (- (t * t / 2))) as E. rewrite Rmult_1_r.
      assert (1 / sqrt (2 * PI) <= 1); [|nra]. unfold Rdiv. rewrite Rmult_1_l, <- Rinv_1. apply Rinv_le_contravar; lra.
    - intros t Ht. apply continuity_pt_minus.
      + eapply derive_cont_pt. apply (d_comp (norm_cdf 0 1) (fun t => - t)); [apply norm_cdf_derive; lra|]. auto_derive; auto.
      + apply (derive_cont_pt _ _ (- t * exp (- (t * t / 2)))). auto_derive; auto. unfold Rdiv. field. }
  pose proof (exp_pos (- (w * w / 2))). lra.
Qed.
Section IG.
Variables x : R.
Hypothesis Hx : 0 < x.
Lemma ig_term2 mu l : 0 < mu -> 0 < l -> 1 <= sqrt (l / x) * (x / mu + 1) ->
  0 <= exp (2 * l / mu) * norm_cdf 0 1 (- sqrt (l / x) * (x / mu + 1)) <= exp (- (l * (x / mu - 1) ^ 2 / (2 * x))).
Proof.
  intros Hm Hl H. set (z := sqrt (l / x) * (x / mu + 1)) in *. pose proof (norm_cdf_range 0 1 (- sqrt (l / x) * (x / mu + 1))).
  split; [apply Rmult_le_pos; [left; apply exp_pos|lra]|].
  replace (- sqrt (l / x) * (x / mu + 1)) with (- z) by (unfold z; ring).
  pose proof (Phi_neg_bound z H) as B. apply (Rmult_le_compat_l (exp (2 * l / mu))) in B; [|left; apply exp_pos].
  eapply Rle_trans; [exact B|]. rewrite <- exp_plus. right. f_equal.
  assert (Q : 0 <= l / x) by (left; now apply Rdiv_lt_0_compat).
  replace (z * z) with (sqrt (l / x) * sqrt (l / x) * (x / mu + 1) ^ 2) by (unfold z; ring).
  rewrite sqrt_sqrt by auto. field. lra.
Qed.
Lemma sqrt_inf : filterlim (fun l => sqrt (l / x)) (Rbar_locally p_infty) (Rbar_locally p_infty).
Proof.
  intros P [M HP]. exists (x * (M * M)). intros l Hl. apply HP. assert (0 <= M * M) by nra.
  apply Rle_lt_trans with (Rabs M); [apply Rle_abs|].
  rewrite <- sqrt_Rsqr_abs. apply sqrt_lt_1_alt. unfold Rsqr. split; auto. apply (Rmult_lt_reg_r x); auto. replace (l / x * x) with l by (field; lra). lra.
Qed.
Lemma lin_c_inf (F : (R -> Prop) -> Prop) {FF : Filter F} (f : R -> R) c : 0 < c -> filterlim f F (Rbar_locally p_infty) ->
  filterlim (fun s => f s * c) F (Rbar_locally p_infty).
Proof.
  intros Hc L P [M HP]. unfold filtermap. assert (B : F (fun s => M / c < f s)) by exact (L (fun y => M / c < y) (ex_intro _ (M / c) (fun x h => h))).
  generalize B. apply filter_imp. intros s Hs. apply HP. apply (Rmult_lt_compat_r c) in Hs; auto.
  unfold Rdiv in Hs. rewrite Rmult_assoc, Rinv_l in Hs; lra.
Qed.
Lemma lin_c_minf (F : (R -> Prop) -> Prop) {FF : Filter F} (f : R -> R) c : c < 0 -> filterlim f F (Rbar_locally p_infty) ->
  filterlim (fun s => f s * c) F (Rbar_locally m_infty).
Proof.
  intros Hc L P [M HP]. unfold filtermap. assert (B : F (fun s => M / c < f s)) by exact (L (fun y => M / c < y) (ex_intro _ (M / c) (fun x h => h))).
  generalize B. apply filter_imp. intros s Hs. apply HP.
  apply (Rmult_lt_gt_compat_neg_l c) in Hs; auto. replace (c * (M / c)) with M in Hs by (field; lra). lra.
Qed.
Lemma ev_inf (F : (R -> Prop) -> Prop) {FF : Filter F} (f : R -> R) M : filterlim f F (Rbar_locally p_infty) -> F (fun s => M < f s).
Proof. intros L. exact (L (fun y => M < y) (ex_intro _ M (fun x h => h))). Qed.
(** a sum with a vanishing second term *)
Lemma lim_add0 (F : (R -> Prop) -> Prop) {FF : Filter F} (f g : R -> R) l :
  filterlim f F (locally l) -> filterlim g F (locally 0) -> filterlim (fun s => f s + g s) F (locally l).
Proof.
  intros A B. replace (locally l) with (locally (l + 0)) by (f_equal; ring).
  apply (filterlim_comp_2 (F := F) (G := locally l) (H := locally 0)); auto. apply (filterlim_plus (V := R_NormedModule) l 0).
Qed.
Lemma ig_term2_linf mu : 0 < mu -> x <> mu ->
  filterlim (fun l => exp (2 * l / mu) * norm_cdf 0 1 (- sqrt (l / x) * (x / mu + 1))) (Rbar_locally p_infty) (locally 0).
Proof.
  intros Hm D. assert (Hq : 0 < x / mu) by now apply Rdiv_lt_0_compat.
  assert (E : x / mu - 1 <> 0).
  { intros E. apply D. apply (f_equal (Rmult mu)) in E. rewrite Rmult_minus_distr_l in E. unfold Rdiv in E.
    replace (mu * (x * / mu)) with x in E by (field; lra). lra. }
  apply (filt_le _ _ (fun l => exp (- (l * ((x / mu - 1) ^ 2 / (2 * x)))))).
  - pose proof (ev_inf (Rbar_locally p_infty) _ 1 (lin_c_inf (Rbar_locally p_infty) _ (x / mu + 1) ltac:(lra) sqrt_inf)) as B.
    generalize (filter_and _ _ B (inf_gt 0)). apply filter_imp. intros l (H1 & H2).
    pose proof (ig_term2 mu l Hm H2 ltac:(lra)) as T.
    replace (l * ((x / mu - 1) ^ 2 / (2 * x))) with (l * (x / mu - 1) ^ 2 / (2 * x)) by (unfold Rdiv; ring). exact T.
  - apply exp_neg_lin. apply Rdiv_lt_0_compat; [|lra]. assert (0 <= (x / mu - 1) ^ 2) by nra.
    destruct H as [H|H]; auto. symmetry in H. exfalso. apply E. nra.
Qed.
Lemma ig_cdf_linf_hi mu : 0 < mu -> mu < x -> filterlim (fun l => invgauss_cdf mu l x) (Rbar_locally p_infty) (locally 1).
Proof.
  intros Hm H. unfold invgauss_cdf. apply lim_add0; [typeclasses eauto| |apply ig_term2_linf; lra].
  apply (filterlim_comp _ _ _ (fun l => sqrt (l / x) * (x / mu - 1)) (norm_cdf 0 1) _ (Rbar_locally p_infty)); [|apply norm_lc].
  apply lin_c_inf; [typeclasses eauto| |apply sqrt_inf].
  assert (1 < x / mu); [|lra]. apply (Rmult_lt_reg_r mu); auto. unfold Rdiv. rewrite Rmult_assoc, Rinv_l; lra.
Qed.
Lemma ig_cdf_linf_lo mu : 0 < mu -> x < mu -> filterlim (fun l => invgauss_cdf mu l x) (Rbar_locally p_infty) (locally 0).
Proof.
  intros Hm H. unfold invgauss_cdf. apply lim_add0; [typeclasses eauto| |apply ig_term2_linf; lra].
  apply (filterlim_comp _ _ _ (fun l => sqrt (l / x) * (x / mu - 1)) (norm_cdf 0 1) _ (Rbar_locally m_infty)); [|apply norm_lc].
  apply lin_c_minf; [typeclasses eauto| |apply sqrt_inf].
  assert (x / mu < 1); [|lra]. apply (Rmult_lt_reg_r mu); auto. unfold Rdiv. rewrite Rmult_assoc, Rinv_l; lra.
Qed.
Lemma sqrt_right c : filterlim (fun l => sqrt (l / x) * c) (at_right 0) (locally 0).
Proof.
  apply right_cont; [|replace (0 / x) with 0 by (unfold Rdiv; ring); rewrite sqrt_0; ring].
  apply continuity_pt_mult; [|apply continuity_pt_const; intros ? ?; auto].
  apply (continuity_pt_comp (fun l => l / x) sqrt).
  - apply (derive_cont_pt _ _ (/ x)). auto_derive; auto. ring.
  - apply continuity_pt_sqrt. unfold Rdiv. lra.
Qed.
Lemma norm_cont z : continuity_pt (norm_cdf 0 1) z.
Proof. eapply derive_cont_pt, norm_cdf_derive. lra. Qed.
Lemma ig_cdf_l0 mu : 0 < mu -> filterlim (fun l => invgauss_cdf mu l x) (at_right 0) (locally 1).
Proof.
  intros Hm. unfold invgauss_cdf.
  assert (H0 : norm_cdf 0 1 0 = 1 / 2) by apply norm_lc.
  replace (locally 1) with (locally (norm_cdf 0 1 0 + exp 0 * norm_cdf 0 1 0)) by (f_equal; rewrite H0, exp_0; lra).
  apply (filterlim_comp_2 (F := at_right 0) (G := locally (norm_cdf 0 1 0)) (H := locally (exp 0 * norm_cdf 0 1 0))).
  - apply (lim_comp _ (fun l => sqrt (l / x) * (x / mu - 1))); [apply sqrt_right|apply norm_cont].
  - apply (filterlim_comp_2 (F := at_right 0) (G := locally (exp 0)) (H := locally (norm_cdf 0 1 0))).
    + apply (lim_comp _ (fun l => 2 * l / mu) exp); [|apply (derive_cont_pt _ _ (exp 0)); auto_derive; auto; ring].
      apply right_cont; [|unfold Rdiv; ring]. apply (derive_cont_pt _ _ (2 / mu)). auto_derive; auto. unfold Rdiv. ring.
    + apply (lim_comp _ (fun l => - sqrt (l / x) * (x / mu + 1))); [|apply norm_cont].
      apply (filterlim_ext (fun l => sqrt (l / x) * (- (x / mu + 1)))); [intros; ring|]. apply sqrt_right.
    + apply (filterlim_mult (K := R_AbsRing) (exp 0) (norm_cdf 0 1 0)).
  - apply (filterlim_plus (V := R_NormedModule) (norm_cdf 0 1 0) (exp 0 * norm_cdf 0 1 0)).
Qed.
Lemma xmu_right d : filterlim (fun mu => x / mu + d) (at_right 0) (Rbar_locally p_infty).
Proof.
  intros P [M HP]. unfold filtermap. pose proof (ev_inf (at_right 0) _ (M - d) (div_right_pos x Hx)) as B.
  generalize B. apply filter_imp. intros s Hs. apply HP. lra.
Qed.
Lemma ig_cdf_m0 l : 0 < l -> filterlim (fun mu => invgauss_cdf mu l x) (at_right 0) (locally 1).
Proof.
  intros Hl. assert (Hs : 0 < sqrt (l / x)) by (apply sqrt_lt_R0; now apply Rdiv_lt_0_compat).
  unfold invgauss_cdf. apply lim_add0; [typeclasses eauto| |].
  - apply (filterlim_comp _ _ _ (fun mu => sqrt (l / x) * (x / mu - 1)) (norm_cdf 0 1) _ (Rbar_locally p_infty)); [|apply norm_lc].
    apply (filterlim_ext (fun mu => (x / mu + -1) * sqrt (l / x))); [intros; unfold Rminus; ring|].
    apply lin_c_inf; [typeclasses eauto|auto|apply xmu_right].
  - apply (filt_le _ _ (fun mu => exp (- ((x / mu + -1) * (l / (2 * x)))))).
    + pose proof (ev_inf (at_right 0) _ 1 (lin_c_inf (at_right 0) _ _ Hs (xmu_right 1))) as B1.
      pose proof (ev_inf (at_right 0) _ 1 (xmu_right (-1))) as B2.
      generalize (filter_and _ _ right_pos (filter_and _ _ B1 B2)). apply filter_imp. intros mu (H0 & H1 & H2).
      destruct (ig_term2 mu l H0 Hl ltac:(lra)) as (T1 & T2). split; auto. eapply Rle_trans; [exact T2|].
      apply exp_le_compat. apply Ropp_le_contravar.
      assert (0 < l / (2 * x)) by (apply Rdiv_lt_0_compat; lra).
      replace (l * (x / mu - 1) ^ 2 / (2 * x)) with ((x / mu - 1) ^ 2 * (l / (2 * x))) by (unfold Rdiv; ring).
      apply Rmult_le_compat_r; [lra|]. replace (x / mu - 1) with (x / mu + -1) by ring. nra.
    + apply (filterlim_comp _ _ _ (fun mu => x / mu + -1) (fun y => exp (- (y * (l / (2 * x))))) _ (Rbar_locally p_infty)); [apply xmu_right|].
      apply exp_neg_lin. apply Rdiv_lt_0_compat; lra.
Qed.
Lemma ig_cdf_minf l : 0 < l -> filterlim (fun mu => invgauss_cdf mu l x) (Rbar_locally p_infty) (locally (2 * norm_cdf 0 1 (- sqrt (l / x)))).
Proof.
  intros Hl. unfold invgauss_cdf. set (s := sqrt (l / x)).
  replace (locally (2 * norm_cdf 0 1 (- s))) with (locally (norm_cdf 0 1 (s * (x * 0 - 1)) + exp (2 * l * 0) * norm_cdf 0 1 (- s * (x * 0 + 1)))).
  2: { f_equal. rewrite !Rmult_0_r, exp_0. replace (s * (0 - 1)) with (- s) by ring. replace (- s * (0 + 1)) with (- s) by ring. ring. }
  apply (filterlim_ext (fun mu => (fun u => norm_cdf 0 1 (s * (x * u - 1)) + exp (2 * l * u) * norm_cdf 0 1 (- s * (x * u + 1))) (1 / mu))).
  { intros mu. unfold Rdiv. now rewrite Rmult_1_l. }
  apply (lim_comp _ (fun mu => 1 / mu) (fun u => norm_cdf 0 1 (s * (x * u - 1)) + exp (2 * l * u) * norm_cdf 0 1 (- s * (x * u + 1)))); [apply div_inf|].
  apply continuity_pt_plus; [|apply continuity_pt_mult].
  - apply (continuity_pt_comp (fun u => s * (x * u - 1)) (norm_cdf 0 1)); [|apply norm_cont].
    apply (derive_cont_pt _ _ (s * x)). auto_derive; auto. ring.
  - apply (derive_cont_pt _ _ (2 * l * exp (2 * l * 0))). auto_derive; auto. ring.
  - apply (continuity_pt_comp (fun u => - s * (x * u + 1)) (norm_cdf 0 1)); [|apply norm_cont].
    apply (derive_cont_pt _ _ (- s * x)). auto_derive; auto. ring.
Qed.
(** ** density *)
Let c := / (2 * PI * x ^ 3).
Lemma c_pos' : 0 < c.
Proof. unfold c. pose proof PI_RGT_0. apply Rinv_0_lt_compat. pose proof (pow_lt x 3 Hx). nra. Qed.
Lemma ig_pdf_c mu l : invgauss_pdf mu l x = sqrt (l * c) * exp (- (l * (x - mu) ^ 2 / (2 * mu ^ 2 * x))).
Proof. reflexivity. Qed.
Lemma ig_pdf_l0 mu : 0 < mu -> filterlim (fun l => invgauss_pdf mu l x) (at_right 0) (locally 0).
Proof.
  intros Hm. apply right_cont; [|rewrite ig_pdf_c, Rmult_0_l, sqrt_0; ring].
  apply continuity_pt_mult.
  - apply (continuity_pt_comp (fun l => l * c) sqrt).
    + apply (derive_cont_pt _ _ c). auto_derive; auto. ring.
    + apply continuity_pt_sqrt. lra.
  - eapply derive_cont_pt. auto_derive; auto.
Qed.
Lemma ig_pdf_linf mu : 0 < mu -> x <> mu -> filterlim (fun l => invgauss_pdf mu l x) (Rbar_locally p_infty) (locally 0).
Proof.
  intros Hm D. pose proof c_pos' as Hc. set (q := (x - mu) ^ 2 / (2 * mu ^ 2 * x)).
  assert (Hq : 0 < q).
  { unfold q. apply Rdiv_lt_0_compat; [|pose proof (pow_lt mu 2 Hm); nra]. assert (0 <= (x - mu) ^ 2) by nra. destruct H as [H|H]; auto.
    exfalso. apply D. nra. }
  apply (filt_le _ _ (fun l => (1 + c) * ((l + 1) * exp (- (l * q))))).
  - exists 0. intros l Hl. rewrite ig_pdf_c. replace (l * (x - mu) ^ 2 / (2 * mu ^ 2 * x)) with (l * q) by (unfold q, Rdiv; ring).
    assert (0 < l * c) by nra. pose proof (sqrt_pos (l * c)). pose proof (exp_pos (- (l * q))). split; [nra|].
    rewrite <- Rmult_assoc. apply Rmult_le_compat_r; [lra|]. pose proof (sqrt_sqrt (l * c) ltac:(lra)).
    assert (sqrt (l * c) <= 1 + l * c) by nra. nra.
  - apply lim_scal0; [typeclasses eauto|].
    apply (filterlim_ext (fun l => l * Rpower (exp (- q)) l + exp (- (l * q)))).
    { intros l. unfold Rpower. rewrite ln_exp. replace (l * - q) with (- (l * q)) by ring. ring. }
    apply lim_add0; [typeclasses eauto| |now apply exp_neg_lin]. apply lin_geo. split; [apply exp_pos|].
    rewrite <- exp_0. apply exp_increasing. lra.
Qed.
Lemma ig_pdf_linf_mid : filterlim (fun l => invgauss_pdf x l x) (Rbar_locally p_infty) (Rbar_locally p_infty).
Proof.
  pose proof c_pos' as Hc. intros P [M HP]. exists (M * M / c). intros l Hl. apply HP. rewrite ig_pdf_c.
  replace (- (l * (x - x) ^ 2 / (2 * x ^ 2 * x))) with 0 by (unfold Rdiv; ring). rewrite exp_0, Rmult_1_r.
  apply Rle_lt_trans with (Rabs M); [apply Rle_abs|]. rewrite <- sqrt_Rsqr_abs. apply sqrt_lt_1_alt. unfold Rsqr. split; [nra|].
  apply (Rmult_lt_compat_r c) in Hl; auto. unfold Rdiv in Hl. rewrite Rmult_assoc, Rinv_l in Hl; lra.
Qed.
Lemma ig_pdf_m0 l : 0 < l -> filterlim (fun mu => invgauss_pdf mu l x) (at_right 0) (locally 0).
Proof.
  intros Hl. apply (lim_eq _ (fun mu => sqrt (l * c) * exp (- ((x / mu + -1) * (x / mu + -1) * (l / (2 * x)))))).
  { generalize right_pos. apply filter_imp. intros mu Hm. rewrite ig_pdf_c. do 3 f_equal. field. lra. }
  apply lim_scal0; [typeclasses eauto|].
  apply (filterlim_comp _ _ _ (fun mu => (x / mu + -1) * (x / mu + -1)) (fun y => exp (- (y * (l / (2 * x))))) _ (Rbar_locally p_infty)).
  - apply (filt_ge_inf _ _ (fun mu => x / mu + -1)); [|apply xmu_right].
    pose proof (ev_inf (at_right 0) _ 1 (xmu_right (-1))) as B2. generalize B2. apply filter_imp. intros. nra.
  - apply exp_neg_lin. apply Rdiv_lt_0_compat; lra.
Qed.
Lemma ig_pdf_minf l : 0 < l -> filterlim (fun mu => invgauss_pdf mu l x) (Rbar_locally p_infty) (locally (sqrt (l * c) * exp (- (l / (2 * x))))).
Proof.
  intros Hl.
  apply (lim_eq _ (fun mu => (fun u => sqrt (l * c) * exp (- (l * (x * u - 1) ^ 2 / (2 * x)))) (1 / mu))).
  { exists 0. intros mu Hm. rewrite ig_pdf_c. do 3 f_equal. field. lra. }
  replace (sqrt (l * c) * exp (- (l / (2 * x)))) with ((fun u => sqrt (l * c) * exp (- (l * (x * u - 1) ^ 2 / (2 * x)))) 0).
  2: { cbv beta. do 3 f_equal. field. lra. }
  apply (lim_comp _ (fun mu => 1 / mu) (fun u => sqrt (l * c) * exp (- (l * (x * u - 1) ^ 2 / (2 * x))))); [apply div_inf|].
  eapply derive_cont_pt. apply d_scal. auto_derive; auto.
Qed.
End IG.
