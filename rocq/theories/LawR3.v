(** Real analysis behind rbeta, rf and rt: the mass of { (x,y) : y <= s x } for two independent gamma
    variates. *)
From Coq Require Import Reals Lra Lia Psatz.
From Coquelicot Require Import Coquelicot.
From Verif Require Import RealElem Analysis Spec SpecSF NormR PowInt GammaFn BetaFn FamR SpecRand SpecLaw LawR.
Local Open Scope R_scope.

Section BGS.
Variables a b s : R.
Hypothesis Ha : 0 < a.
Hypothesis Hb : 0 < b.
Hypothesis Hs : 0 < s.
Let Hib : 0 < / b. Proof. now apply Rinv_0_lt_compat. Qed.
Definition gs (v : R) : R := 1 + s * pw v (/ b).
Definition gj (x v : R) : R := Rpower (gs v) (- (a + b)) * lgam (a + b) (x * gs v).
Definition gJ (x : R) : R := / b * pw s b * RInt (gj x) 0 1.
Lemma gs_ge v : 1 <= gs v. Proof. unfold gs. pose proof (pw_ge0 v (/ b)). nra. Qed.
Lemma gs_cont v : continuous gs v.
Proof.
  apply (continuous_comp (fun v => pw v (/ b)) (fun t => 1 + s * t)).
  - apply pw_cont, Hib.
  - apply (ex_derive_continuous (fun t => 1 + s * t)). auto_derive. auto.
Qed.
Lemma gwt_cont v : continuous (fun v => Rpower (gs v) (- (a + b))) v.
Proof.
  apply (continuous_comp gs (fun u => Rpower u (- (a + b)))).
  - apply gs_cont.
  - apply (ex_derive_continuous (fun u => Rpower u (- (a + b)))). eexists.
    apply is_derive_Rpower. pose proof (gs_ge v). lra.
Qed.
Lemma gj_cont x v : continuous (gj x) v.
Proof.
  apply (continuous_mult (fun v => Rpower (gs v) (- (a + b))) (fun v => lgam (a + b) (x * gs v))).
  - apply gwt_cont.
  - apply (continuous_comp gs (fun u => lgam (a + b) (x * u))); [apply gs_cont|].
    apply (continuous_comp (fun u => x * u) (lgam (a + b))).
    + apply (ex_derive_continuous (fun u => x * u)). auto_derive. auto.
    + apply cont_pt, lgam_cont. lra.
Qed.
Lemma gj_derive x v : 0 < x -> is_derive (fun x => gj x v) x (Rpower x (a + b - 1) * exp (- (x * gs v))).
Proof.
  intros Hx. pose proof (gs_ge v) as H1. unfold gj. set (w := gs v) in *.
  apply (d_eq _ _ (Rpower w (- (a + b)) * (w * (Rpower (x * w) (a + b - 1) * exp (- (x * w)))))).
  - apply d_scal. apply (d_comp (lgam (a + b)) (fun x => x * w)).
    + apply lgam_derive; [lra|]. apply Rmult_lt_0_compat; lra.
    + apply d_xs.
  - rewrite <- Rpower_mult_distr by lra.
    assert (E : Rpower w (- (a + b)) * (w * Rpower w (a + b - 1)) = 1).
    { rewrite <- (Rpower_1 w) at 2 by lra. rewrite <- !Rpower_plus.
      replace (- (a + b) + (1 + (a + b - 1))) with 0 by ring. apply Rpower_O. lra. }
    transitivity ((Rpower w (- (a + b)) * (w * Rpower w (a + b - 1)))
                  * (Rpower x (a + b - 1) * exp (- (x * w)))); [ring|]. rewrite E. ring.
Qed.
Lemma gJ_derive x : 0 < x -> is_derive gJ x (Rpower x (a - 1) * exp (- x) * lgam b (s * x)).
Proof.
  intros Hx.
  apply (d_eq _ _ (/ b * pw s b * RInt (fun t => Derive (fun u => gj u t) x) 0 1)).
  - unfold gJ. apply d_scal, (is_derive_RInt_param gj 0 1 x).
    + exists (mkposreal x Hx). intros y Hy t _. unfold ball in Hy. cbn in Hy.
      unfold AbsRing_ball, abs, minus, plus, opp in Hy. cbn in Hy. apply Rabs_def2 in Hy.
      eexists. apply gj_derive. lra.
    + intros t _.
      apply (continuity_2d_pt_ext_loc (fun u v => Rpower u (a + b - 1) * exp (- (u * gs v)))).
      { exists (mkposreal x Hx). intros u v Hu _. cbn in Hu. apply Rabs_def2 in Hu. symmetry.
        apply is_derive_unique, gj_derive. lra. }
      apply continuity_2d_pt_mult.
      * apply (continuity_1d_2d_pt_comp (fun u => Rpower u (a + b - 1)) (fun u v => u)).
        -- eapply derive_cont_pt, is_derive_Rpower. auto.
        -- apply continuity_2d_pt_id1.
      * apply (continuity_1d_2d_pt_comp exp (fun u v => - (u * gs v))).
        { apply derivable_continuous_pt, derivable_pt_exp. }
        apply continuity_2d_pt_opp, continuity_2d_pt_mult; [apply continuity_2d_pt_id1|].
        apply (continuity_1d_2d_pt_comp gs (fun u v => v)).
        -- apply cont_pt, gs_cont.
        -- apply continuity_2d_pt_id2.
    + apply filter_forall. intros y. apply ex_rint. intros. apply gj_cont.
  - rewrite (rint_ext _ (fun v => (Rpower x (a + b - 1) * exp (- x)) * exp (- (s * x * pw v (/ b))))).
    2:{ intros v _. transitivity (Rpower x (a + b - 1) * exp (- (x * gs v))).
        { now apply is_derive_unique, gj_derive. }
        unfold gs. replace (- (x * (1 + s * pw v (/ b)))) with (- x + - (s * x * pw v (/ b))) by ring.
        rewrite exp_plus. ring. }
    rewrite rint_scal.
    + rewrite (lgam_scaled b Hb) by nra. rewrite !pw_pos by nra.
      rewrite <- Rpower_mult_distr by auto.
      replace (a + b - 1) with ((a - 1) + b) by ring. rewrite Rpower_plus. ring.
    + apply ex_rint. intros v _.
      apply (continuous_comp (fun v => pw v (/ b)) (fun t => exp (- (s * x * t)))).
      * apply pw_cont, Hib.
      * apply (ex_derive_continuous (fun t => exp (- (s * x * t)))). auto_derive. auto.
Qed.
Definition gK : R := / b * pw s b * RInt (fun v => Rpower (gs v) (- (a + b))) 0 1.
Lemma gJ_bounds x l h : (forall t, 0 <= t <= s -> l <= lgam (a + b) (x * (1 + t)) <= h) -> l * gK <= gJ x <= h * gK.
Proof.
  intros H. unfold gK, gJ. pose proof (pw_gt0 s b Hs) as Hp.
  set (k := / b * pw s b). assert (Hk : 0 < k) by (apply Rmult_lt_0_compat; auto).
  assert (Hr : forall v, 0 < v < 1 -> 0 <= s * pw v (/ b) <= s).
  { intros v Hv. pose proof (pw_ge0 v (/ b)). assert (pw v (/ b) <= 1).
    { rewrite <- (pw_1 (/ b)). apply pw_le; auto. lra. }
    nra. }
  assert (Hex : ex_RInt (fun v => Rpower (gs v) (- (a + b))) 0 1) by (apply ex_rint; intros; apply gwt_cont).
  assert (Hexj : ex_RInt (gj x) 0 1) by (apply ex_rint; intros; apply gj_cont).
  assert (Hexc : forall k, ex_RInt (fun v => k * Rpower (gs v) (- (a + b))) 0 1).
  { intros k0. apply ex_rint; intros. apply (continuous_mult (fun _ => k0)); [apply continuous_const|apply gwt_cont]. }
  split.
  - assert (l * RInt (fun v => Rpower (gs v) (- (a + b))) 0 1 <= RInt (gj x) 0 1); [|nra].
    rewrite <- rint_scal by auto. apply RInt_le; auto; [lra|].
    intros v Hv. unfold gj. rewrite Rmult_comm. apply Rmult_le_compat_l; [left; apply Rpower_pos|].
    now apply H, Hr.
  - assert (RInt (gj x) 0 1 <= h * RInt (fun v => Rpower (gs v) (- (a + b))) 0 1); [|nra].
    rewrite <- rint_scal by auto. apply RInt_le; auto; [lra|].
    intros v Hv. unfold gj. rewrite (Rmult_comm h). apply Rmult_le_compat_l; [left; apply Rpower_pos|].
    now apply H, Hr.
Qed.
Lemma gK_val : gK = betaL b a (s / (1 + s)).
Proof.
  transitivity (sing b (fun t => Rpower (1 + t) (- (a + b))) s).
  { unfold sing, gK. rewrite Rmult_assoc. f_equal.
    assert (Hp := pw_gt0 s b Hs).
    assert (E : RInt (fun y => pw s b * Rpower (1 + pw (pw s b * y + 0) (/ b)) (- (a + b))) 0 1
              = RInt (fun u => Rpower (1 + pw u (/ b)) (- (a + b))) (pw s b * 0 + 0) (pw s b * 1 + 0)).
    { apply (RInt_comp_lin (fun u => Rpower (1 + pw u (/ b)) (- (a + b))) (pw s b) 0 0 1).
      apply ex_rint. intros; apply wt_cont; auto. }
    replace (pw s b * 0 + 0) with 0 in E by ring. replace (pw s b * 1 + 0) with (pw s b) in E by ring.
    rewrite <- E. rewrite <- rint_scal.
    - apply rint_ext. intros v Hv. rewrite Rmin_left, Rmax_right in Hv by lra.
      rewrite Rplus_0_r, pw_mult, pw_inv by lra. reflexivity.
    - apply ex_rint. intros; apply gwt_cont. }
  symmetry.
  apply (sing_unique b (fun t => Rpower (1 + t) (- (a + b))) (s + 1) Hb ltac:(lra)) with
    (F := fun y => betaL b a (y / (1 + y))).
  - intros y Hy. apply (ex_derive_continuous (fun s => Rpower (1 + s) (- (a + b)))).
    eexists. apply (d_comp (fun u => Rpower u (- (a + b))) (fun s => 1 + s)).
    + apply is_derive_Rpower. lra.
    + auto_derive; auto.
  - lra.
  - unfold Rdiv. rewrite Rmult_0_l. apply betaL_0.
  - intros t Ht.
    assert (Hr : 0 < t / (1 + t) < 1).
    { split; [apply Rdiv_lt_0_compat; lra|]. apply (Rmult_lt_reg_r (1 + t)); [lra|].
      unfold Rdiv. rewrite Rmult_assoc, Rinv_l by lra. lra. }
    apply (d_eq _ _ (/ ((1 + t) * (1 + t))
            * (Rpower (t / (1 + t)) (b - 1) * Rpower (1 - t / (1 + t)) (a - 1)))).
    + apply (d_comp (betaL b a) (fun y => y / (1 + y))); [now apply betaL_derive|].
      auto_derive; [lra|]. field. lra.
    + replace (1 - t / (1 + t)) with (/ (1 + t)) by (field; lra).
      assert (E1 : forall k, Rpower (/ (1 + t)) k = Rpower (1 + t) (- k)).
      { intros k. unfold Rpower. f_equal. rewrite ln_Rinv by lra. ring. }
      unfold Rdiv. rewrite <- Rpower_mult_distr by (try lra; apply Rinv_0_lt_compat; lra).
      rewrite !E1.
      replace (/ ((1 + t) * (1 + t))) with (Rpower (1 + t) (- (1 + 1))).
      2:{ rewrite Rpower_Ropp, Rpower_plus, Rpower_1 by lra. reflexivity. }
      transitivity (Rpower t (b - 1) * (Rpower (1 + t) (- (1 + 1)) *
        (Rpower (1 + t) (- (b - 1)) * Rpower (1 + t) (- (a - 1))))); [ring|].
      f_equal. rewrite <- !Rpower_plus. f_equal. ring.
  - apply (continuity_pt_comp (fun y => y / (1 + y)) (betaL b a)).
    + apply (derive_cont_pt _ _ 1). auto_derive; [lra|]. field.
    + unfold Rdiv. rewrite Rmult_0_l. apply betaL_cont; lra.
Qed.
Lemma s_arg : 0 < s / (1 + s) < 1.
Proof.
  split; [apply Rdiv_lt_0_compat; lra|]. apply (Rmult_lt_reg_r (1 + s)); [lra|].
  unfold Rdiv. rewrite Rmult_assoc, Rinv_l by lra. lra.
Qed.
Lemma gK_pos : 0 < gK. Proof. rewrite gK_val. apply betaL_pos; auto; apply s_arg. Qed.
Lemma gJ_lim0 e : 0 < e -> exists d, 0 < d /\ forall x, 0 < x < d -> 0 <= gJ x < e.
Proof.
  intros He. pose proof gK_pos as HK. pose proof (lgam_cont (a + b) 0 ltac:(lra)) as C.
  destruct (C (e / gK)) as (d & Hd & H).
  { now apply Rdiv_lt_0_compat. }
  exists (d / (1 + s)). split; [apply Rdiv_lt_0_compat; lra|]. intros y [Hy0 Hy].
  assert (Hy2 : y * (1 + s) < d).
  { apply (Rmult_lt_compat_r (1 + s)) in Hy; [|lra]. replace (d / (1 + s) * (1 + s)) with d in Hy by (field; lra). auto. }
  assert (P : 0 < y * (1 + s)) by nra.
  assert (B : 0 * gK <= gJ y <= lgam (a + b) (y * (1 + s)) * gK).
  { apply gJ_bounds. intros t Ht. split; [apply lgam_ge0; nra|apply lgam_le; nra]. }
  specialize (H (y * (1 + s))). cbn in H. unfold R_dist in H. rewrite lgam_0, !Rminus_0_r in H.
  assert (Q : lgam (a + b) (y * (1 + s)) < e / gK).
  { apply Rabs_def2. apply H. split.
    - split; [exact I|lra].
    - rewrite Rabs_pos_eq by lra. lra. }
  split; [lra|]. apply (Rle_lt_trans _ _ _ (proj2 B)).
  apply (Rmult_lt_compat_r gK) in Q; auto.
  replace (e / gK * gK) with e in Q by (field; lra). auto.
Qed.
Lemma gJ_liminf e : 0 < e -> exists m, forall x, m < x -> Rabs (gJ x - Gam (a + b) * gK) < e.
Proof.
  intros He. pose proof gK_pos as HK.
  assert (Hab : 0 < a + b) by lra.
  assert (HG : 0 < Gam (a + b)) by now apply Gam_pos.
  destruct (PG_lim (a + b) (1 - e / (gK * Gam (a + b))) Hab) as (m & Hm & Q).
  { assert (0 < e / (gK * Gam (a + b))); [|lra]. apply Rdiv_lt_0_compat; nra. }
  exists m. intros x Hx.
  assert (B : lgam (a + b) x * gK <= gJ x <= Gam (a + b) * gK).
  { apply gJ_bounds. intros t Ht. split; [apply lgam_le; nra|apply lgam_le_Gam; nra]. }
  assert (Q2 : lgam (a + b) m <= lgam (a + b) x) by (apply lgam_le; lra).
  assert (Q3 : Gam (a + b) * gK - e < lgam (a + b) m * gK).
  { apply (Rmult_lt_compat_r (gK * Gam (a + b))) in Q; [|nra].
    unfold PG in Q. replace (lgam (a + b) m / Gam (a + b) * (gK * Gam (a + b))) with (lgam (a + b) m * gK) in Q by (field; lra).
    replace ((1 - e / (gK * Gam (a + b))) * (gK * Gam (a + b))) with (Gam (a + b) * gK - e) in Q by (field; lra). exact Q. }
  assert (lgam (a + b) m * gK <= lgam (a + b) x * gK) by nra.
  apply Rabs_def1; lra.
Qed.
Lemma gK_IB : Gam (a + b) * gK / (Gam a * Gam b) = IB b a (s / (1 + s)).
Proof.
  pose proof s_arg. rewrite IB_low by (auto; lra). rewrite gK_val, Beta_val by auto.
  pose proof (Gam_pos a Ha). pose proof (Gam_pos b Hb). pose proof (Gam_pos (a + b) ltac:(lra)).
  rewrite (Rplus_comm b a). field. lra.
Qed.
End BGS.

(** X gamma of shape a and Y gamma of shape b, both of scale th, independent: P(Y <= s X) *)
Section GG.
Variables a b th : R.
Hypothesis Ha : 0 < a.
Hypothesis Hb : 0 < b.
Hypothesis Hth : 0 < th.
Lemma gg_mass s : 0 < s ->
  is_RInt_gen (fun x => gamma_pdf a th x * gamma_cdf b th (s * x)) (at_right 0) (Rbar_locally p_infty) (IB b a (s / (1 + s))).
Proof.
  intros Hs. rewrite <- (gK_IB a b s) by auto.
  pose proof (Gam_pos a Ha) as Ga. pose proof (Gam_pos b Hb) as Gb.
  set (c := Gam a * Gam b). assert (Hc : 0 < c) by (apply Rmult_lt_0_compat; auto).
  replace (Gam (a + b) * gK a b s / c) with (Gam (a + b) * gK a b s / c - 0) by ring.
  apply (rig _ (fun x => / c * gJ a b s (x / th)) _ _ (fun x => 0 < x)).
  - intros x Hx.
    apply (d_eq _ _ (/ c * (/ th * (Rpower (x / th) (a - 1) * exp (- (x / th)) * lgam b (s * (x / th)))))).
    + apply d_scal. apply (d_comp (gJ a b s) (fun x => x / th)).
      * apply gJ_derive; auto. now apply Rdiv_lt_0_compat.
      * apply d_xs.
    + unfold gamma_pdf, gamma_cdf, PG, c.
      replace (s * x / th) with (s * (x / th)) by (field; lra). replace (- x / th) with (- (x / th)) by (field; lra).
      unfold Rdiv at 1. rewrite <- Rpower_mult_distr; [|lra|now apply Rinv_0_lt_compat].
      assert (E : Rpower th a = Rpower th (a - 1) * th).
      { rewrite <- (Rpower_1 th) at 3 by lra. rewrite <- Rpower_plus. f_equal. ring. }
      assert (E2 : Rpower (/ th) (a - 1) = / Rpower th (a - 1)).
      { unfold Rpower. rewrite ln_Rinv by lra. rewrite <- exp_Ropp. f_equal. ring. }
      rewrite E, E2. pose proof (Rpower_pos th (a - 1)). field. repeat split; lra.
  - intros x Hx. apply (continuous_mult (gamma_pdf a th) (fun x => gamma_cdf b th (s * x))).
    + apply (@ex_derive_continuous R_AbsRing R_NormedModule). unfold gamma_pdf, Rpower. auto_derive. repeat split; auto; try lra.
    + apply (continuous_comp (fun x => s * x) (gamma_cdf b th)).
      * apply (ex_derive_continuous (fun x => s * x)). auto_derive. auto.
      * apply (@ex_derive_continuous R_AbsRing R_NormedModule). eexists. apply gamma_cdf_derive; auto. nra.
  - intros; lra.
  - exists (mkposreal 1 Rlt_0_1). intros y _ Hy. exact Hy.
  - exists 0. auto.
  - apply lim_right. intros e He. destruct (gJ_lim0 a b s Ha Hb Hs (e * c)) as (d & Hd & B). { nra. }
    exists (d * th). split; [nra|]. intros x Hx. rewrite Rminus_0_r.
    assert (Hx2 : 0 < x / th < d).
    { split; [apply Rdiv_lt_0_compat; lra|]. apply (Rmult_lt_reg_r th); auto. replace (x / th * th) with x by (field; lra). lra. }
    specialize (B _ Hx2). rewrite Rabs_right.
    + apply (Rmult_lt_reg_l c); auto. rewrite <- Rmult_assoc, Rinv_r by lra. lra.
    + apply Rle_ge. apply Rmult_le_pos; [left; now apply Rinv_0_lt_compat|lra].
  - apply lim_inf. intros e He. destruct (gJ_liminf a b s Ha Hb Hs (e * c)) as (m & B). { nra. }
    exists (m * th). intros x Hx.
    assert (Hx2 : m < x / th). { apply (Rmult_lt_reg_r th); auto. replace (x / th * th) with x by (field; lra). lra. }
    specialize (B _ Hx2).
    replace (/ c * gJ a b s (x / th) - Gam (a + b) * gK a b s / c) with (/ c * (gJ a b s (x / th) - Gam (a + b) * gK a b s)) by (field; lra).
    rewrite Rabs_mult, (Rabs_right (/ c)) by (apply Rle_ge; left; now apply Rinv_0_lt_compat).
    apply (Rmult_lt_reg_l c); auto. rewrite <- Rmult_assoc, Rinv_r by lra. lra.
Qed.
End GG.
