(** Real analysis behind the rejection and transformation samplers. *)
From Coq Require Import Reals Lra Lia Psatz.
From Coquelicot Require Import Coquelicot.
From Verif Require Import RealElem Analysis Spec SpecSF NormR PowInt GammaFn BetaFn FamR SpecRand SpecLaw.
Local Open Scope R_scope.

(** ** Improper integrals from a primitive *)
Lemma rig (f F : R -> R) (FA FB : (R -> Prop) -> Prop) {HA : Filter FA} {HB : Filter FB} (P : R -> Prop) (la lb : R) :
  (forall x, P x -> is_derive F x (f x)) -> (forall x, P x -> continuous f x) ->
  (forall x y z, P x -> P y -> x <= z <= y -> P z) ->
  FA P -> FB P -> filterlim F FA (locally la) -> filterlim F FB (locally lb) ->
  is_RInt_gen f FA FB (lb - la).
Proof.
  intros HD HC HP PA PB LA LB. unfold is_RInt_gen, filterlimi, filter_le, filtermapi.
  intros Q HQ.
  assert (HL : filter_prod FA FB (fun ab => Q (F (snd ab) - F (fst ab)))).
  { assert (L : filterlim (fun ab : R * R => minus (F (snd ab)) (F (fst ab))) (filter_prod FA FB) (locally (minus lb la))).
    { apply (filterlim_comp_2 (G := locally lb) (H := locally (opp la)) (fun ab : R * R => F (snd ab)) (fun ab => opp (F (fst ab))) plus).
      - apply filterlim_comp with (2 := LB). apply filterlim_snd.
      - apply filterlim_comp with (G := locally la) (f := fun ab : R * R => F (fst ab)) (g := opp).
        + apply filterlim_comp with (2 := LA). apply filterlim_fst.
        + apply (@filterlim_opp _ R_NormedModule).
      - apply (@filterlim_plus _ R_NormedModule). }
    exact (L Q HQ). }
  assert (HPP : filter_prod FA FB (fun ab => P (fst ab) /\ P (snd ab))).
  { exists P P; auto. }
  generalize (filter_and _ _ HL HPP). apply filter_imp. intros [a b] [Hq [Ha Hb]]. cbn [fst snd] in *.
  exists (F b - F a). split; [|exact Hq].
  assert (In : forall x, Rmin a b <= x <= Rmax a b -> P x).
  { intros x Hx. destruct (Rle_dec a b).
    - rewrite Rmin_left, Rmax_right in Hx by lra. now apply (HP a b).
    - rewrite Rmin_right, Rmax_left in Hx by lra. apply (HP b a); auto. }
  apply (@is_RInt_derive R_CompleteNormedModule F f a b); intros; [apply HD|apply HC]; auto.
Qed.
Lemma rig_point (F : R -> R) b : filterlim F (at_point b) (locally (F b)).
Proof. intros Q HQ. unfold filtermap, at_point. now apply locally_singleton. Qed.
(** limits written with epsilons *)
Lemma lim_right (F : R -> R) a l : (forall e, 0 < e -> exists d, 0 < d /\ forall x, a < x < a + d -> Rabs (F x - l) < e) ->
  filterlim F (at_right a) (locally l).
Proof.
  intros H Q [e HQ]. destruct (H e (cond_pos e)) as (d & Hd & B). exists (mkposreal d Hd). intros x Hx Hax.
  apply HQ. apply B. unfold ball in Hx. cbn in Hx. unfold AbsRing_ball, abs, minus, plus, opp in Hx. cbn in Hx.
  apply Rabs_def2 in Hx. lra.
Qed.
Lemma lim_left (F : R -> R) a l : (forall e, 0 < e -> exists d, 0 < d /\ forall x, a - d < x < a -> Rabs (F x - l) < e) ->
  filterlim F (at_left a) (locally l).
Proof.
  intros H Q [e HQ]. destruct (H e (cond_pos e)) as (d & Hd & B). exists (mkposreal d Hd). intros x Hx Hax.
  apply HQ. apply B. unfold ball in Hx. cbn in Hx. unfold AbsRing_ball, abs, minus, plus, opp in Hx. cbn in Hx.
  apply Rabs_def2 in Hx. lra.
Qed.
Lemma lim_inf (F : R -> R) l : (forall e, 0 < e -> exists m, forall x, m < x -> Rabs (F x - l) < e) ->
  filterlim F (Rbar_locally p_infty) (locally l).
Proof.
  intros H Q [e HQ]. destruct (H e (cond_pos e)) as (m & B). exists m. intros x Hx. apply HQ. apply B. exact Hx.
Qed.
Lemma lim_minf (F : R -> R) l : (forall e, 0 < e -> exists m, forall x, x < m -> Rabs (F x - l) < e) ->
  filterlim F (Rbar_locally m_infty) (locally l).
Proof.
  intros H Q [e HQ]. destruct (H e (cond_pos e)) as (m & B). exists m. intros x Hx. apply HQ. apply B. exact Hx.
Qed.

(** ** Marsaglia and Tsang *)
(** probability that the round accepts, given z *)
Definition mt_p (d z : R) : R := exp (1 / 2 * z * z + d * (1 - mt_v d z + ln (mt_v d z))).
Lemma mt_accept_iff d z u : 0 < u -> mt_accept d z u <-> 0 < 1 + mt_c d * z /\ u < mt_p d z.
Proof.
  intros Hu. unfold mt_accept, mt_p. set (h := 1 / 2 * z * z + _). split; intros [H1 H2]; split; auto.
  - rewrite <- (exp_ln u Hu). now apply exp_increasing.
  - rewrite <- (ln_exp h). now apply ln_increasing.
Qed.

Section MT.
Variable d : R.
Hypothesis Hd : 0 < d.
Notation c := (mt_c d).
Lemma sd_pos : 0 < sqrt d. Proof. now apply sqrt_lt_R0. Qed.
Lemma c_pos : 0 < c. Proof. unfold mt_c. pose proof sd_pos. apply Rdiv_lt_0_compat; lra. Qed.
Lemma c_sq : 9 * d * (c * c) = 1.
Proof. unfold mt_c. pose proof sd_pos. pose proof (sqrt_sqrt d ltac:(lra)). field_simplify; [|lra]. replace (sqrt d ^ 2) with d by (simpl; lra). field. lra. Qed.
(** the exponent as a function of w = 1 + c z *)
Definition kw (w : R) : R := 9 / 2 * (w - 1) * (w - 1) + 1 - w ^ 3 + 3 * ln w.
Lemma kw_derive w : 0 < w -> is_derive kw w (- 3 * (w - 1) ^ 3 / w).
Proof. intros. unfold kw. auto_derive; [lra|]. field. lra. Qed.
Lemma kw_1 : kw 1 = 0. Proof. unfold kw. rewrite ln_1. lra. Qed.
Lemma kw_le w : 0 < w -> kw w <= 0.
Proof.
  intros Hw. rewrite <- kw_1. destruct (Rle_dec w 1).
  - apply (mono_of_derive kw (fun w => - 3 * (w - 1) ^ 3 / w) w 1); auto.
    + intros x Hx. apply kw_derive. lra.
    + intros x Hx. apply Rmult_le_pos; [|left; apply Rinv_0_lt_compat; lra].
      replace (- 3 * (x - 1) ^ 3) with (3 * ((1 - x) * ((1 - x) * (1 - x)))) by ring.
      assert (0 <= (1 - x) * (1 - x)) by nra. nra.
    + intros x Hx. apply (derive_cont_pt _ _ _ (kw_derive x ltac:(lra))).
  - assert (H : - kw 1 <= - kw w); [|lra].
    apply (mono_of_derive (fun w => - kw w) (fun w => 3 * (w - 1) ^ 3 / w) 1 w); [lra| | |].
    + intros x Hx. apply (d_eq _ _ (- (- 3 * (x - 1) ^ 3 / x))); [|field; lra].
      apply (is_derive_opp kw x (- 3 * (x - 1) ^ 3 / x)). apply kw_derive. lra.
    + intros x Hx. apply Rmult_le_pos; [|left; apply Rinv_0_lt_compat; lra].
      assert (0 <= (x - 1) * (x - 1)) by nra. simpl. nra.
    + intros x Hx. apply continuity_pt_opp. apply (derive_cont_pt _ _ _ (kw_derive x ltac:(lra))).
Qed.
Lemma ln_cube w : 0 < w -> ln (w ^ 3) = 3 * ln w.
Proof. intros. simpl. rewrite Rmult_1_r, !ln_mult by nra. lra. Qed.
Lemma mt_h z : 0 < 1 + c * z ->
  1 / 2 * z * z + d * (1 - mt_v d z + ln (mt_v d z)) = d * kw (1 + c * z).
Proof.
  intros Hz. unfold mt_v, kw. rewrite ln_cube by auto. pose proof c_sq as Q.
  replace (1 / 2 * z * z) with (9 * d * (c * c) * (1 / 2 * z * z)) by (rewrite Q; ring). field.
Qed.
Lemma exp_le_0 x : x <= 0 -> exp x <= exp 0.
Proof. intros [L| ->]; [left; now apply exp_increasing|lra]. Qed.
Lemma mt_p_range z : 0 < 1 + c * z -> 0 < mt_p d z <= 1.
Proof.
  intros Hz. unfold mt_p. rewrite mt_h by auto. split; [apply exp_pos|].
  pose proof (kw_le _ Hz) as L. apply Rle_trans with (exp 0); [|rewrite exp_0; lra]. apply exp_le_0.
  rewrite <- (Rmult_0_r d). apply Rmult_le_compat_l; lra.
Qed.

(** the accepted mass, in terms of the gamma distribution with shape d + 1/3 *)
Notation k := (d + 1 / 3).
Definition mt_K : R := exp d * Gam k * sqrt d / (sqrt (2 * PI) * Rpower d k).
Lemma k_pos : 0 < k. Proof. lra. Qed.
Lemma s2pi : 0 < sqrt (2 * PI). Proof. apply sqrt_lt_R0. pose proof PI_RGT_0. lra. Qed.
Lemma mt_K_pos : 0 < mt_K.
Proof.
  pose proof s2pi. pose proof sd_pos. pose proof (Gam_pos k k_pos). pose proof (exp_pos d). pose proof (Rpower_pos d k).
  unfold mt_K. apply Rdiv_lt_0_compat; repeat apply Rmult_lt_0_compat; auto.
Qed.
Variable th : R.
Hypothesis Hth : 0 < th.
(** the value returned for z *)
Definition mt_x (z : R) : R := d * mt_v d z * th.
Lemma mt_x_derive z : is_derive mt_x z (d * (3 * c * (1 + c * z) ^ 2) * th).
Proof. unfold mt_x, mt_v. auto_derive; [auto|]. ring. Qed.
Lemma mt_v_gt0 z : 0 < 1 + c * z -> 0 < mt_v d z. Proof. intros. unfold mt_v. now apply pow_lt. Qed.
Lemma mt_x_pos z : 0 < 1 + c * z -> 0 < mt_x z.
Proof. intros. pose proof (mt_v_gt0 z H). unfold mt_x. apply Rmult_lt_0_compat; [apply Rmult_lt_0_compat|]; auto. Qed.

Lemma mt_density z : 0 < 1 + c * z ->
  norm_pdf 0 1 z * mt_p d z = mt_K * (gamma_pdf k th (mt_x z) * (d * (3 * c * (1 + c * z) ^ 2) * th)).
Proof.
  intros Hz. pose proof s2pi. pose proof sd_pos. pose proof (Gam_pos k k_pos). pose proof (mt_v_gt0 z Hz) as Hv.
  pose proof (Rpower_pos d k) as Hdk. pose proof (Rpower_pos th k) as Htk.
  unfold norm_pdf, mt_p. rewrite Rmult_1_r.
  replace (1 / sqrt (2 * PI) * exp (- ((z - 0) ^ 2 / (2 * 1 ^ 2))) * exp (1 / 2 * z * z + d * (1 - mt_v d z + ln (mt_v d z))))
    with (1 / sqrt (2 * PI) * (exp d * exp (d * ln (mt_v d z)) * exp (- (d * mt_v d z)))).
  2:{ rewrite (Rmult_assoc (1 / sqrt (2 * PI))). f_equal. rewrite <- !exp_plus. f_equal. field. }
  unfold gamma_pdf, mt_x.
  replace (Rpower (d * mt_v d z * th) (k - 1)) with (Rpower d k / d * (exp (d * ln (mt_v d z)) / (1 + c * z) ^ 2) * (Rpower th k / th)).
  2:{ unfold Rpower. rewrite !ln_mult by (auto; apply Rmult_lt_0_compat; auto).
      replace ((k - 1) * (ln d + ln (mt_v d z) + ln th)) with ((k * ln d - ln d) + (d * ln (mt_v d z) - 2 / 3 * ln (mt_v d z)) + (k * ln th - ln th)) by field.
      rewrite !exp_plus. unfold Rminus. rewrite !exp_plus, !exp_Ropp, !exp_ln by auto.
      replace (exp (2 / 3 * ln (mt_v d z))) with ((1 + c * z) ^ 2); [field; lra|].
      unfold mt_v. rewrite ln_cube by auto. replace (2 / 3 * (3 * ln (1 + c * z))) with (ln (1 + c * z) + ln (1 + c * z)) by field.
      rewrite exp_plus, exp_ln by auto. ring. }
  replace (- (d * mt_v d z * th) / th) with (- (d * mt_v d z)) by (field; lra).
  unfold mt_K. replace (3 * c) with (/ sqrt d) by (unfold mt_c; field; lra).
  field. repeat split; try lra.
Qed.

(** z for a returned value *)
Definition mt_z (x : R) : R := (pw (x / (d * th)) (/ 3) - 1) / c.
Lemma dth_pos : 0 < d * th. Proof. nra. Qed.
Lemma mt_z_w x : 1 + c * mt_z x = pw (x / (d * th)) (/ 3).
Proof. pose proof c_pos. unfold mt_z. field. lra. Qed.
Lemma mt_z_pos x : 0 < x -> 0 < 1 + c * mt_z x.
Proof. intros. rewrite mt_z_w. apply pw_gt0. pose proof dth_pos. now apply Rdiv_lt_0_compat. Qed.
Lemma mt_x_z x : 0 < x -> mt_x (mt_z x) = x.
Proof.
  intros Hx. pose proof dth_pos. unfold mt_x, mt_v. rewrite mt_z_w.
  assert (Hr : 0 < x / (d * th)) by now apply Rdiv_lt_0_compat.
  replace (pw (x / (d * th)) (/ 3) ^ 3) with (x / (d * th)); [field; lra|].
  assert (Hp : 0 < pw (x / (d * th)) (/ 3)) by now apply pw_gt0.
  rewrite <- Rpower_pow by auto. replace (INR 3) with 3 by (simpl; lra).
  rewrite <- pw_pos by auto. rewrite pw_inv'; lra.
Qed.
Lemma mt_x_slt z1 z2 : 0 < 1 + c * z1 -> z1 < z2 -> mt_x z1 < mt_x z2.
Proof.
  intros H1 H12. pose proof c_pos. assert (1 + c * z1 < 1 + c * z2) by nra.
  unfold mt_x, mt_v. set (a := 1 + c * z1) in *. set (b := 1 + c * z2) in *.
  assert (a ^ 3 < b ^ 3). { simpl. rewrite !Rmult_1_r. apply Rmult_gt_0_lt_compat; nra. }
  apply Rmult_lt_compat_r; auto. apply Rmult_lt_compat_l; auto.
Qed.
Lemma mt_x_le_iff z x : 0 < 1 + c * z -> 0 < x -> (mt_x z <= x <-> z <= mt_z x).
Proof.
  intros Hz Hx. pose proof (mt_z_pos x Hx). split; intros H1.
  - apply Rnot_lt_le. intros L. pose proof (mt_x_slt _ _ H L) as Q. rewrite mt_x_z in Q by auto. lra.
  - destruct H1 as [L|E]; [|subst z; rewrite mt_x_z; auto; lra].
    pose proof (mt_x_slt _ _ Hz L) as Q. rewrite mt_x_z in Q by auto. lra.
Qed.

Lemma mt_low z : 0 < 1 + c * z <-> -1 / c < z.
Proof.
  pose proof c_pos. split; intros.
  - apply (Rmult_lt_reg_r c); auto. unfold Rdiv. rewrite Rmult_assoc, Rinv_l by lra. lra.
  - assert (E : -1 / c * c = -1) by (field; lra). nra.
Qed.
Lemma mt_prim z : 0 < 1 + c * z -> is_derive (fun z => mt_K * gamma_cdf k th (mt_x z)) z (norm_pdf 0 1 z * mt_p d z).
Proof.
  intros Hz. rewrite mt_density by auto. pose proof k_pos.
  apply (d_eq _ _ (mt_K * (d * (3 * c * (1 + c * z) ^ 2) * th * gamma_pdf k th (mt_x z)))); [|ring].
  apply (is_derive_scal (fun z => gamma_cdf k th (mt_x z)) z mt_K).
  apply (d_comp (gamma_cdf k th) mt_x); [|apply mt_x_derive].
  apply gamma_cdf_derive; auto. now apply mt_x_pos.
Qed.
Lemma mt_cont z : 0 < 1 + c * z -> continuous (fun z => norm_pdf 0 1 z * mt_p d z) z.
Proof.
  intros Hz. apply (@ex_derive_continuous R_AbsRing R_NormedModule). unfold norm_pdf, mt_p, mt_v.
  auto_derive. repeat split; auto. change (0 < (1 + c * z) ^ 3). now apply pow_lt.
Qed.
Lemma mt_lim_low : filterlim (fun z => mt_K * gamma_cdf k th (mt_x z)) (at_right (-1 / c)) (locally 0).
Proof.
  pose proof k_pos as Hk. pose proof mt_K_pos as HK. pose proof c_pos as Hc.
  assert (C : continuity_pt (fun z => mt_K * PG k (mt_x z / th)) (-1 / c)).
  { apply continuity_pt_scal. apply (continuity_pt_comp (fun z => mt_x z / th) (PG k)).
    - apply continuity_pt_mult; [|apply continuity_pt_const; now intros ? ?].
      apply (derive_cont_pt _ _ _ (mt_x_derive (-1 / c))).
    - now apply PG_cont. }
  assert (E : mt_K * PG k (mt_x (-1 / c) / th) = 0).
  { unfold mt_x, mt_v. replace (1 + c * (-1 / c)) with 0 by (field; lra).
    replace (d * 0 ^ 3 * th / th) with 0 by (field; lra). rewrite PG_0. ring. }
  apply lim_right. intros e He. destruct (C e He) as (a & Ha & B). exists a. split; auto.
  intros x Hx. unfold gamma_cdf. rewrite <- E. apply B. split.
  - split; [exact I|]. lra.
  - unfold R_met, dist, Base, R_dist. cbn. unfold R_dist. rewrite Rabs_right; lra.
Qed.
Lemma mt_lim_high : filterlim (fun z => mt_K * gamma_cdf k th (mt_x z)) (Rbar_locally p_infty) (locally mt_K).
Proof.
  pose proof k_pos as Hk. pose proof mt_K_pos as HK. pose proof c_pos as Hc.
  apply lim_inf. intros e He. destruct (PG_lim k (1 - e / mt_K) Hk) as (y & Hy & L).
  { assert (0 < e / mt_K) by now apply Rdiv_lt_0_compat. lra. }
  exists (mt_z (y * th)). intros z Hz.
  assert (Hyt : 0 < y * th) by nra. pose proof (mt_z_pos _ Hyt) as P.
  pose proof (mt_x_slt _ _ P Hz) as Q. rewrite mt_x_z in Q by auto.
  unfold gamma_cdf.
  assert (Q' : y < mt_x z / th). { apply (Rmult_lt_reg_r th); auto. unfold Rdiv. rewrite Rmult_assoc, Rinv_l; lra. }
  pose proof (PG_slt k _ _ Hk (Rlt_le _ _ Hy) Q') as S1. pose proof (PG_range k (mt_x z / th) Hk ltac:(lra)) as S2.
  set (p := PG k (mt_x z / th)) in *.
  assert (EK : mt_K * (e / mt_K) = e) by (field; lra).
  assert (mt_K * p < mt_K) by nra. assert (mt_K - e < mt_K * p) by nra.
  rewrite Rabs_left; lra.
Qed.
(** The region accepted with a value at most x, and the accepted region. *)
Lemma at_right_low : at_right (-1 / c) (fun z => 0 < 1 + c * z).
Proof. exists (mkposreal 1 Rlt_0_1). intros y _ Hy. now apply mt_low. Qed.
Lemma at_inf_low : Rbar_locally p_infty (fun z => 0 < 1 + c * z).
Proof. exists (-1 / c). intros y Hy. now apply mt_low. Qed.
Lemma mt_convex x y z : 0 < 1 + c * x -> 0 < 1 + c * y -> x <= z <= y -> 0 < 1 + c * z.
Proof. rewrite !mt_low. lra. Qed.
Lemma mt_mass x : 0 < x -> normal_mass (at_right (-1 / c)) (at_point (mt_z x)) (mt_p d) (mt_K * gamma_cdf k th x).
Proof.
  intros Hx. unfold normal_mass. replace (mt_K * gamma_cdf k th x) with (mt_K * gamma_cdf k th (mt_x (mt_z x)) - 0)
    by (rewrite mt_x_z by auto; ring).
  apply (rig _ (fun z => mt_K * gamma_cdf k th (mt_x z)) _ _ (fun z => 0 < 1 + c * z)).
  - apply mt_prim.
  - apply mt_cont.
  - apply mt_convex.
  - apply at_right_low.
  - now apply mt_z_pos.
  - apply mt_lim_low.
  - apply (rig_point (fun z => mt_K * gamma_cdf k th (mt_x z))).
Qed.
Lemma mt_total : normal_mass (at_right (-1 / c)) (Rbar_locally p_infty) (mt_p d) mt_K.
Proof.
  unfold normal_mass. replace mt_K with (mt_K - 0) at 1 by ring.
  apply (rig _ (fun z => mt_K * gamma_cdf k th (mt_x z)) _ _ (fun z => 0 < 1 + c * z)).
  - apply mt_prim.
  - apply mt_cont.
  - apply mt_convex.
  - apply at_right_low.
  - apply at_inf_low.
  - apply mt_lim_low.
  - apply mt_lim_high.
Qed.
(** it is a probability *)
Lemma norm_lim_high : filterlim (norm_cdf 0 1) (Rbar_locally p_infty) (locally 1).
Proof.
  apply lim_inf. intros e He. destruct (norm_cdf_high e He) as (m & Hm & B). exists m. intros x Hx.
  specialize (B x (Rlt_le _ _ Hx)). pose proof (norm_cdf_range 0 1 x). rewrite Rabs_left; lra.
Qed.
Lemma mt_K_le : mt_K <= 1.
Proof.
  pose proof c_pos as Hc.
  assert (H : forall z, 0 <= z -> mt_K * gamma_cdf k th (mt_x z) - norm_cdf 0 1 z <= mt_K * gamma_cdf k th (mt_x 0) - norm_cdf 0 1 0).
  { intros z Hz. assert (Q : - (mt_K * gamma_cdf k th (mt_x 0) - norm_cdf 0 1 0) <= - (mt_K * gamma_cdf k th (mt_x z) - norm_cdf 0 1 z)); [|lra].
    apply (mono_of_derive (fun z => - (mt_K * gamma_cdf k th (mt_x z) - norm_cdf 0 1 z))
      (fun z => - (norm_pdf 0 1 z * mt_p d z - norm_pdf 0 1 z)) 0 z); auto.
    - intros x Hx. apply (is_derive_opp (fun z => mt_K * gamma_cdf k th (mt_x z) - norm_cdf 0 1 z)).
      apply d_minus; [apply mt_prim; nra|apply norm_cdf_derive; lra].
    - intros x Hx. pose proof (mt_p_range x ltac:(nra)) as P.
      assert (0 < norm_pdf 0 1 x). { unfold norm_pdf. pose proof s2pi. apply Rmult_lt_0_compat; [|apply exp_pos]. apply Rdiv_lt_0_compat; lra. }
      nra.
    - intros x Hx. apply continuity_pt_opp, continuity_pt_minus.
      + apply (derive_cont_pt _ _ _ (mt_prim x ltac:(nra))).
      + apply (derive_cont_pt _ _ _ (norm_cdf_derive 0 1 x ltac:(lra))). }
  assert (H0 : mt_K * gamma_cdf k th (mt_x 0) <= norm_cdf 0 1 0).
  { assert (L : 0 <= norm_cdf 0 1 0 - mt_K * gamma_cdf k th (mt_x 0)); [|lra].
    apply Rnot_lt_le. intros C. set (g := mt_K * gamma_cdf k th (mt_x 0) - norm_cdf 0 1 0).
    (* going down to -1/c the accepted mass tends to 0 while the normal mass stays positive *)
    destruct (mt_lim_low (fun v => v < norm_cdf 0 1 (-1 / c))) as [a Ha].
    { exists (mkposreal _ (proj1 (norm_cdf_range 0 1 (-1 / c)))). intros y Hy. unfold ball in Hy. cbn in Hy.
      unfold AbsRing_ball, abs, minus, plus, opp in Hy. cbn in Hy. apply Rabs_def2 in Hy. lra. }
    set (z1 := -1 / c + Rmin (a / 2) (/ (2 * c))).
    assert (Hm : 0 < Rmin (a / 2) (/ (2 * c))).
    { apply Rmin_pos; [pose proof (cond_pos a); lra|]. apply Rinv_0_lt_compat. lra. }
    assert (Hz1 : -1 / c < z1) by (unfold z1; lra).
    assert (Hz1' : z1 < 0). { unfold z1. pose proof (Rmin_r (a / 2) (/ (2 * c))).
      replace (-1 / c) with (- (2 * / (2 * c))) by (field; lra).
      assert (0 < / (2 * c)) by (apply Rinv_0_lt_compat; lra). lra. }
    specialize (Ha z1).
    assert (Hb : ball (-1 / c) a z1).
    { unfold ball. cbn. unfold AbsRing_ball, abs, minus, plus, opp. cbn. unfold z1. pose proof (Rmin_l (a / 2) (/ (2 * c))).
      pose proof (cond_pos a). rewrite Rabs_right; lra. }
    specialize (Ha Hb Hz1).
    assert (Q : mt_K * gamma_cdf k th (mt_x 0) - norm_cdf 0 1 0 <= mt_K * gamma_cdf k th (mt_x z1) - norm_cdf 0 1 z1).
    { assert (Q : - (mt_K * gamma_cdf k th (mt_x z1) - norm_cdf 0 1 z1) <= - (mt_K * gamma_cdf k th (mt_x 0) - norm_cdf 0 1 0)); [|lra].
      apply (mono_of_derive (fun z => - (mt_K * gamma_cdf k th (mt_x z) - norm_cdf 0 1 z))
        (fun z => - (norm_pdf 0 1 z * mt_p d z - norm_pdf 0 1 z)) z1 0); [lra| | |].
      - intros x Hx. apply (is_derive_opp (fun z => mt_K * gamma_cdf k th (mt_x z) - norm_cdf 0 1 z)).
        apply d_minus; [apply mt_prim, mt_low; lra|apply norm_cdf_derive; lra].
      - intros x Hx. pose proof (mt_p_range x (proj2 (mt_low x) ltac:(lra))) as P.
        assert (0 < norm_pdf 0 1 x). { unfold norm_pdf. pose proof s2pi. apply Rmult_lt_0_compat; [|apply exp_pos]. apply Rdiv_lt_0_compat; lra. }
        nra.
      - intros x Hx. apply continuity_pt_opp, continuity_pt_minus.
        + apply (derive_cont_pt _ _ _ (mt_prim x (proj2 (mt_low x) ltac:(lra)))).
        + apply (derive_cont_pt _ _ _ (norm_cdf_derive 0 1 x ltac:(lra))). }
    pose proof (norm_cdf_smono 0 1 (-1 / c) z1 ltac:(lra) Hz1). cbn beta in Ha. lra. }
  apply Rnot_lt_le. intros C.
  destruct (mt_lim_high (fun v => 1 < v)) as [m Hm].
  { exists (mkposreal (mt_K - 1) ltac:(lra)). intros y Hy. unfold ball in Hy. cbn in Hy.
    unfold AbsRing_ball, abs, minus, plus, opp in Hy. cbn in Hy. apply Rabs_def2 in Hy. lra. }
  specialize (Hm (Rmax 0 (m + 1)) ltac:(pose proof (Rmax_r 0 (m + 1)); lra)). cbn beta in Hm.
  specialize (H (Rmax 0 (m + 1)) (Rmax_l _ _)). pose proof (norm_cdf_range 0 1 (Rmax 0 (m + 1))). lra.
Qed.
End MT.

(** ** Rejection *)
Lemma within_val K q n x : 0 < K -> within K q n x = (1 - (1 - K) ^ n) * (q x / K).
Proof.
  intros HK. induction n as [|n IH]; cbn [within pow]; [field; lra|]. rewrite IH. field. lra.
Qed.
Lemma within_lim K q F x : 0 < K <= 1 -> q x = K * F -> is_lim_seq (fun n => within K q n x) F.
Proof.
  intros HK E. apply (is_lim_seq_ext (fun n => (1 - (1 - K) ^ n) * F)).
  { intros n. rewrite within_val by lra. rewrite E. field. lra. }
  replace (Finite F) with (Rbar_mult (Finite (1 - 0)) (Finite F)) by (cbn; f_equal; ring).
  apply is_lim_seq_mult'; [|apply is_lim_seq_const].
  apply is_lim_seq_minus'; [apply is_lim_seq_const|]. apply is_lim_seq_geom. apply Rabs_def1; lra.
Qed.
