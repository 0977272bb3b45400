(** Masses over the whole (z,u) strip for Marsaglia and Tsang's rounds and for rinvgauss, and the
    ratio behind rt. *)
From Coq Require Import Reals Lra Lia Psatz.
From Coquelicot Require Import Coquelicot.
From Verif Require Import RealElem Analysis Spec SpecSF NormR PowInt GammaFn BetaFn FamR SpecRand SpecLaw LawR LawR2 LawR3.
Local Open Scope R_scope.

Lemma zero_int (FA FB : (R -> Prop) -> Prop) {HA : Filter FA} {HB : Filter FB} (f : R -> R) :
  filter_prod FA FB (fun ab => forall t, Rmin (fst ab) (snd ab) < t < Rmax (fst ab) (snd ab) -> 0 = f t) ->
  is_RInt_gen f FA FB 0.
Proof.
  intros H. apply (@is_RInt_gen_ext R_NormedModule FA FB HA HB (fun _ => 0) f 0 H).
  assert (Q : is_RInt_gen (fun _ : R => 0) FA FB (0 - 0)).
  { apply (rig _ (fun _ => 0) _ _ (fun _ => True)); auto.
    - intros. apply d_const.
    - intros. apply continuous_const.
    - apply filter_true.
    - apply filter_true.
    - apply filterlim_const.
    - apply filterlim_const. }
  rewrite Rminus_0_r in Q. exact Q.
Qed.
Lemma right_point (f : R -> R) a b m : (forall x, continuous f x) ->
  is_RInt_gen f (at_right a) (at_point b) m -> is_RInt_gen f (at_point a) (at_point b) m.
Proof.
  intros C H. assert (Hex : forall x y, ex_RInt f x y) by (intros; apply ex_rint; auto).
  assert (E : is_RInt_gen f (at_right a) (at_point b) (RInt f a b - 0)).
  { apply (rig _ (fun x => RInt f a x) _ _ (fun _ => True)); auto.
    - intros x _. apply (is_derive_RInt f (RInt f a) a x).
      + apply filter_forall. intros y. apply (RInt_correct f a y). apply Hex.
      + apply C.
    - apply filter_true.
    - exact I.
    - apply lim_right. intros e He.
      assert (D : is_derive (RInt f a) a (f a)).
      { apply (is_derive_RInt f (RInt f a) a a).
        + apply filter_forall. intros y. apply (RInt_correct f a y). apply Hex.
        + apply C. }
      destruct (derive_cont_pt _ _ _ D e He) as (d & Hd & B). exists d. split; auto. intros x Hx.
      replace 0 with (RInt f a a) by apply (@RInt_point R_CompleteNormedModule a f). apply B. split; [split; [exact I|lra]|].
      cbn. unfold R_dist. rewrite Rabs_right; lra.
    - apply (rig_point (fun x => RInt f a x)). }
  apply is_RInt_gen_at_point. replace m with (RInt f a b); [apply (RInt_correct f a b), Hex|].
  rewrite <- (is_RInt_gen_unique _ _ H), (is_RInt_gen_unique _ _ E). symmetry. apply Rminus_0_r.
Qed.

Section MT2.
Variable d : R.
Hypothesis Hd : 0 < d.
Notation c := (mt_c d).
Definition mt_H (z : R) : R := exp (d * (9 / 2 * (c * z) * (c * z) + 1 - (1 + c * z) ^ 3)) * pw (1 + c * z) (3 * d).
Lemma mt_H_pos z : 0 < 1 + c * z -> mt_H z = mt_p d z.
Proof.
  intros Hz. unfold mt_H, mt_p. rewrite mt_h by auto. unfold kw. rewrite pw_pos by auto. unfold Rpower.
  rewrite <- exp_plus. f_equal. ring.
Qed.
Lemma mt_H_neg z : 1 + c * z <= 0 -> mt_H z = 0.
Proof. intros Hz. unfold mt_H. rewrite pw_np by auto. ring. Qed.
Lemma mt_H_range z : 0 <= mt_H z <= 1.
Proof.
  destruct (Rlt_le_dec 0 (1 + c * z)) as [L|L]; [rewrite mt_H_pos by auto; pose proof (mt_p_range d Hd z L); lra|].
  rewrite mt_H_neg by auto. lra.
Qed.
Lemma mt_H_cont z : continuous (fun z => norm_pdf 0 1 z * mt_H z) z.
Proof.
  apply (continuous_mult (norm_pdf 0 1) mt_H); [apply norm_pdf_cont|].
  apply (continuous_mult (fun z => exp (d * (9 / 2 * (c * z) * (c * z) + 1 - (1 + c * z) ^ 3))) (fun z => pw (1 + c * z) (3 * d))).
  - apply (@ex_derive_continuous R_AbsRing R_NormedModule). auto_derive. auto.
  - apply (continuous_comp (fun z => 1 + c * z) (fun w => pw w (3 * d))).
    + apply (@ex_derive_continuous R_AbsRing R_NormedModule (fun z => 1 + c * z)). auto_derive. auto.
    + apply pw_cont. lra.
Qed.
Lemma mt_H_iff z u : 0 < u -> (mt_accept d z u <-> u < mt_H z).
Proof.
  intros Hu. rewrite mt_accept_iff by auto. destruct (Rlt_le_dec 0 (1 + c * z)) as [L|L].
  - rewrite mt_H_pos by auto. tauto.
  - rewrite mt_H_neg by auto. split; [intros [? ?]; lra|lra].
Qed.
Lemma mt_low_int (f : R -> R) : (forall z, 1 + c * z <= 0 -> f z = 0) ->
  is_RInt_gen (fun z => norm_pdf 0 1 z * f z) (Rbar_locally m_infty) (at_point (-1 / c)) 0.
Proof.
  intros Hf. apply (zero_int _ _). exists (fun z => z < -1 / c) (fun z => z = -1 / c).
  - exists (-1 / c). auto.
  - reflexivity.
  - intros y z Hy -> t Ht. cbn [fst snd] in Ht. rewrite Rmin_left, Rmax_right in Ht by lra.
    rewrite Hf; [ring|]. apply Rnot_lt_le. intros L. apply (mt_low d Hd) in L. lra.
Qed.
Variable th : R.
Hypothesis Hth : 0 < th.
Notation k := (d + 1 / 3).
Lemma mt_point x : 0 < x ->
  is_RInt_gen (fun z => norm_pdf 0 1 z * mt_H z) (at_point (-1 / c)) (at_point (mt_z d th x)) (mt_K d * gamma_cdf k th x).
Proof.
  intros Hx. apply right_point; [apply mt_H_cont|].
  pose proof (mt_z_pos d Hd th Hth x Hx) as P. pose proof P as P'. rewrite (mt_low d Hd) in P.
  apply (is_RInt_gen_ext (fun z => norm_pdf 0 1 z * mt_p d z)); [|now apply mt_mass].
  exists (fun z => -1 / c < z) (fun z => z = mt_z d th x).
  - exists (mkposreal 1 Rlt_0_1). auto.
  - reflexivity.
  - intros y z Hy -> t Ht. cbn [fst snd] in Ht. rewrite mt_H_pos; auto. apply (mt_low d Hd).
    apply Rlt_trans with (2 := proj1 Ht). apply Rmin_case; auto.
Qed.
Lemma mt_high : is_RInt_gen (fun z => norm_pdf 0 1 z * mt_H z) (at_point (mt_z d th th)) (Rbar_locally p_infty)
  (mt_K d - mt_K d * gamma_cdf k th th).
Proof.
  pose proof (mt_z_pos d Hd th Hth th Hth) as P. pose proof P as P'. rewrite (mt_low d Hd) in P.
  apply (is_RInt_gen_ext (fun z => norm_pdf 0 1 z * mt_p d z)).
  - exists (fun z => z = mt_z d th th) (fun z => mt_z d th th < z).
    + reflexivity.
    + exists (mt_z d th th). auto.
    + intros y z -> Hz t Ht. cbn [fst snd] in Ht. rewrite Rmin_left, Rmax_right in Ht by lra. rewrite mt_H_pos; auto.
      apply (mt_low d Hd). lra.
  - replace (gamma_cdf k th th) with (gamma_cdf k th (mt_x d th (mt_z d th th))) by (rewrite mt_x_z by auto; reflexivity).
    apply (rig _ (fun z => mt_K d * gamma_cdf k th (mt_x d th z)) _ _ (fun z => 0 < 1 + c * z)).
    + now apply mt_prim.
    + now apply mt_cont.
    + now apply mt_convex.
    + exact P'.
    + now apply at_inf_low.
    + apply (rig_point (fun z => mt_K d * gamma_cdf k th (mt_x d th z))).
    + now apply mt_lim_high.
Qed.
Lemma mt_region_all : region_mass (mt_accept d) (mt_K d).
Proof.
  exists mt_H. split; [apply mt_H_range|]. split.
  - intros z u Hu. rewrite mt_H_iff by lra. split; lra.
  - unfold normal_mass. replace (mt_K d) with (plus (plus 0 (mt_K d * gamma_cdf k th th)) (mt_K d - mt_K d * gamma_cdf k th th)).
    2:{ unfold plus. cbn. ring. }
    apply (@is_RInt_gen_Chasles R_NormedModule (Rbar_locally m_infty) (Rbar_locally p_infty) _ _ _ (mt_z d th th));
    [apply (@is_RInt_gen_Chasles R_NormedModule (Rbar_locally m_infty) (at_point (mt_z d th th)) _ _ _ (-1 / c))|].
    + apply mt_low_int. intros. now apply mt_H_neg.
    + now apply mt_point.
    + apply mt_high.
Qed.
Lemma mt_region x : 0 < x -> region_mass (fun z u => mt_accept d z u /\ d * mt_v d z * th <= x) (mt_K d * gamma_cdf k th x).
Proof.
  intros Hx. pose proof (mt_z_pos d Hd th Hth x Hx) as P. pose proof P as P'. rewrite (mt_low d Hd) in P.
  exists (fun z => if Rle_dec z (mt_z d th x) then mt_H z else 0). split.
  { intros z. pose proof (mt_H_range z). destruct Rle_dec; lra. }
  split.
  - intros z u Hu. destruct (Rlt_le_dec 0 (1 + c * z)) as [L|L].
    + rewrite (mt_H_iff z u) by lra. fold (mt_x d th z). rewrite (mt_x_le_iff d Hd th Hth z x L Hx).
      destruct Rle_dec; split; lra.
    + assert (N : ~ mt_accept d z u) by (intros [Q _]; lra). rewrite mt_H_neg by auto.
      split; [destruct Rle_dec; lra|tauto].
  - unfold normal_mass. replace (mt_K d * gamma_cdf k th x) with (plus (plus 0 (mt_K d * gamma_cdf k th x)) 0).
    2:{ unfold plus. cbn. ring. }
    apply (@is_RInt_gen_Chasles R_NormedModule (Rbar_locally m_infty) (Rbar_locally p_infty) _ _ _ (mt_z d th x));
    [apply (@is_RInt_gen_Chasles R_NormedModule (Rbar_locally m_infty) (at_point (mt_z d th x)) _ _ _ (-1 / c))|].
    + apply mt_low_int. intros z Hz. rewrite mt_H_neg by auto. now destruct Rle_dec.
    + apply (is_RInt_gen_ext (fun z => norm_pdf 0 1 z * mt_H z)); [|now apply mt_point].
      exists (fun z => z = -1 / c) (fun z => z = mt_z d th x); [reflexivity|reflexivity|].
      intros y z -> -> t Ht. cbn [fst snd] in Ht. rewrite Rmin_left, Rmax_right in Ht by lra.
      destruct Rle_dec; [reflexivity|lra].
    + apply (zero_int _ _). exists (fun z => z = mt_z d th x) (fun z => mt_z d th x < z); [reflexivity|exists (mt_z d th x); auto|].
      intros y z -> Hz t Ht. cbn [fst snd] in Ht. rewrite Rmin_left, Rmax_right in Ht by lra.
      destruct Rle_dec; [lra|]. ring.
Qed.
End MT2.

Lemma ig_region mu l x : 0 < mu -> 0 < l -> 0 < x ->
  region_mass (fun z u => (if Rle_dec u (mu / (mu + ig_x1 mu l z)) then ig_x1 mu l z else mu * mu / ig_x1 mu l z) <= x)
    (invgauss_cdf mu l x).
Proof.
  intros Hmu Hl Hx. exists (ig_len mu l x). split; [|split].
  - intros z. unfold ig_len. pose proof (ig_h_range mu l Hmu Hl z). destruct Rlt_dec; [lra|]. destruct Rle_dec; lra.
  - intros z u Hu. rewrite (ig_len_iff mu l Hmu Hl x z u Hx Hu). split; lra.
  - now apply ig_mass.
Qed.

(** ** gamma densities *)
Lemma gamma_pdf_cont k th x : 0 < x -> 0 < th -> continuous (gamma_pdf k th) x.
Proof.
  intros. apply (@ex_derive_continuous R_AbsRing R_NormedModule). unfold gamma_pdf, Rpower. auto_derive. repeat split; auto; lra.
Qed.
Lemma gamma_lim_high k th : 0 < k -> 0 < th -> filterlim (gamma_cdf k th) (Rbar_locally p_infty) (locally 1).
Proof.
  intros Hk Ht. apply lim_inf. intros e He. destruct (PG_lim k (1 - e) Hk ltac:(lra)) as (y & Hy & L).
  exists (y * th). intros x Hx. unfold gamma_cdf.
  assert (Q : y < x / th). { apply (Rmult_lt_reg_r th); auto. unfold Rdiv. rewrite Rmult_assoc, Rinv_l; lra. }
  pose proof (PG_slt k _ _ Hk (Rlt_le _ _ Hy) Q). pose proof (PG_range k (x / th) Hk ltac:(lra)). rewrite Rabs_left; lra.
Qed.
Lemma gamma_lim_low k th : 0 < k -> 0 < th -> filterlim (gamma_cdf k th) (at_right 0) (locally 0).
Proof.
  intros Hk Ht. apply lim_right. intros e He. destruct (PG_cont k 0 Hk e He) as (d & Hd & B).
  exists (d * th). split; [nra|]. intros x Hx. unfold gamma_cdf. rewrite <- (PG_0 k). apply B.
  assert (Q : 0 < x / th < d).
  { split; [apply Rdiv_lt_0_compat; lra|]. apply (Rmult_lt_reg_r th); auto. unfold Rdiv. rewrite Rmult_assoc, Rinv_l; lra. }
  split; [split; [exact I|lra]|]. cbn. unfold R_dist. rewrite Rabs_right; lra.
Qed.
Lemma gamma_total k th : 0 < k -> 0 < th -> is_RInt_gen (gamma_pdf k th) (at_right 0) (Rbar_locally p_infty) 1.
Proof.
  intros Hk Ht. replace 1 with (1 - 0) by ring. apply (rig _ (gamma_cdf k th) _ _ (fun x => 0 < x)).
  - intros; now apply gamma_cdf_derive.
  - intros; now apply gamma_pdf_cont.
  - intros; lra.
  - exists (mkposreal 1 Rlt_0_1). auto.
  - exists 0. auto.
  - now apply gamma_lim_low.
  - now apply gamma_lim_high.
Qed.
(** 1/X with X gamma of shape a and scale 1/b *)
Lemma invgamma_mass a b x : 0 < a -> 0 < b -> 0 < x ->
  is_RInt_gen (gamma_pdf a (1 / b)) (at_point (1 / x)) (Rbar_locally p_infty) (invgamma_cdf a b x).
Proof.
  intros Ha Hb Hx. assert (P : 0 < 1 / x) by (apply Rdiv_lt_0_compat; lra). assert (P2 : 0 < 1 / b) by (apply Rdiv_lt_0_compat; lra).
  unfold invgamma_cdf. replace (PG a (b / x)) with (gamma_cdf a (1 / b) (1 / x)).
  2:{ unfold gamma_cdf. f_equal. field. lra. }
  apply (rig _ (gamma_cdf a (1 / b)) _ _ (fun x => 0 < x)).
  - intros; now apply gamma_cdf_derive.
  - intros; now apply gamma_pdf_cont.
  - intros; lra.
  - exact P.
  - exists 0. auto.
  - apply (rig_point (gamma_cdf a (1 / b))).
  - now apply gamma_lim_high.
Qed.

(** ** X/(X+Y), and the ratio of chi-squared variates *)
Lemma beta_mixed a b x : 0 < a -> 0 < b -> 0 < x < 1 ->
  mixed (gamma_pdf b 1) (fun y => gamma_cdf a 1 (x / (1 - x) * y)) (beta_cdf a b x).
Proof.
  intros Ha Hb Hx. unfold mixed, beta_cdf. assert (P : 0 < x / (1 - x)) by (apply Rdiv_lt_0_compat; lra).
  replace (IB a b x) with (IB a b (x / (1 - x) / (1 + x / (1 - x)))) by (f_equal; field; lra).
  apply gg_mass; auto; lra.
Qed.
Lemma f_mixed d1 d2 x : 0 < d1 -> 0 < d2 -> 0 < x ->
  mixed (chisq_pdf d2) (fun y => chisq_cdf d1 (d1 / d2 * x * y)) (f_cdf d1 d2 x).
Proof.
  intros H1 H2 Hx. unfold mixed, f_cdf.
  assert (P : 0 < d1 / d2 * x) by (apply Rmult_lt_0_compat; [now apply Rdiv_lt_0_compat|auto]).
  replace (d1 * x / (d2 + d1 * x)) with (d1 / d2 * x / (1 + d1 / d2 * x)) by (field; nra).
  apply (gg_mass (d2 / 2) (d1 / 2) 2); lra.
Qed.
(** Z / sqrt(X/n) *)
Lemma norm_PG w : 0 <= w -> norm_cdf 0 1 w = 1 / 2 + 1 / 2 * PG (/ 2) (w * w / 2).
Proof.
  intros Hw. rewrite PG_half by nra. unfold norm_cdf. rewrite Rmult_1_r, Rminus_0_r.
  replace (sqrt (w * w / 2)) with (w / sqrt 2); [lra|].
  assert (0 < sqrt 2) by (apply sqrt_lt_R0; lra).
  rewrite sqrt_div_alt by lra. rewrite sqrt_square by auto. reflexivity.
Qed.
Lemma norm_PG_sc n x y : 0 < n -> 0 <= x -> 0 < y -> norm_cdf 0 1 (x * sqrt (y / n)) = 1 / 2 + 1 / 2 * gamma_cdf (/ 2) 2 (x ^ 2 / n * y).
Proof.
  intros Hn Hx Hy. assert (P : 0 < y / n) by now apply Rdiv_lt_0_compat.
  rewrite norm_PG by (apply Rmult_le_pos; [auto|apply sqrt_pos]). unfold gamma_cdf. do 3 f_equal.
  replace (x * sqrt (y / n) * (x * sqrt (y / n))) with (x * x * (sqrt (y / n) * sqrt (y / n))) by ring.
  rewrite sqrt_sqrt by lra. field. lra.
Qed.
Lemma t_mixed n x : 0 < n -> mixed (chisq_pdf n) (fun y => norm_cdf 0 1 (x * sqrt (y / n))) (t_cdf n x).
Proof.
  intros Hn. unfold mixed.
  assert (T := gamma_total (n / 2) 2 ltac:(lra) ltac:(lra)).
  assert (HP : forall x, 0 < x -> is_RInt_gen (fun y => chisq_pdf n y * gamma_cdf (/ 2) 2 (x ^ 2 / n * y)) (at_right 0) (Rbar_locally p_infty)
     (2 * (t_cdf n x - 1 / 2))).
  { clear x. intros x Hx. replace (2 * (t_cdf n x - 1 / 2)) with (IB (/ 2) (n / 2) (x ^ 2 / n / (1 + x ^ 2 / n))).
    - apply (gg_mass (n / 2) (/ 2) 2); try lra. apply Rdiv_lt_0_compat; [nra|auto].
    - rewrite t_cdf_IB_pos by lra. replace (x ^ 2 / (n + x ^ 2)) with (x ^ 2 / n / (1 + x ^ 2 / n)) by (field; nra). lra. }
  assert (HE : forall (f g : R -> R) m, (forall y, 0 < y -> f y = g y) -> is_RInt_gen f (at_right 0) (Rbar_locally p_infty) m ->
     is_RInt_gen g (at_right 0) (Rbar_locally p_infty) m).
  { intros f g m E H. apply (is_RInt_gen_ext f); auto.
    exists (fun y => 0 < y) (fun y => 0 < y); [exists (mkposreal 1 Rlt_0_1); auto|exists 0; auto|].
    intros y z Hy Hz t Ht. apply E. cbn [fst snd] in Ht. apply Rlt_trans with (2 := proj1 Ht). apply Rmin_case; auto. }
  destruct (Rtotal_order x 0) as [L|[->|L]].
  - specialize (HP (- x) ltac:(lra)). rewrite t_cdf_sym in HP by auto.
    apply (HE (fun y => minus (scal (1 / 2) (chisq_pdf n y)) (scal (1 / 2) (chisq_pdf n y * gamma_cdf (/ 2) 2 ((- x) ^ 2 / n * y))))).
    { intros y Hy. change (1 / 2 * chisq_pdf n y + - (1 / 2 * (chisq_pdf n y * gamma_cdf (/ 2) 2 ((- x) ^ 2 / n * y))) =
        chisq_pdf n y * norm_cdf 0 1 (x * sqrt (y / n))).
      assert (E : x * sqrt (y / n) = 0 - ((- x) * sqrt (y / n))) by ring. rewrite E. rewrite norm_cdf_sym by lra.
      rewrite Rplus_0_l, (norm_PG_sc n (- x) y) by lra. field. }
    replace (t_cdf n x) with (minus (scal (1 / 2) 1) (scal (1 / 2) (2 * (1 - t_cdf n x - 1 / 2)))).
    2:{ unfold minus, plus, opp, scal; cbn. unfold mult; cbn. field. }
    apply (@is_RInt_gen_minus R_NormedModule _ _ _ _); apply (@is_RInt_gen_scal R_NormedModule _ _ _ _); [exact T|exact HP].
  - rewrite t_cdf_0 by auto.
    apply (HE (fun y => scal (1 / 2) (chisq_pdf n y))).
    { intros y Hy. rewrite norm_PG_sc by lra. change (1 / 2 * chisq_pdf n y = chisq_pdf n y * (1 / 2 + 1 / 2 * gamma_cdf (/ 2) 2 (0 ^ 2 / n * y))).
      replace (0 ^ 2 / n * y) with 0 by (field; lra).
      unfold gamma_cdf. replace (0 / 2) with 0 by lra. rewrite PG_0. ring. }
    pose proof (@is_RInt_gen_scal R_NormedModule (at_right 0) (Rbar_locally p_infty) _ _ _ (1 / 2) 1 T) as Q.
    change (is_RInt_gen (fun y : R => scal (1 / 2) (chisq_pdf n y)) (at_right 0) (Rbar_locally p_infty) (1 / 2 * 1)) in Q.
    rewrite Rmult_1_r in Q. exact Q.
  - specialize (HP x L).
    apply (HE (fun y => plus (scal (1 / 2) (chisq_pdf n y)) (scal (1 / 2) (chisq_pdf n y * gamma_cdf (/ 2) 2 (x ^ 2 / n * y))))).
    { intros y Hy. rewrite (norm_PG_sc n x y) by lra.
      change (1 / 2 * chisq_pdf n y + 1 / 2 * (chisq_pdf n y * gamma_cdf (/ 2) 2 (x ^ 2 / n * y)) =
        chisq_pdf n y * (1 / 2 + 1 / 2 * gamma_cdf (/ 2) 2 (x ^ 2 / n * y))). ring. }
    replace (t_cdf n x) with (plus (scal (1 / 2) 1) (scal (1 / 2) (2 * (t_cdf n x - 1 / 2)))).
    2:{ unfold plus, scal; cbn. unfold mult; cbn. field. }
    apply (@is_RInt_gen_plus R_NormedModule _ _ _ _); apply (@is_RInt_gen_scal R_NormedModule _ _ _ _); [exact T|exact HP].
Qed.
