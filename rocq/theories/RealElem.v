(** Analysis of the elementary documented formulas ([Spec.v]). *)
From Coq Require Import Reals Lra Psatz.
From Coquelicot Require Import Coquelicot.
From Verif Require Import Spec.
Local Open Scope R_scope.

(** Derivation rules in plain real notation. *)
Lemma d_const (c x : R) : is_derive (fun _ : R => c) x 0.
Proof. auto_derive; auto. Qed.
Lemma d_plus (f g : R -> R) (x df dg : R) :
  is_derive f x df -> is_derive g x dg -> is_derive (fun t => f t + g t) x (df + dg).
Proof. intros. now apply (is_derive_plus (V := R_NormedModule) f g). Qed.
Lemma d_minus (f g : R -> R) (x df dg : R) :
  is_derive f x df -> is_derive g x dg -> is_derive (fun t => f t - g t) x (df - dg).
Proof. intros. now apply (is_derive_minus (V := R_NormedModule) f g). Qed.
Lemma d_opp (f : R -> R) (x df : R) :
  is_derive f x df -> is_derive (fun t => - f t) x (- df).
Proof. intros. now apply (is_derive_opp (V := R_NormedModule) f). Qed.
Lemma d_scal (f : R -> R) (c x df : R) :
  is_derive f x df -> is_derive (fun t => c * f t) x (c * df).
Proof. intros. now apply (is_derive_scal f). Qed.
Lemma d_mult (f g : R -> R) (x df dg : R) :
  is_derive f x df -> is_derive g x dg -> is_derive (fun t => f t * g t) x (df * g x + f x * dg).
Proof. intros. apply (is_derive_mult f g); auto. intros; apply Rmult_comm. Qed.
Lemma d_comp (f g : R -> R) (x df dg : R) :
  is_derive f (g x) df -> is_derive g x dg -> is_derive (fun t => f (g t)) x (dg * df).
Proof. intros. now apply (is_derive_comp (V := R_NormedModule) f g). Qed.
Lemma d_exp x : is_derive exp x (exp x).
Proof. auto_derive; auto. ring. Qed.
Lemma d_eq (f : R -> R) (x a b : R) : is_derive f x a -> a = b -> is_derive f x b.
Proof. intros ? <-; auto. Qed.

(** ** Exponential *)
Lemma exp_cdf_derive r x : is_derive (exp_cdf r) x (exp_pdf r x).
Proof. unfold exp_cdf, exp_pdf. auto_derive; auto. ring. Qed.
Lemma exp_pdf_nonneg r x : 0 <= r -> 0 <= exp_pdf r x.
Proof. intros. unfold exp_pdf. apply Rmult_le_pos; auto. left; apply exp_pos. Qed.
Lemma exp_pdf_pos r x : 0 < r -> 0 < exp_pdf r x.
Proof. intros. unfold exp_pdf. apply Rmult_lt_0_compat; auto. apply exp_pos. Qed.
Lemma exp_le_compat a b : a <= b -> exp a <= exp b.
Proof. intros [H| ->]; [left; now apply exp_increasing|lra]. Qed.
Lemma exp_cdf_mono r x y : 0 <= r -> x <= y -> exp_cdf r x <= exp_cdf r y.
Proof.
  intros. unfold exp_cdf.
  assert (exp (- r * y) <= exp (- r * x)) by (apply exp_le_compat; nra). lra.
Qed.
Lemma exp_cdf_range r x : 0 <= r -> 0 <= x -> 0 <= exp_cdf r x < 1.
Proof.
  intros. unfold exp_cdf. pose proof (exp_pos (- r * x)).
  assert (exp (- r * x) <= exp 0) by (apply exp_le_compat; nra).
  rewrite exp_0 in *. lra.
Qed.
Lemma exp_cdf_pos r x : 0 < r -> 0 < x -> 0 < exp_cdf r x.
Proof.
  intros. unfold exp_cdf.
  assert (exp (- r * x) < exp 0) by (apply exp_increasing; nra).
  rewrite exp_0 in *. lra.
Qed.
Lemma exp_qf_pos r p : 0 < r -> 0 < p < 1 -> 0 < exp_qf r p.
Proof.
  intros. unfold exp_qf. apply Rdiv_lt_0_compat; auto.
  assert (ln (1 - p) < ln 1) by (apply ln_increasing; lra). rewrite ln_1 in *. lra.
Qed.
Lemma exp_cdf_qf r p : 0 < r -> 0 < p < 1 -> exp_cdf r (exp_qf r p) = p.
Proof.
  intros. unfold exp_cdf, exp_qf.
  replace (- r * (- ln (1 - p) / r)) with (ln (1 - p)) by (field; lra).
  rewrite exp_ln; lra.
Qed.
Lemma exp_qf_cdf r x : 0 < r -> exp_qf r (exp_cdf r x) = x.
Proof.
  intros. unfold exp_cdf, exp_qf.
  replace (1 - (1 - exp (- r * x))) with (exp (- r * x)) by lra.
  rewrite ln_exp. field. lra.
Qed.
Lemma exp_qf_mono r p q : 0 < r -> p <= q < 1 -> exp_qf r p <= exp_qf r q.
Proof.
  intros r0 [[H| ->] Hq]; [|lra]. unfold exp_qf.
  apply Rmult_le_compat_r; [left; now apply Rinv_0_lt_compat|].
  assert (ln (1 - q) < ln (1 - p)) by (apply ln_increasing; lra). lra.
Qed.

(** ** Uniform *)
Lemma unif_cdf_derive a b x : a < b -> is_derive (unif_cdf a b) x (unif_pdf a b).
Proof. intros. unfold unif_cdf, unif_pdf. auto_derive; auto. Qed.
Lemma unif_cdf_range a b x : a < b -> a <= x <= b -> 0 <= unif_cdf a b x <= 1.
Proof.
  intros. unfold unif_cdf. split.
  - apply Rmult_le_pos; [lra|]. left. apply Rinv_0_lt_compat. lra.
  - apply (Rmult_le_reg_r (b - a)); [lra|]. field_simplify; lra.
Qed.
Lemma unif_cdf_srange a b x : a < b -> a < x < b -> 0 < unif_cdf a b x < 1.
Proof.
  intros. unfold unif_cdf. split.
  - apply Rdiv_lt_0_compat; lra.
  - apply (Rmult_lt_reg_r (b - a)); [lra|]. field_simplify; lra.
Qed.
Lemma unif_cdf_mono a b x y : a < b -> x <= y -> unif_cdf a b x <= unif_cdf a b y.
Proof.
  intros. unfold unif_cdf. apply Rmult_le_compat_r; [|lra].
  left; apply Rinv_0_lt_compat; lra.
Qed.
Lemma unif_cdf_qf a b p : a < b -> unif_cdf a b (unif_qf a b p) = p.
Proof. intros. unfold unif_cdf, unif_qf. field. lra. Qed.
Lemma unif_qf_cdf a b x : a < b -> unif_qf a b (unif_cdf a b x) = x.
Proof. intros. unfold unif_cdf, unif_qf. field. lra. Qed.
Lemma unif_qf_range a b p : a < b -> 0 <= p <= 1 -> a <= unif_qf a b p <= b.
Proof. intros. unfold unif_qf. nra. Qed.
Lemma unif_qf_srange a b p : a < b -> 0 < p < 1 -> a < unif_qf a b p < b.
Proof. intros. unfold unif_qf. nra. Qed.
Lemma unif_qf_mono a b p q : a < b -> p <= q -> unif_qf a b p <= unif_qf a b q.
Proof. intros. unfold unif_qf. nra. Qed.

(** ** Laplace *)
Lemma Rsign_pos z : 0 < z -> Rsign z = 1.
Proof. intros. unfold Rsign. destruct Rlt_dec; lra. Qed.
Lemma Rsign_neg z : z < 0 -> Rsign z = -1.
Proof. intros. unfold Rsign. destruct Rlt_dec; [lra|]. destruct Rlt_dec; lra. Qed.
Lemma Rsign_0 : Rsign 0 = 0.
Proof. unfold Rsign. destruct (Rlt_dec 0 0); [lra|]. auto. Qed.
Lemma Rsign_opp z : Rsign (- z) = - Rsign z.
Proof.
  destruct (Rtotal_order z 0) as [H|[->|H]].
  - rewrite (Rsign_neg z), Rsign_pos; lra.
  - rewrite Ropp_0, Rsign_0. lra.
  - rewrite (Rsign_pos z), Rsign_neg; lra.
Qed.
Lemma laplace_cdf_low m s x : 0 < s -> x <= m -> laplace_cdf m s x = 1 / 2 * exp ((x - m) / s).
Proof.
  intros Hs [H| ->]; unfold laplace_cdf.
  - rewrite Rsign_neg, Rabs_left by lra.
    replace (- - (x - m) / s) with ((x - m) / s) by (field; lra). lra.
  - replace (m - m) with 0 by lra. rewrite Rsign_0.
    replace (0 / s) with 0 by (field; lra). rewrite exp_0. lra.
Qed.
Lemma laplace_cdf_high m s x : 0 < s -> m <= x -> laplace_cdf m s x = 1 - 1 / 2 * exp (- ((x - m) / s)).
Proof.
  intros Hs [H| <-]; unfold laplace_cdf.
  - rewrite Rsign_pos, Rabs_right by lra.
    replace (- (x - m) / s) with (- ((x - m) / s)) by (field; lra). lra.
  - replace (m - m) with 0 by lra. rewrite Rsign_0.
    replace (- (0 / s)) with 0 by (field; lra). rewrite exp_0. lra.
Qed.
Lemma laplace_pdf_pos m s x : 0 < s -> 0 < laplace_pdf m s x.
Proof.
  intros. unfold laplace_pdf. apply Rmult_lt_0_compat; [|apply exp_pos].
  apply Rdiv_lt_0_compat; lra.
Qed.
Lemma laplace_cdf_derive m s x : 0 < s -> x <> m ->
  is_derive (laplace_cdf m s) x (laplace_pdf m s x).
Proof.
  intros Hs Hx. destruct (Rtotal_order x m) as [H|[H|H]]; [|contradiction|].
  - apply (is_derive_ext_loc (fun x => 1 / 2 * exp ((x - m) / s))).
    + exists (mkposreal (m - x) ltac:(lra)). intros y Hy. symmetry.
      apply laplace_cdf_low; auto.
      unfold ball in Hy; cbn in Hy; unfold AbsRing_ball, abs, minus, plus, opp in Hy; cbn in Hy.
      apply Rabs_def2 in Hy. lra.
    + unfold laplace_pdf. rewrite Rabs_left by lra. auto_derive; auto.
      replace (- - (x - m) / s) with ((x - m) / s) by (field; lra).
      replace ((x + - m) * / s) with ((x - m) / s) by (field; lra). field. lra.
  - apply (is_derive_ext_loc (fun x => 1 - 1 / 2 * exp (- ((x - m) / s)))).
    + exists (mkposreal (x - m) ltac:(lra)). intros y Hy. symmetry.
      apply laplace_cdf_high; auto.
      unfold ball in Hy; cbn in Hy; unfold AbsRing_ball, abs, minus, plus, opp in Hy; cbn in Hy.
      apply Rabs_def2 in Hy. lra.
    + unfold laplace_pdf. rewrite Rabs_right by lra. auto_derive; auto.
      replace (- (x - m) / s) with (- ((x - m) / s)) by (field; lra).
      replace ((x + - m) * / s) with ((x - m) / s) by (field; lra). field. lra.
Qed.
Lemma div_le a b s : 0 < s -> a <= b -> a / s <= b / s.
Proof. intros. apply Rmult_le_compat_r; auto. left; now apply Rinv_0_lt_compat. Qed.
Lemma div_lt a b s : 0 < s -> a < b -> a / s < b / s.
Proof. intros. apply Rmult_lt_compat_r; auto. now apply Rinv_0_lt_compat. Qed.
Lemma exp_le_1 a : a <= 0 -> exp a <= 1.
Proof. intros. rewrite <- exp_0. now apply exp_le_compat. Qed.
Lemma exp_lt_1 a : a < 0 -> exp a < 1.
Proof. intros. rewrite <- exp_0. now apply exp_increasing. Qed.
Lemma laplace_cdf_mono m s x y : 0 < s -> x <= y -> laplace_cdf m s x <= laplace_cdf m s y.
Proof.
  intros Hs Hxy. destruct (Rle_dec y m).
  - rewrite !laplace_cdf_low by lra.
    assert (exp ((x - m) / s) <= exp ((y - m) / s)) by (apply exp_le_compat, div_le; lra). lra.
  - destruct (Rle_dec x m).
    + rewrite laplace_cdf_low, laplace_cdf_high by lra.
      assert (exp ((x - m) / s) <= 1).
      { apply exp_le_1. replace 0 with (0 / s) by (field; lra). apply div_le; lra. }
      assert (exp (- ((y - m) / s)) <= 1).
      { apply exp_le_1. assert (0 / s <= (y - m) / s) by (apply div_le; lra).
        unfold Rdiv in *; lra. }
      lra.
    + rewrite !laplace_cdf_high by lra.
      assert (exp (- ((y - m) / s)) <= exp (- ((x - m) / s))).
      { apply exp_le_compat. assert ((x - m) / s <= (y - m) / s) by (apply div_le; lra). lra. }
      lra.
Qed.
Lemma laplace_cdf_range m s x : 0 < s -> 0 < laplace_cdf m s x < 1.
Proof.
  intros Hs. destruct (Rle_dec x m).
  - rewrite laplace_cdf_low by lra. pose proof (exp_pos ((x - m) / s)).
    assert (exp ((x - m) / s) <= 1).
    { apply exp_le_1. replace 0 with (0 / s) by (field; lra). apply div_le; lra. }
    lra.
  - rewrite laplace_cdf_high by lra. pose proof (exp_pos (- ((x - m) / s))).
    assert (exp (- ((x - m) / s)) <= 1).
    { apply exp_le_1. assert (0 / s <= (x - m) / s) by (apply div_le; lra).
      unfold Rdiv in *; lra. }
    lra.
Qed.
Lemma laplace_qf_low m s p : 0 < p <= 1 / 2 -> laplace_qf m s p = m + s * ln (2 * p).
Proof.
  intros [H0 [H| ->]]; unfold laplace_qf.
  - rewrite Rsign_neg, Rabs_left by lra.
    replace (1 - 2 * - (p - 1 / 2)) with (2 * p) by lra. lra.
  - replace (1 / 2 - 1 / 2) with 0 by lra. rewrite Rsign_0.
    replace (2 * (1 / 2)) with 1 by lra. rewrite ln_1. lra.
Qed.
Lemma laplace_qf_high m s p : 1 / 2 <= p < 1 -> laplace_qf m s p = m - s * ln (2 * (1 - p)).
Proof.
  intros [[H| <-] H0]; unfold laplace_qf.
  - rewrite Rsign_pos, Rabs_right by lra.
    replace (1 - 2 * (p - 1 / 2)) with (2 * (1 - p)) by lra. lra.
  - replace (1 / 2 - 1 / 2) with 0 by lra. rewrite Rsign_0.
    replace (2 * (1 - 1 / 2)) with 1 by lra. rewrite ln_1. lra.
Qed.
Lemma ln_nonpos a : 0 < a <= 1 -> ln a <= 0.
Proof.
  intros [H [H1| ->]]; [|rewrite ln_1; lra].
  left. rewrite <- ln_1. now apply ln_increasing.
Qed.
Lemma laplace_cdf_qf m s p : 0 < s -> 0 < p < 1 -> laplace_cdf m s (laplace_qf m s p) = p.
Proof.
  intros Hs Hp. destruct (Rle_dec p (1 / 2)).
  - rewrite laplace_qf_low by lra. assert (ln (2 * p) <= 0) by (apply ln_nonpos; lra).
    rewrite laplace_cdf_low by (auto; nra).
    replace ((m + s * ln (2 * p) - m) / s) with (ln (2 * p)) by (field; lra).
    rewrite exp_ln; lra.
  - rewrite laplace_qf_high by lra. assert (ln (2 * (1 - p)) <= 0) by (apply ln_nonpos; lra).
    rewrite laplace_cdf_high by (auto; nra).
    replace (- ((m - s * ln (2 * (1 - p)) - m) / s)) with (ln (2 * (1 - p))) by (field; lra).
    rewrite exp_ln; lra.
Qed.
Lemma laplace_qf_cdf m s x : 0 < s -> laplace_qf m s (laplace_cdf m s x) = x.
Proof.
  intros Hs. pose proof (laplace_cdf_range m s x Hs). destruct (Rle_dec x m).
  - assert (exp ((x - m) / s) <= 1).
    { apply exp_le_1. replace 0 with (0 / s) by (field; lra). apply div_le; lra. }
    rewrite laplace_cdf_low in * by lra. rewrite laplace_qf_low by lra.
    replace (2 * (1 / 2 * exp ((x - m) / s))) with (exp ((x - m) / s)) by lra.
    rewrite ln_exp. field. lra.
  - assert (exp (- ((x - m) / s)) <= 1).
    { apply exp_le_1. assert (0 / s <= (x - m) / s) by (apply div_le; lra).
      unfold Rdiv in *; lra. }
    rewrite laplace_cdf_high in * by lra. rewrite laplace_qf_high by lra.
    replace (2 * (1 - (1 - 1 / 2 * exp (- ((x - m) / s))))) with (exp (- ((x - m) / s))) by lra.
    rewrite ln_exp. field. lra.
Qed.
Lemma laplace_qf_mono m s p q : 0 < s -> 0 < p -> p <= q -> q < 1 ->
  laplace_qf m s p <= laplace_qf m s q.
Proof.
  intros Hs Hp Hpq Hq. destruct (Rle_dec (laplace_qf m s p) (laplace_qf m s q)); auto.
  assert (laplace_cdf m s (laplace_qf m s q) <= laplace_cdf m s (laplace_qf m s p))
    by (apply laplace_cdf_mono; lra).
  rewrite !laplace_cdf_qf in H by lra. assert (p = q) by lra. subst. lra.
Qed.

(** ** Logistic *)
Lemma logis_cdf_range m s x : 0 < logis_cdf m s x < 1.
Proof.
  unfold logis_cdf. pose proof (exp_pos (- ((x - m) / s))). split.
  - apply Rdiv_lt_0_compat; lra.
  - apply (Rmult_lt_reg_r (1 + exp (- ((x - m) / s)))); [lra|]. field_simplify; lra.
Qed.
Lemma logis_pdf_pos m s x : 0 < s -> 0 < logis_pdf m s x.
Proof.
  intros. unfold logis_pdf. pose proof (exp_pos (- ((x - m) / s))).
  apply Rdiv_lt_0_compat; auto. apply Rmult_lt_0_compat; auto. apply pow_lt. lra.
Qed.
Lemma logis_cdf_derive m s x : 0 < s -> is_derive (logis_cdf m s) x (logis_pdf m s x).
Proof.
  intros. unfold logis_cdf, logis_pdf.
  assert (E: exp (- ((x - m) / s)) = exp (- ((x + - m) * / s))) by (f_equal; unfold Rdiv; lra).
  pose proof (exp_pos (- ((x - m) / s))).
  auto_derive. { rewrite <- E. lra. }
  rewrite <- E. field. lra.
Qed.
Lemma logis_cdf_mono m s x y : 0 < s -> x <= y -> logis_cdf m s x <= logis_cdf m s y.
Proof.
  intros. unfold logis_cdf, Rdiv at 1 3. rewrite !Rmult_1_l.
  pose proof (exp_pos (- ((x - m) / s))). pose proof (exp_pos (- ((y - m) / s))).
  apply Rinv_le_contravar; [lra|].
  assert (exp (- ((y - m) / s)) <= exp (- ((x - m) / s))); [|lra].
  apply exp_le_compat. assert ((x - m) / s <= (y - m) / s) by (apply div_le; lra). lra.
Qed.
Lemma logis_cdf_qf m s p : 0 < s -> 0 < p < 1 -> logis_cdf m s (logis_qf m s p) = p.
Proof.
  intros. unfold logis_cdf, logis_qf.
  replace (- ((m + s * ln (p / (1 - p)) - m) / s)) with (- ln (p / (1 - p))) by (field; lra).
  rewrite exp_Ropp, exp_ln by (apply Rdiv_lt_0_compat; lra). field. lra.
Qed.
Lemma logis_qf_cdf m s x : 0 < s -> logis_qf m s (logis_cdf m s x) = x.
Proof.
  intros. unfold logis_cdf, logis_qf. pose proof (exp_pos (- ((x - m) / s))).
  replace (1 / (1 + exp (- ((x - m) / s))) / (1 - 1 / (1 + exp (- ((x - m) / s)))))
    with (/ exp (- ((x - m) / s))) by (field; lra).
  rewrite <- exp_Ropp, ln_exp. field. lra.
Qed.
Lemma logis_qf_mono m s p q : 0 < s -> 0 < p -> p <= q -> q < 1 ->
  logis_qf m s p <= logis_qf m s q.
Proof.
  intros Hs Hp Hpq Hq. destruct (Rle_dec (logis_qf m s p) (logis_qf m s q)); auto.
  assert (logis_cdf m s (logis_qf m s q) <= logis_cdf m s (logis_qf m s p))
    by (apply logis_cdf_mono; lra).
  rewrite !logis_cdf_qf in H by lra. assert (p = q) by lra. subst. lra.
Qed.

(** ** Cauchy *)
Lemma cauchy_pdf_pos m s x : 0 < s -> 0 < cauchy_pdf m s x.
Proof.
  intros. unfold cauchy_pdf. pose proof PI_RGT_0. apply Rdiv_lt_0_compat; [lra|].
  apply Rmult_lt_0_compat; [now apply Rmult_lt_0_compat|].
  pose proof (pow2_ge_0 ((x - m) / s)). lra.
Qed.
Lemma is_derive_atan x : is_derive atan x (/ (1 + x ^ 2)).
Proof. apply is_derive_Reals. apply derivable_pt_lim_atan. Qed.
Lemma cauchy_cdf_derive m s x : 0 < s -> is_derive (cauchy_cdf m s) x (cauchy_pdf m s x).
Proof.
  intros. unfold cauchy_cdf, cauchy_pdf. pose proof PI_RGT_0.
  eapply d_eq.
  - apply (d_plus (fun _ => 1 / 2)); [apply d_const|]. apply d_scal.
    apply (d_comp atan (fun x => (x - m) / s)).
    + apply is_derive_atan.
    + auto_derive; auto.
  - pose proof (pow2_ge_0 ((x - m) / s)). cbn -[pow]. field. repeat split; try lra.
    replace (s ^ 2 + (x - m) ^ 2) with (s * s * (1 + ((x - m) / s) ^ 2)) by (field; lra). nra.
Qed.
Lemma cauchy_cdf_range m s x : 0 < cauchy_cdf m s x < 1.
Proof.
  unfold cauchy_cdf. pose proof PI_RGT_0. pose proof (atan_bound ((x - m) / s)).
  split.
  - apply (Rmult_lt_reg_r PI); auto. field_simplify; lra.
  - apply (Rmult_lt_reg_r PI); auto. field_simplify; lra.
Qed.
Lemma atan_le x y : x <= y -> atan x <= atan y.
Proof. intros [H| ->]; [left; now apply atan_increasing|lra]. Qed.
Lemma cauchy_cdf_mono m s x y : 0 < s -> x <= y -> cauchy_cdf m s x <= cauchy_cdf m s y.
Proof.
  intros. unfold cauchy_cdf. pose proof PI_RGT_0.
  assert (atan ((x - m) / s) <= atan ((y - m) / s)) by (apply atan_le, div_le; lra).
  assert (1 / PI * atan ((x - m) / s) <= 1 / PI * atan ((y - m) / s)); [|lra].
  apply Rmult_le_compat_l; auto. left. apply Rdiv_lt_0_compat; lra.
Qed.
Lemma cauchy_cdf_qf m s p : 0 < s -> 0 < p < 1 -> cauchy_cdf m s (cauchy_qf m s p) = p.
Proof.
  intros. unfold cauchy_cdf, cauchy_qf. pose proof PI_RGT_0.
  replace ((m + s * tan (PI * (p - 1 / 2)) - m) / s) with (tan (PI * (p - 1 / 2))) by (field; lra).
  rewrite atan_tan by nra. field. lra.
Qed.
Lemma cauchy_qf_cdf m s x : 0 < s -> cauchy_qf m s (cauchy_cdf m s x) = x.
Proof.
  intros. unfold cauchy_cdf, cauchy_qf. pose proof PI_RGT_0.
  replace (PI * (1 / 2 + 1 / PI * atan ((x - m) / s) - 1 / 2)) with (atan ((x - m) / s)) by (field; lra).
  rewrite tan_atan. field. lra.
Qed.
Lemma cauchy_qf_mono m s p q : 0 < s -> 0 < p -> p <= q -> q < 1 ->
  cauchy_qf m s p <= cauchy_qf m s q.
Proof.
  intros Hs Hp Hpq Hq. destruct (Rle_dec (cauchy_qf m s p) (cauchy_qf m s q)); auto.
  assert (cauchy_cdf m s (cauchy_qf m s q) <= cauchy_cdf m s (cauchy_qf m s p))
    by (apply cauchy_cdf_mono; lra).
  rewrite !cauchy_cdf_qf in H by lra. assert (p = q) by lra. subst. lra.
Qed.

(** ** Weibull *)
Lemma weibull_pdf_pos k th x : 0 < k -> 0 < th -> 0 < weibull_pdf k th x.
Proof.
  intros. unfold weibull_pdf. apply Rmult_lt_0_compat; [|apply exp_pos].
  apply Rmult_lt_0_compat; [now apply Rdiv_lt_0_compat|]. apply exp_pos.
Qed.
Lemma is_derive_Rpower x k : 0 < x -> is_derive (fun x => Rpower x k) x (k * Rpower x (k - 1)).
Proof.
  intros. unfold Rpower. auto_derive; auto.
  replace ((k - 1) * ln x) with (k * ln x + - ln x) by ring.
  rewrite exp_plus, exp_Ropp, exp_ln by auto. field. lra.
Qed.
Lemma weibull_cdf_derive k th x : 0 < th -> 0 < x ->
  is_derive (weibull_cdf k th) x (weibull_pdf k th x).
Proof.
  intros. unfold weibull_cdf.
  assert (0 < x / th) by now apply Rdiv_lt_0_compat.
  eapply d_eq.
  - apply (d_minus (fun _ => 1)); [apply d_const|].
    apply (d_comp exp (fun x => - Rpower (x / th) k)); [apply d_exp|].
    apply d_opp. apply (d_comp (fun x => Rpower x k) (fun x => x / th)).
    + now apply is_derive_Rpower.
    + auto_derive; auto.
  - unfold weibull_pdf. field. lra.
Qed.
Lemma Rpower_pos x k : 0 < Rpower x k.
Proof. apply exp_pos. Qed.
Lemma weibull_cdf_range k th x : 0 < weibull_cdf k th x < 1.
Proof.
  unfold weibull_cdf. pose proof (Rpower_pos (x / th) k).
  pose proof (exp_pos (- Rpower (x / th) k)).
  assert (exp (- Rpower (x / th) k) < 1) by (apply exp_lt_1; lra). lra.
Qed.
Lemma weibull_cdf_mono k th x y : 0 < k -> 0 < th -> 0 < x -> x <= y ->
  weibull_cdf k th x <= weibull_cdf k th y.
Proof.
  intros. unfold weibull_cdf.
  assert (Rpower (x / th) k <= Rpower (y / th) k).
  { apply Rle_Rpower_l; [lra|]. split; [now apply Rdiv_lt_0_compat|apply div_le; auto]. }
  assert (exp (- Rpower (y / th) k) <= exp (- Rpower (x / th) k)) by (apply exp_le_compat; lra).
  lra.
Qed.
Lemma weibull_cdf_qf k th p : 0 < k -> 0 < th -> 0 < p < 1 ->
  weibull_cdf k th (weibull_qf k th p) = p.
Proof.
  intros. unfold weibull_cdf, weibull_qf.
  assert (0 < - ln (1 - p)).
  { assert (ln (1 - p) < ln 1) by (apply ln_increasing; lra). rewrite ln_1 in *. lra. }
  replace (th * Rpower (- ln (1 - p)) (1 / k) / th) with (Rpower (- ln (1 - p)) (1 / k)) by (field; lra).
  rewrite Rpower_mult. replace (1 / k * k) with 1 by (field; lra).
  rewrite Rpower_1 by auto. rewrite Ropp_involutive, exp_ln; lra.
Qed.
Lemma weibull_qf_cdf k th x : 0 < k -> 0 < th -> 0 < x ->
  weibull_qf k th (weibull_cdf k th x) = x.
Proof.
  intros. unfold weibull_cdf, weibull_qf.
  replace (1 - (1 - exp (- Rpower (x / th) k))) with (exp (- Rpower (x / th) k)) by lra.
  rewrite ln_exp, Ropp_involutive, Rpower_mult.
  replace (k * (1 / k)) with 1 by (field; lra).
  rewrite Rpower_1 by now apply Rdiv_lt_0_compat. field. lra.
Qed.
Lemma weibull_qf_pos k th p : 0 < th -> 0 < weibull_qf k th p.
Proof. intros. unfold weibull_qf. apply Rmult_lt_0_compat; auto. apply Rpower_pos. Qed.
Lemma weibull_qf_mono k th p q : 0 < k -> 0 < th -> 0 < p -> p <= q -> q < 1 ->
  weibull_qf k th p <= weibull_qf k th q.
Proof.
  intros Hk Hs Hp Hpq Hq. destruct (Rle_dec (weibull_qf k th p) (weibull_qf k th q)); auto.
  assert (weibull_cdf k th (weibull_qf k th q) <= weibull_cdf k th (weibull_qf k th p)).
  { apply weibull_cdf_mono; auto; [now apply weibull_qf_pos|lra]. }
  rewrite !weibull_cdf_qf in H by lra. assert (p = q) by lra. subst. lra.
Qed.
