(** Real analysis of the gamma, beta, F, t and inverse Gaussian families. *)
From Coq Require Import Reals Lra Lia Psatz.
From Coquelicot Require Import Coquelicot.
From Verif Require Import Spec RealElem Analysis Erf NormR PowInt GammaFn BetaFn SpecSF.
Local Open Scope R_scope.

Lemma div2_pos x : 0 < x -> 0 < x / 2. Proof. lra. Qed.
Lemma d_div (c x : R) : is_derive (fun t => t / c) x (/ c).
Proof. apply d_xs. Qed.
Lemma Rpower_div x y k : 0 < x -> 0 < y -> Rpower (x / y) k = Rpower x k / Rpower y k.
Proof.
  intros. unfold Rdiv. rewrite <- Rpower_mult_distr by (auto; now apply Rinv_0_lt_compat).
  f_equal. rewrite <- Rpower_Ropp. unfold Rpower. rewrite ln_Rinv by auto. f_equal. ring.
Qed.
Lemma Rpower_inv x k : 0 < x -> Rpower (/ x) k = / Rpower x k.
Proof. intros. rewrite <- Rpower_Ropp. unfold Rpower. rewrite ln_Rinv by auto. f_equal. ring. Qed.
Lemma Rpower_m1 x k : 0 < x -> Rpower x (k - 1) = Rpower x k / x.
Proof.
  intros. unfold Rminus. rewrite Rpower_plus, Rpower_Ropp, Rpower_1 by auto. reflexivity.
Qed.
Lemma Rpower_nz x k : Rpower x k <> 0.
Proof. apply Rgt_not_eq, Rpower_pos. Qed.

(** ** Gamma, chi-squared *)
Section G.
Variables k th : R.
Hypothesis Hk : 0 < k.
Hypothesis Hth : 0 < th.
Lemma gamma_cdf_derive x : 0 < x -> is_derive (gamma_cdf k th) x (gamma_pdf k th x).
Proof.
  intros Hx. unfold gamma_cdf, gamma_pdf. pose proof (Gam_pos k Hk).
  apply (d_eq _ _ (/ th * (Rpower (x / th) (k - 1) * exp (- (x / th)) / Gam k))).
  - apply (d_comp (PG k) (fun t => t / th)); [|apply d_div].
    apply PG_derive; auto. now apply Rdiv_lt_0_compat.
  - rewrite Rpower_div, (Rpower_m1 th) by auto.
    replace (- x / th) with (- (x / th)) by (field; lra).
    pose proof (Rpower_nz th k). field. repeat split; auto; lra.
Qed.
Lemma gamma_cdf_pos x : 0 < x -> 0 < gamma_cdf k th x < 1.
Proof.
  intros. unfold gamma_cdf. assert (0 < x / th) by now apply Rdiv_lt_0_compat.
  split; [now apply PG_pos|apply PG_range; lra].
Qed.
Lemma gamma_cdf_slt x y : 0 <= x -> x < y -> gamma_cdf k th x < gamma_cdf k th y.
Proof.
  intros Hx H. apply PG_slt; auto.
  - apply Rmult_le_pos; auto. left. now apply Rinv_0_lt_compat.
  - apply Rmult_lt_compat_r; auto. now apply Rinv_0_lt_compat.
Qed.
Lemma gamma_pdf_pos x : 0 < gamma_pdf k th x.
Proof.
  unfold gamma_pdf. apply Rdiv_lt_0_compat.
  - apply Rmult_lt_0_compat; [apply Rpower_pos|apply exp_pos].
  - apply Rmult_lt_0_compat; [apply Rpower_pos|now apply Gam_pos].
Qed.
End G.
Lemma chisq_gamma_pdf n x : chisq_pdf n x = gamma_pdf (n / 2) 2 x. Proof. reflexivity. Qed.
Lemma chisq_gamma_cdf n x : chisq_cdf n x = gamma_cdf (n / 2) 2 x. Proof. reflexivity. Qed.
Lemma exp_gamma_pdf r x : 0 < r -> 0 < x -> gamma_pdf 1 (/ r) x = exp_pdf r x.
Proof.
  intros. unfold gamma_pdf, exp_pdf. rewrite Gam_1, Rpower_1 by now apply Rinv_0_lt_compat.
  replace (1 - 1) with 0 by ring. rewrite Rpower_O by auto.
  replace (- x / / r) with (- r * x) by (field; lra). field. lra.
Qed.
Lemma exp_gamma_cdf r x : 0 < r -> 0 <= x -> gamma_cdf 1 (/ r) x = exp_cdf r x.
Proof.
  intros. unfold gamma_cdf, exp_cdf. replace (x / / r) with (r * x) by (field; lra).
  rewrite PG_1 by nra. do 2 f_equal. ring.
Qed.

(** ** Inverse gamma *)
Section IG.
Variables a b : R.
Hypothesis Ha : 0 < a.
Hypothesis Hb : 0 < b.
Lemma invgamma_cdf_derive x : 0 < x -> is_derive (invgamma_cdf a b) x (invgamma_pdf a b x).
Proof.
  intros Hx. unfold invgamma_cdf, invgamma_pdf. pose proof (Gam_pos a Ha).
  apply (d_eq _ _ (0 - (- (b / x ^ 2)) * (Rpower (b / x) (a - 1) * exp (- (b / x)) / Gam a))).
  - apply d_minus; [apply d_const|]. apply (d_comp (PG a) (fun t => b / t)).
    + apply PG_derive; auto. now apply Rdiv_lt_0_compat.
    + auto_derive; [lra|]. field. lra.
  - rewrite Rpower_div, !Rpower_m1, Rpower_Ropp by auto.
    replace (- b / x) with (- (b / x)) by (field; lra).
    pose proof (Rpower_nz x a). pose proof (Rpower_nz b a). field. repeat split; auto; lra.
Qed.
Lemma invgamma_arg x : 0 < x -> 0 < b / x. Proof. intros. now apply Rdiv_lt_0_compat. Qed.
Lemma invgamma_cdf_pos x : 0 < x -> 0 < invgamma_cdf a b x < 1.
Proof.
  intros Hx. pose proof (invgamma_arg x Hx). unfold invgamma_cdf.
  pose proof (PG_pos a (b / x)). pose proof (PG_range a (b / x)). lra.
Qed.
Lemma invgamma_cdf_slt x y : 0 < x -> x < y -> invgamma_cdf a b x < invgamma_cdf a b y.
Proof.
  intros Hx H. unfold invgamma_cdf. assert (PG a (b / y) < PG a (b / x)); [|lra].
  apply PG_slt; auto. { left. apply invgamma_arg. lra. }
  apply Rmult_lt_compat_l; auto. apply Rinv_lt_contravar; auto. nra.
Qed.
Lemma invgamma_pdf_pos x : 0 < invgamma_pdf a b x.
Proof.
  unfold invgamma_pdf. apply Rmult_lt_0_compat; [|apply exp_pos].
  apply Rmult_lt_0_compat; [|apply Rpower_pos]. apply Rdiv_lt_0_compat; [apply Rpower_pos|now apply Gam_pos].
Qed.
End IG.

(** ** Beta *)
Section B.
Variables a b : R.
Hypothesis Ha : 0 < a.
Hypothesis Hb : 0 < b.
Lemma beta_cdf_derive x : 0 < x < 1 -> is_derive (beta_cdf a b) x (beta_pdf a b x).
Proof.
  intros Hx. pose proof (Beta_pos a b Ha Hb). apply (d_eq _ _ _ _ (IB_derive a b x Ha Hb Hx)).
  unfold beta_pdf. field. lra.
Qed.
Lemma beta_pdf_pos x : 0 < beta_pdf a b x.
Proof.
  unfold beta_pdf. pose proof (Beta_pos a b Ha Hb). repeat apply Rmult_lt_0_compat; try apply Rpower_pos; try lra.
  now apply Rinv_0_lt_compat.
Qed.
End B.

(** ** F *)
Section F.
Variables d1 d2 : R.
Hypothesis H1 : 0 < d1.
Hypothesis H2 : 0 < d2.
Lemma f_arg x : 0 < x -> 0 < d1 * x / (d2 + d1 * x) < 1.
Proof.
  intros Hx. assert (0 < d1 * x) by nra. split; [apply Rdiv_lt_0_compat; lra|].
  apply (Rmult_lt_reg_r (d2 + d1 * x)); [lra|]. unfold Rdiv. rewrite Rmult_assoc, Rinv_l by lra. lra.
Qed.
Lemma f_arg_slt x y : 0 <= x -> x < y -> d1 * x / (d2 + d1 * x) < d1 * y / (d2 + d1 * y).
Proof.
  intros Hx H. assert (0 <= d1 * x) by nra. assert (d1 * x < d1 * y) by nra.
  replace (d1 * x / (d2 + d1 * x)) with (1 - d2 / (d2 + d1 * x)) by (field; lra).
  replace (d1 * y / (d2 + d1 * y)) with (1 - d2 / (d2 + d1 * y)) by (field; lra).
  assert (/ (d2 + d1 * y) < / (d2 + d1 * x)) by (apply Rinv_lt_contravar; nra). unfold Rdiv. nra.
Qed.
Lemma f_cdf_derive x : 0 < x -> is_derive (f_cdf d1 d2) x (f_pdf d1 d2 x).
Proof.
  intros Hx. pose proof (f_arg x Hx) as Hu. assert (Hp : 0 < d1 * x) by nra.
  pose proof (Beta_pos (d1 / 2) (d2 / 2) ltac:(lra) ltac:(lra)) as HB.
  unfold f_cdf, f_pdf.
  set (u := d1 * x / (d2 + d1 * x)) in *. set (r := d1 / d2).
  assert (Hr : 0 < r) by now apply Rdiv_lt_0_compat.
  assert (Hw : 0 < 1 + r * x) by nra.
  assert (Eu : u = (r * x) / (1 + r * x)).
  { unfold u, r. field. split; [|lra]. apply Rgt_not_eq. nra. }
  assert (E1 : 1 - u = / (1 + r * x)) by (rewrite Eu; field; lra).
  apply (d_eq _ _ (d1 * d2 / (d2 + d1 * x) ^ 2
     * (Rpower u (d1 / 2 - 1) * Rpower (1 - u) (d2 / 2 - 1) / Beta (d1 / 2) (d2 / 2)))).
  - apply (d_comp (IB (d1 / 2) (d2 / 2)) (fun x => d1 * x / (d2 + d1 * x))).
    + apply IB_derive; auto; lra.
    + auto_derive; [lra|]. field. lra.
  - replace (d1 * d2 / (d2 + d1 * x) ^ 2) with (r / ((1 + r * x) * (1 + r * x))).
    2:{ unfold r. field. split; [lra|]. nra. }
    rewrite E1, Eu, Rpower_div, Rpower_inv by nra. rewrite <- Rpower_mult_distr by auto.
    rewrite !Rpower_m1 by auto.
    replace (- ((d1 + d2) / 2)) with (- (d1 / 2 + d2 / 2)) by field.
    rewrite Rpower_Ropp, Rpower_plus.
    pose proof (Rpower_nz (1 + r * x) (d1 / 2)). pose proof (Rpower_nz (1 + r * x) (d2 / 2)).
    field. repeat split; auto; lra.
Qed.
Lemma f_cdf_pos x : 0 < x -> 0 < f_cdf d1 d2 x < 1.
Proof. intros. apply IB_srange; try lra. now apply f_arg. Qed.
Lemma f_cdf_slt x y : 0 <= x -> x < y -> f_cdf d1 d2 x < f_cdf d1 d2 y.
Proof.
  intros Hx H. apply IB_slt; try lra.
  - destruct Hx as [Hx| <-]; [left; now apply f_arg|]. unfold Rdiv. rewrite Rmult_0_r, Rmult_0_l. lra.
  - now apply f_arg_slt.
  - left. apply f_arg. lra.
Qed.
Lemma f_pdf_pos x : 0 < f_pdf d1 d2 x.
Proof.
  unfold f_pdf. pose proof (Beta_pos (d1 / 2) (d2 / 2) ltac:(lra) ltac:(lra)).
  repeat apply Rmult_lt_0_compat; try apply Rpower_pos; try lra. now apply Rinv_0_lt_compat.
Qed.
End F.

(** ** t *)
Section T.
Variable n : R.
Hypothesis Hn : 0 < n.
Lemma t_base x : 0 < 1 + x ^ 2 / n.
Proof.
  assert (0 <= x ^ 2 / n); [|lra]. apply Rmult_le_pos; [apply pow2_ge_0|]. left. now apply Rinv_0_lt_compat.
Qed.
Lemma t_const_pos : 0 < Gam ((n + 1) / 2) / (sqrt (n * PI) * Gam (n / 2)).
Proof.
  pose proof PI_RGT_0. pose proof (Gam_pos ((n + 1) / 2) ltac:(lra)). pose proof (Gam_pos (n / 2) ltac:(lra)).
  apply Rdiv_lt_0_compat; auto. apply Rmult_lt_0_compat; auto. apply sqrt_lt_R0. nra.
Qed.
Lemma t_pdf_pos x : 0 < t_pdf n x.
Proof. apply Rmult_lt_0_compat; [apply t_const_pos|apply Rpower_pos]. Qed.
Lemma t_pdf_cont x : continuous (t_pdf n) x.
Proof.
  apply (continuous_mult (fun _ => _) (fun x => Rpower (1 + x ^ 2 / n) (- ((n + 1) / 2)))); [apply continuous_const|].
  apply (ex_derive_continuous (fun x => Rpower (1 + x ^ 2 / n) (- ((n + 1) / 2)))). eexists.
  apply (d_comp (fun u => Rpower u (- ((n + 1) / 2))) (fun x => 1 + x ^ 2 / n)).
  - apply is_derive_Rpower, t_base.
  - auto_derive; [lra|]. reflexivity.
Qed.
Lemma t_cdf_derive x : is_derive (t_cdf n) x (t_pdf n x).
Proof.
  unfold t_cdf. apply (d_eq _ _ (0 + t_pdf n x)); [|ring]. apply d_plus; [apply d_const|].
  apply (is_derive_RInt (t_pdf n) (fun x => RInt (t_pdf n) 0 x) 0).
  - apply filter_forall. intros y. apply (RInt_correct (t_pdf n)), ex_rint. intros. apply t_pdf_cont.
  - apply t_pdf_cont.
Qed.
Lemma t_cdf_slt x y : x < y -> t_cdf n x < t_cdf n y.
Proof.
  intros H. apply (smono_of_derive (t_cdf n) (t_pdf n)); auto.
  - intros. apply t_cdf_derive.
  - intros. apply t_pdf_pos.
  - intros t _. apply (derive_cont_pt _ _ (t_pdf n t)), t_cdf_derive.
Qed.
Lemma t_cdf_le x y : x <= y -> t_cdf n x <= t_cdf n y.
Proof. intros [H| ->]; [left; now apply t_cdf_slt|lra]. Qed.
Lemma t_cdf_0 : t_cdf n 0 = 1 / 2.
Proof. unfold t_cdf. rewrite rint_point. ring. Qed.
(** the code's representation through the incomplete beta function *)
Lemma t_cdf_IB_pos x : 0 <= x -> t_cdf n x = 1 / 2 + IB (/ 2) (n / 2) (x ^ 2 / (n + x ^ 2)) / 2.
Proof.
  intros Hx.
  assert (H2 : 0 < / 2) by lra. assert (Hn2 : 0 < n / 2) by lra.
  assert (Hsq : forall t, 0 <= t ^ 2) by (intros; apply pow2_ge_0).
  pose proof (Beta_pos (/ 2) (n / 2) H2 Hn2) as HB. pose proof PI_RGT_0 as HPI.
  assert (EB : Gam ((n + 1) / 2) / (sqrt (n * PI) * Gam (n / 2)) = / (sqrt n * Beta (/ 2) (n / 2))).
  { rewrite Beta_val by auto. rewrite Gam_half, sqrt_mult by lra.
    replace (/ 2 + n / 2) with ((n + 1) / 2) by field.
    pose proof (Gam_pos ((n + 1) / 2) ltac:(lra)). pose proof (Gam_pos (n / 2) Hn2).
    assert (0 < sqrt n) by now apply sqrt_lt_R0. assert (0 < sqrt PI) by now apply sqrt_lt_R0.
    field. repeat split; lra. }
  assert (HD : forall t, 0 < t ->
    is_derive (fun t => 1 / 2 + / 2 * IB (/ 2) (n / 2) (t ^ 2 / (n + t ^ 2))) t (t_pdf n t)).
  { intros t Ht. assert (Ht2 : 0 < t ^ 2) by (apply pow_lt; auto).
    set (y := t ^ 2 / (n + t ^ 2)).
    assert (Hy : 0 < y < 1).
    { unfold y. split; [apply Rdiv_lt_0_compat; lra|]. apply (Rmult_lt_reg_r (n + t ^ 2)); [lra|].
      unfold Rdiv. rewrite Rmult_assoc, Rinv_l by lra. lra. }
    apply (d_eq _ _ (0 + / 2 * (2 * t * n / (n + t ^ 2) ^ 2
       * (Rpower y (/ 2 - 1) * Rpower (1 - y) (n / 2 - 1) / Beta (/ 2) (n / 2))))).
    - apply d_plus; [apply d_const|]. apply d_scal.
      apply (d_comp (IB (/ 2) (n / 2)) (fun t => t ^ 2 / (n + t ^ 2))).
      + now apply IB_derive.
      + auto_derive; [lra|]. field. lra.
    - unfold t_pdf. rewrite EB. set (w := 1 + t ^ 2 / n).
      assert (Hw : 0 < w) by apply t_base.
      assert (E1 : 1 - y = / w) by (unfold y, w; field; lra).
      assert (E2 : y = t ^ 2 / (n * w)) by (unfold y, w; field; lra).
      assert (Hnw : 0 < n * w) by nra.
      rewrite E1, !Rpower_m1, Rpower_inv by (try apply Rinv_0_lt_compat; lra).
      rewrite E2, Rpower_div by lra.
      rewrite (Rpower_sqrt (t ^ 2)), (Rpower_sqrt (n * w)), sqrt_pow2, sqrt_mult by lra.
      replace (- ((n + 1) / 2)) with (- (n / 2 + / 2)) by field.
      rewrite Rpower_Ropp, Rpower_plus, Rpower_sqrt by lra.
      replace (n + t ^ 2) with (n * w) by (unfold w; field; lra).
      assert (0 < sqrt n) by now apply sqrt_lt_R0. assert (0 < sqrt w) by now apply sqrt_lt_R0.
      pose proof (sqrt_sqrt n ltac:(lra)) as Sn. pose proof (sqrt_sqrt w ltac:(lra)) as Sw.
      pose proof (Rpower_nz w (n / 2)).
      generalize dependent (Rpower w (n / 2)). intros P HP.
      clear EB. generalize dependent (Beta (/ 2) (n / 2)). intros B HB.
      clear E1 E2. clearbody w. revert Sn Sw. generalize dependent (sqrt n). intros sn Hsn.
      generalize dependent (sqrt w). intros sw Hsw Sn Sw. rewrite <- Sn, <- Sw.
      field. repeat split; auto; lra. }
  assert (E : t_cdf n x - t_cdf n 0 =
    (1 / 2 + / 2 * IB (/ 2) (n / 2) (x ^ 2 / (n + x ^ 2)))
    - (1 / 2 + / 2 * IB (/ 2) (n / 2) (0 ^ 2 / (n + 0 ^ 2)))).
  { apply (eq_of_derive (t_cdf n) (fun t => 1 / 2 + / 2 * IB (/ 2) (n / 2) (t ^ 2 / (n + t ^ 2))) (t_pdf n)); auto.
    - intros. apply t_cdf_derive.
    - intros. apply HD. lra.
    - intros t _. apply (derive_cont_pt _ _ (t_pdf n t)), t_cdf_derive.
    - intros t _. apply continuity_pt_plus; [apply continuity_pt_const; red; auto|].
      apply continuity_pt_scal. apply (continuity_pt_comp (fun t => t ^ 2 / (n + t ^ 2)) (IB (/ 2) (n / 2))).
      + eapply derive_cont_pt. auto_derive; [|reflexivity]. specialize (Hsq t). cbn in Hsq. lra.
      + now apply IB_cont. }
  replace (0 ^ 2 / (n + 0 ^ 2)) with 0 in E by (field; lra).
  rewrite IB_0, t_cdf_0 in E by auto. lra.
Qed.
Lemma t_pdf_even x : t_pdf n (- x) = t_pdf n x.
Proof. unfold t_pdf. replace ((- x) ^ 2) with (x ^ 2) by ring. reflexivity. Qed.
Lemma t_cdf_sym x : t_cdf n (- x) = 1 - t_cdf n x.
Proof.
  assert (H : forall x, 0 <= x -> t_cdf n (- x) = 1 - t_cdf n x).
  { clear x. intros x Hx.
    assert (E : (fun x => - t_cdf n (- x)) x - (fun x => - t_cdf n (- x)) 0 = t_cdf n x - t_cdf n 0).
    { assert (D : forall t, is_derive (fun x => - t_cdf n (- x)) t (t_pdf n t)).
      { intros t. apply (d_eq _ _ (- ((-1) * t_pdf n (- t)))); [|rewrite t_pdf_even; ring].
        apply d_opp. apply (d_comp (t_cdf n) Ropp); [apply t_cdf_derive|].
        apply (d_eq _ _ (- 1)); [|reflexivity]. apply (d_opp (fun t => t)), (@is_derive_id R_AbsRing). }
      apply (eq_of_derive (fun x => - t_cdf n (- x)) (t_cdf n) (t_pdf n)); auto.
      - intros. apply t_cdf_derive.
      - intros t _. apply (derive_cont_pt _ _ (t_pdf n t)), D.
      - intros t _. apply (derive_cont_pt _ _ (t_pdf n t)), t_cdf_derive. }
    cbv beta in E. rewrite Ropp_0, t_cdf_0 in E. lra. }
  destruct (Rle_lt_dec 0 x) as [Hx|Hx]; auto.
  pose proof (H (- x) ltac:(lra)). rewrite Ropp_involutive in H0. lra.
Qed.
Lemma t_IB_arg x : 0 <= x ^ 2 / (n + x ^ 2) < 1.
Proof.
  assert (0 <= x ^ 2) by apply pow2_ge_0. split.
  - apply Rmult_le_pos; auto. left. apply Rinv_0_lt_compat. lra.
  - apply (Rmult_lt_reg_r (n + x ^ 2)); [lra|]. unfold Rdiv. rewrite Rmult_assoc, Rinv_l by lra. lra.
Qed.
Lemma t_cdf_range x : 0 < t_cdf n x < 1.
Proof.
  assert (H : forall x, 0 <= x -> 1 / 2 <= t_cdf n x < 1).
  { clear x. intros x Hx. rewrite t_cdf_IB_pos by auto. pose proof (t_IB_arg x) as [A B].
    pose proof (IB_range (/ 2) (n / 2) _ ltac:(lra) ltac:(lra) (conj A (Rlt_le _ _ B))) as C.
    assert (IB (/ 2) (n / 2) (x ^ 2 / (n + x ^ 2)) < 1); [|lra].
    rewrite <- (IB_1 (/ 2) (n / 2)) by lra. apply IB_slt; lra. }
  destruct (Rle_lt_dec 0 x) as [Hx|Hx]; [pose proof (H x Hx); lra|].
  pose proof (H (- x) ltac:(lra)). pose proof (t_cdf_sym x). lra.
Qed.
(** the two shapes used by the code *)
Lemma t_cdf_main1 x : x <= 0 -> t_cdf n x = 1 / 2 - IB (/ 2) (n / 2) (x ^ 2 / (n + x ^ 2)) / 2.
Proof.
  intros Hx. pose proof (t_cdf_IB_pos (- x) ltac:(lra)) as E. rewrite t_cdf_sym in E.
  replace ((- x) ^ 2) with (x ^ 2) in E by ring. lra.
Qed.
Lemma t_cdf_main2 x : x <= 0 -> t_cdf n x = IB (n / 2) (/ 2) (n / (n + x ^ 2)) / 2.
Proof.
  intros Hx. rewrite t_cdf_main1, IB_sym by lra.
  assert (0 <= x ^ 2) by apply pow2_ge_0.
  replace (1 - x ^ 2 / (n + x ^ 2)) with (n / (n + x ^ 2)) by (field; lra). lra.
Qed.
End T.
Lemma t_eq_of_derive n (F : R -> R) : 0 < n -> F 0 = 1 / 2 -> (forall x, is_derive F x (t_pdf n x)) ->
  forall x, F x = t_cdf n x.
Proof.
  intros Hn H0 HD.
  assert (E : forall x y, x <= y -> F y - F x = t_cdf n y - t_cdf n x).
  { intros x y H. apply (eq_of_derive F (t_cdf n) (t_pdf n)); auto.
    - intros. now apply t_cdf_derive.
    - intros t _. apply (derive_cont_pt _ _ (t_pdf n t)), HD.
    - intros t _. apply (derive_cont_pt _ _ (t_pdf n t)). now apply t_cdf_derive. }
  intros x. pose proof (t_cdf_0 n). destruct (Rle_lt_dec 0 x) as [H1|H1].
  - pose proof (E 0 x H1). lra.
  - pose proof (E x 0 ltac:(lra)). lra.
Qed.
Lemma t_pdf_1 x : t_pdf 1 x = cauchy_pdf 0 1 x.
Proof.
  unfold t_pdf, cauchy_pdf. replace ((1 + 1) / 2) with 1 by field. replace (1 / 2) with (/ 2) by field.
  rewrite Gam_1, Gam_half, Rmult_1_l. pose proof PI_RGT_0.
  pose proof (sqrt_sqrt PI ltac:(lra)) as SP. assert (0 <= x ^ 2) by apply pow2_ge_0.
  rewrite SP, Rpower_Ropp, Rpower_1 by (unfold Rdiv; rewrite Rinv_1, Rmult_1_r; lra).
  replace ((x - 0) / 1) with x by field. field. cbn in *. repeat split; lra.
Qed.
Lemma t_cdf_1 x : cauchy_cdf 0 1 x = t_cdf 1 x.
Proof.
  apply t_eq_of_derive; try lra.
  - unfold cauchy_cdf. replace ((0 - 0) / 1) with 0 by field. rewrite atan_0. ring.
  - intros. rewrite t_pdf_1. apply cauchy_cdf_derive. lra.
Qed.
Lemma Gam_3_2 : Gam (3 / 2) = sqrt PI / 2.
Proof. replace (3 / 2) with (/ 2 + 1) by field. rewrite Gam_rec, Gam_half by lra. field. Qed.
Lemma t_cdf_2 x : 1 / 2 + x / (2 * sqrt (x * x + 2)) = t_cdf 2 x.
Proof.
  apply (t_eq_of_derive 2 (fun x => 1 / 2 + x / (2 * sqrt (x * x + 2)))); try lra.
  clear x. intros x. assert (Hx : 0 < x * x + 2) by nra.
    assert (Hs : 0 < sqrt (x * x + 2)) by now apply sqrt_lt_R0.
    pose proof (sqrt_sqrt (x * x + 2) ltac:(lra)) as SS.
    apply (d_eq _ _ (/ ((x * x + 2) * sqrt (x * x + 2)))).
    + auto_derive; [repeat split; auto; nra|]. set (s := sqrt (x * x + 2)) in *.
      rewrite <- SS. field_simplify_eq; [|lra]. replace (s ^ 2) with (x * x + 2) by (rewrite <- SS; ring).
      ring.
    + unfold t_pdf. replace ((2 + 1) / 2) with (3 / 2) by field. replace (2 / 2) with 1 by field.
      rewrite Gam_3_2, Gam_1. pose proof PI_RGT_0. rewrite sqrt_mult by lra.
      replace (1 + x ^ 2 / 2) with ((x * x + 2) / 2) by field.
      rewrite Rpower_Ropp. replace (3 / 2) with (1 + / 2) by field.
      rewrite Rpower_plus, Rpower_1, Rpower_sqrt, sqrt_div_alt by lra.
      assert (0 < sqrt PI) by (apply sqrt_lt_R0; lra). assert (0 < sqrt 2) by (apply sqrt_lt_R0; lra).
      set (s := sqrt (x * x + 2)) in *. rewrite <- SS. field. repeat split; lra.
Qed.

(** ** Inverse Gaussian *)
Lemma norm_cdf_low e : 0 < e -> exists m, 0 < m /\ forall z, z <= - m -> norm_cdf 0 1 z < e.
Proof.
  intros He. destruct (erfR_near_1 (1 - e)) as (x & Hx & Ex); [lra|].
  pose proof sqrt2_pos. exists (sqrt 2 * x). split; [now apply Rmult_lt_0_compat|].
  intros z Hz. unfold norm_cdf.
  assert (erfR ((z - 0) / (sqrt 2 * 1)) <= erfR (- x)).
  { apply erfR_le. apply (Rmult_le_reg_r (sqrt 2)); auto.
    replace ((z - 0) / (sqrt 2 * 1) * sqrt 2) with z by (field; lra). lra. }
  rewrite erfR_odd in H0. lra.
Qed.
Lemma norm_cdf_high e : 0 < e -> exists m, 0 < m /\ forall z, m <= z -> 1 - e < norm_cdf 0 1 z.
Proof.
  intros He. destruct (norm_cdf_low e He) as (m & Hm & H). exists m. split; auto.
  intros z Hz. pose proof (H (0 - z) ltac:(lra)). rewrite norm_cdf_sym in H0 by lra.
  replace (0 + z) with z in H0 by ring. lra.
Qed.
Section IGs.
Variables mu l : R.
Hypothesis Hmu : 0 < mu.
Hypothesis Hl : 0 < l.
Lemma invgauss_pdf_pos x : 0 < x -> 0 < invgauss_pdf mu l x.
Proof.
  intros. unfold invgauss_pdf. apply Rmult_lt_0_compat; [|apply exp_pos]. apply sqrt_lt_R0.
  pose proof PI_RGT_0. apply Rdiv_lt_0_compat; auto. assert (0 < x ^ 3) by now apply pow_lt. nra.
Qed.
Lemma invgauss_cdf_derive x : 0 < x -> is_derive (invgauss_cdf mu l) x (invgauss_pdf mu l x).
Proof.
  intros Hx. unfold invgauss_cdf. pose proof PI_RGT_0 as HPI.
  assert (Hlx : 0 < l / x) by now apply Rdiv_lt_0_compat.
  assert (Hs : 0 < sqrt (l / x)) by now apply sqrt_lt_R0.
  set (s := sqrt (l / x)) in *. assert (Ss : s * s = l / x) by (apply sqrt_sqrt; lra).
  assert (El : l = s * s * x) by (rewrite Ss; field; lra).
  set (z1 := s * (x / mu - 1)). set (z2 := - s * (x / mu + 1)).
  assert (Ds : is_derive (fun x => sqrt (l / x)) x (- s / (2 * x))).
  { apply (d_eq _ _ ((- (l / x ^ 2)) * (/ (2 * s)))).
    - apply (d_comp sqrt (fun x => l / x)).
      + apply is_derive_Reals. now apply derivable_pt_lim_sqrt.
      + auto_derive; [lra|]. field. lra.
    - rewrite El. field. lra. }
  assert (D1 : is_derive (fun x => sqrt (l / x) * (x / mu - 1)) x ((- s / (2 * x)) * (x / mu - 1) + s * (/ mu))).
  { apply (d_mult (fun x => sqrt (l / x)) (fun x => x / mu - 1)); auto.
    auto_derive; [auto|]. field. lra. }
  assert (D2 : is_derive (fun x => - sqrt (l / x) * (x / mu + 1)) x ((s / (2 * x)) * (x / mu + 1) + - s * (/ mu))).
  { apply (d_mult (fun x => - sqrt (l / x)) (fun x => x / mu + 1)).
    - apply (d_eq _ _ (- (- s / (2 * x)))); [|field; lra]. now apply d_opp.
    - auto_derive; [auto|]. field. lra. }
  apply (d_eq _ _ (((- s / (2 * x)) * (x / mu - 1) + s * (/ mu)) * norm_pdf 0 1 z1
     + exp (2 * l / mu) * (((s / (2 * x)) * (x / mu + 1) + - s * (/ mu)) * norm_pdf 0 1 z2))).
  { apply d_plus.
    - apply (d_comp (norm_cdf 0 1) (fun x => sqrt (l / x) * (x / mu - 1))); auto. apply norm_cdf_derive. lra.
    - apply d_scal. apply (d_comp (norm_cdf 0 1) (fun x => - sqrt (l / x) * (x / mu + 1))); auto.
      apply norm_cdf_derive. lra. }
  assert (Eq : exp (2 * l / mu) * norm_pdf 0 1 z2 = norm_pdf 0 1 z1).
  { unfold norm_pdf. set (c := 1 / (sqrt (2 * PI) * 1)).
    transitivity (c * (exp (2 * l / mu) * exp (- ((z2 - 0) ^ 2 / (2 * 1 ^ 2))))); [ring|].
    rewrite <- exp_plus. do 2 f_equal. unfold z1, z2.
    rewrite El. field. lra. }
  transitivity ((((- s / (2 * x)) * (x / mu - 1) + s * (/ mu))
    + ((s / (2 * x)) * (x / mu + 1) + - s * (/ mu))) * norm_pdf 0 1 z1).
  { rewrite <- Eq at 2. rewrite <- Eq. ring. }
  unfold invgauss_pdf, norm_pdf.
  replace (- (l * (x - mu) ^ 2 / (2 * mu ^ 2 * x))) with (- ((z1 - 0) ^ 2 / (2 * 1 ^ 2))).
  2:{ unfold z1. rewrite El. field. lra. }
  replace (sqrt (l / (2 * PI * x ^ 3))) with (s / (x * sqrt (2 * PI))).
  2:{ replace (l / (2 * PI * x ^ 3)) with ((l / x) / (x ^ 2 * (2 * PI))) by (field; lra).
      assert (0 < x ^ 2) by now apply pow_lt.
      rewrite sqrt_div_alt, (sqrt_mult (x ^ 2) (2 * PI)), sqrt_pow2 by nra. reflexivity. }
  assert (0 < sqrt (2 * PI)) by (apply sqrt_lt_R0; lra). field. lra.
Qed.
Lemma invgauss_cdf_slt x y : 0 < x -> x < y -> invgauss_cdf mu l x < invgauss_cdf mu l y.
Proof.
  intros Hx H. apply (smono_of_derive (invgauss_cdf mu l) (invgauss_pdf mu l)); auto.
  - intros. apply invgauss_cdf_derive. lra.
  - intros. apply invgauss_pdf_pos. lra.
  - intros t Ht. apply (derive_cont_pt _ _ (invgauss_pdf mu l t)), invgauss_cdf_derive. lra.
Qed.
Lemma invgauss_cdf_gt0 x : 0 < invgauss_cdf mu l x.
Proof.
  unfold invgauss_cdf. pose proof (norm_cdf_range 0 1 (sqrt (l / x) * (x / mu - 1))).
  pose proof (norm_cdf_range 0 1 (- sqrt (l / x) * (x / mu + 1))). pose proof (exp_pos (2 * l / mu)). nra.
Qed.
Lemma sqrt_lx x : 0 < x -> sqrt (l / x) * x = sqrt (l * x).
Proof.
  intros. replace (l * x) with ((l / x) * (x ^ 2)) by (field; lra).
  rewrite sqrt_mult, sqrt_pow2; try lra.
  - left. now apply Rdiv_lt_0_compat.
  - apply pow2_ge_0.
Qed.
Lemma invgauss_cdf_high e : 0 < e -> exists m, 0 < m /\ forall x, m <= x -> Rabs (invgauss_cdf mu l x - 1) < e.
Proof.
  intros He. set (E := exp (2 * l / mu)). pose proof (exp_pos (2 * l / mu)) as HE. fold E in HE.
  destruct (norm_cdf_high e He) as (m1 & Hm1 & H1).
  destruct (norm_cdf_low (e / E)) as (m2 & Hm2 & H2); [now apply Rdiv_lt_0_compat|].
  set (K := 2 * mu * (m1 + m2)). assert (HK : 0 < K) by (unfold K; nra).
  exists (Rmax (2 * mu) (K ^ 2 / l)). assert (HM : 0 < 2 * mu) by lra.
  split; [apply (Rlt_le_trans _ (2 * mu)); auto; apply Rmax_l|].
  intros x Hx. assert (A : 2 * mu <= x) by (eapply Rle_trans; [apply Rmax_l|eauto]).
  assert (B : K ^ 2 / l <= x) by (eapply Rle_trans; [apply Rmax_r|eauto]).
  assert (Hlx : K <= sqrt (l * x)).
  { rewrite <- (sqrt_pow2 K) by lra. apply sqrt_le_1_alt. apply (Rmult_le_compat_l l) in B; [|lra].
    replace (l * (K ^ 2 / l)) with (K ^ 2) in B by (field; lra). auto. }
  assert (Hs : 0 < sqrt (l / x)) by (apply sqrt_lt_R0, Rdiv_lt_0_compat; lra).
  rewrite <- sqrt_lx in Hlx by lra. set (s := sqrt (l / x)) in *.
  assert (C : m1 + m2 <= s * x / (2 * mu)).
  { apply (Rmult_le_reg_r (2 * mu)); auto. unfold K in Hlx.
    replace (s * x / (2 * mu) * (2 * mu)) with (s * x) by (field; lra). lra. }
  assert (D : s * x / (2 * mu) <= s * (x / mu - 1)).
  { replace (s * x / (2 * mu)) with (s * (x / (2 * mu))) by (field; lra).
    apply Rmult_le_compat_l; [lra|].
    assert (1 <= x / (2 * mu)).
    { apply (Rmult_le_reg_r (2 * mu)); auto. replace (x / (2 * mu) * (2 * mu)) with x by (field; lra). lra. }
    replace (x / mu) with (2 * (x / (2 * mu))) by (field; lra). lra. }
  unfold invgauss_cdf. fold s E.
  pose proof (H1 (s * (x / mu - 1)) ltac:(lra)).
  pose proof (H2 (- s * (x / mu + 1)) ltac:(lra)) as H3.
  pose proof (norm_cdf_range 0 1 (s * (x / mu - 1))).
  pose proof (norm_cdf_range 0 1 (- s * (x / mu + 1))).
  assert (0 < E * norm_cdf 0 1 (- s * (x / mu + 1)) < e).
  { split; [nra|]. apply (Rmult_lt_compat_l E) in H3; auto.
    replace (E * (e / E)) with e in H3 by (field; lra). auto. }
  apply Rabs_def1; lra.
Qed.
Lemma invgauss_cdf_lt1 x : 0 < x -> invgauss_cdf mu l x < 1.
Proof.
  intros Hx. destruct (Rlt_le_dec (invgauss_cdf mu l x) 1) as [|H]; auto.
  pose proof (invgauss_cdf_slt x (x + 1) Hx ltac:(lra)) as H1.
  destruct (invgauss_cdf_high (invgauss_cdf mu l (x + 1) - 1)) as (m & Hm & Hc); [lra|].
  specialize (Hc _ (Rmax_l m (x + 1))).
  assert (invgauss_cdf mu l (x + 1) <= invgauss_cdf mu l (Rmax m (x + 1))).
  { destruct (Rmax_r m (x + 1)) as [L|E]; [left; apply invgauss_cdf_slt; lra|rewrite <- E; lra]. }
  apply Rabs_def2 in Hc. lra.
Qed.
Lemma invgauss_cdf_low e : 0 < e -> exists m, 0 < m /\ forall x, 0 < x -> x <= m -> invgauss_cdf mu l x < e.
Proof.
  intros He. set (E := exp (2 * l / mu)). pose proof (exp_pos (2 * l / mu)) as HE. fold E in HE.
  destruct (norm_cdf_low (e / (1 + E))) as (m & Hm & H); [apply Rdiv_lt_0_compat; lra|].
  set (K := 2 * m). assert (HK : 0 < K) by (unfold K; lra).
  assert (Hp : 0 < l / K ^ 2) by (apply Rdiv_lt_0_compat; auto; now apply pow_lt).
  exists (Rmin (mu / 2) (l / K ^ 2)). split; [apply Rmin_glb_lt; lra|].
  intros x Hx Hx2. assert (A : x <= mu / 2) by (eapply Rle_trans; [exact Hx2|apply Rmin_l]).
  assert (B : x <= l / K ^ 2) by (eapply Rle_trans; [exact Hx2|apply Rmin_r]).
  assert (Hs : K <= sqrt (l / x)).
  { rewrite <- (sqrt_pow2 K) by lra. apply sqrt_le_1_alt. apply (Rmult_le_reg_r x); auto.
    replace (l / x * x) with l by (field; lra).
    apply (Rmult_le_compat_l (K ^ 2)) in B; [|left; now apply pow_lt].
    replace (K ^ 2 * (l / K ^ 2)) with l in B by (field; lra). auto. }
  set (s := sqrt (l / x)) in *.
  assert (C : x / mu <= / 2).
  { apply (Rmult_le_reg_r mu); auto. replace (x / mu * mu) with x by (field; lra). lra. }
  assert (0 < x / mu) by now apply Rdiv_lt_0_compat.
  unfold invgauss_cdf. fold s E. unfold K in Hs.
  pose proof (H (s * (x / mu - 1)) ltac:(nra)).
  pose proof (H (- s * (x / mu + 1)) ltac:(nra)).
  replace e with (e / (1 + E) + E * (e / (1 + E))) by (field; lra).
  apply Rplus_lt_compat; auto. apply Rmult_lt_compat_l; auto.
Qed.
End IGs.
