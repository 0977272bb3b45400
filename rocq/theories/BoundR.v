(** Limits of the documented densities at the ends of the support. *)
From Coq Require Import Reals Lra Psatz.
From Coquelicot Require Import Coquelicot.
From Verif Require Import Spec Analysis PowInt GammaFn BetaFn NormR SpecSF FamR.
Local Open Scope R_scope.

Lemma exd_cont (f : R -> R) x : ex_derive f x -> continuous f x.
Proof. apply (ex_derive_continuous (V:=R_NormedModule) f x). Qed.

Definition lim0 (f : R -> R) (l : R) : Prop :=
  forall e, 0 < e -> exists d, 0 < d /\ forall x, 0 < x < d -> Rabs (f x - l) < e.
Definition lim0_inf (f : R -> R) : Prop :=
  forall m, exists d, 0 < d /\ forall x, 0 < x < d -> m < f x.

Lemma cont_lim0 h e : continuous h 0 -> 0 < e ->
  exists d, 0 < d /\ forall x, Rabs x < d -> Rabs (h x - h 0) < e.
Proof.
  intros H He. assert (H' := proj1 (filterlim_locally _ _) H (mkposreal e He)).
  destruct H' as [d Hd]. exists d. split; [apply cond_pos|]. intros x Hx. apply (Hd x).
  unfold ball. cbn. unfold AbsRing_ball, abs, minus, plus, opp. cbn. now rewrite Ropp_0, Rplus_0_r.
Qed.
Lemma lim0_cont f h : continuous h 0 -> (forall x, 0 < x -> f x = h x) -> lim0 f (h 0).
Proof.
  intros H E e He. destruct (cont_lim0 h e H He) as (d & Hd & Hx). exists d. split; auto.
  intros x Hx'. rewrite E by lra. apply Hx. rewrite Rabs_right; lra.
Qed.
Lemma lim0_ext f g l : (exists d, 0 < d /\ forall x, 0 < x < d -> f x = g x) -> lim0 f l -> lim0 g l.
Proof.
  intros (d0 & Hd0 & E) H e He. destruct (H e He) as (d & Hd & Hx). exists (Rmin d d0).
  split; [now apply Rmin_pos|]. intros x Hx'.
  assert (x < d /\ x < d0) by (split; eapply Rlt_le_trans; try apply Hx'; [apply Rmin_l|apply Rmin_r]).
  rewrite <- E by lra. apply Hx. lra.
Qed.
Lemma lim0_inf_ext f g : (exists d, 0 < d /\ forall x, 0 < x < d -> f x = g x) -> lim0_inf f -> lim0_inf g.
Proof.
  intros (d0 & Hd0 & E) H m. destruct (H m) as (d & Hd & Hx). exists (Rmin d d0).
  split; [now apply Rmin_pos|]. intros x Hx'.
  assert (x < d /\ x < d0) by (split; eapply Rlt_le_trans; try apply Hx'; [apply Rmin_l|apply Rmin_r]).
  rewrite <- E by lra. apply Hx. lra.
Qed.
Lemma lim0_pw c h : 0 < c -> continuous h 0 -> lim0 (fun x => Rpower x c * h x) 0.
Proof.
  intros Hc Hh. replace 0 with (pw 0 c * h 0) at 1 by (rewrite pw_0; ring).
  apply (lim0_cont _ (fun x => pw x c * h x)).
  - apply (continuous_mult (K:=R_AbsRing) (fun x => pw x c) h); auto. now apply pw_cont.
  - intros x Hx. now rewrite pw_pos.
Qed.
Lemma lim0_pw_inf c h : c < 0 -> continuous h 0 -> 0 < h 0 -> lim0_inf (fun x => Rpower x c * h x).
Proof.
  intros Hc Hh H0 m. destruct (cont_lim0 h (h 0 / 2) Hh ltac:(lra)) as (d & Hd & Hx).
  set (M := Rabs m + 1). assert (HM : 0 < M) by (unfold M; pose proof (Rabs_pos m); lra).
  assert (Hm : m < M) by (unfold M; pose proof (Rle_abs m); lra).
  assert (Hq : 0 < h 0 / 2 / M) by (apply Rdiv_lt_0_compat; lra).
  destruct (cont_lim0 (fun x => pw x (- c)) (h 0 / 2 / M) (pw_cont 0 (- c) ltac:(lra)) Hq) as (d' & Hd' & Hx').
  exists (Rmin d d'). split; [now apply Rmin_pos|]. intros x X.
  assert (x < d /\ x < d') as [X1 X2]
    by (split; eapply Rlt_le_trans; try apply X; [apply Rmin_l|apply Rmin_r]).
  specialize (Hx x). specialize (Hx' x). rewrite Rabs_right in Hx, Hx' by lra.
  specialize (Hx X1). specialize (Hx' X2). cbv beta in Hx'.
  rewrite pw_0, pw_pos, Rminus_0_r in Hx' by lra.
  assert (P : 0 < Rpower x (- c)) by apply exp_pos. rewrite Rabs_right in Hx' by lra.
  apply Rabs_def2 in Hx. assert (Hh2 : h 0 / 2 < h x) by lra.
  replace (Rpower x c) with (/ Rpower x (- c)) by (rewrite Rpower_Ropp; apply Rinv_inv).
  apply Rlt_trans with M; auto.
  apply (Rmult_lt_reg_l (Rpower x (- c))); auto.
  rewrite <- Rmult_assoc, Rinv_r, Rmult_1_l by lra.
  apply Rlt_trans with (h 0 / 2); auto.
  replace (h 0 / 2) with (h 0 / 2 / M * M) by (field; lra). apply Rmult_lt_compat_r; auto.
Qed.
Lemma lim0_squeeze f K : 0 <= K -> (forall x, 0 < x -> 0 <= f x <= K * x) -> lim0 f 0.
Proof.
  intros HK H e He. exists (e / (K + 1)). split; [apply Rdiv_lt_0_compat; lra|]. intros x Hx.
  assert (x * (K + 1) < e).
  { replace e with (e / (K + 1) * (K + 1)) by (field; lra). apply Rmult_lt_compat_r; lra. }
  destruct (H x ltac:(lra)). rewrite Rminus_0_r, Rabs_right by lra. nra.
Qed.

(** ** Gamma and chi-squared *)
Section G.
Variables k th : R.
Hypothesis Hk : 0 < k.
Hypothesis Ht : 0 < th.
Definition gamma_h x := exp (- x / th) / (Rpower th k * Gam k).
Lemma gamma_h_cont : continuous gamma_h 0.
Proof.
  apply exd_cont. unfold gamma_h. auto_derive. auto.
Qed.
Lemma gamma_h_0 : 0 < gamma_h 0.
Proof.
  unfold gamma_h. apply Rdiv_lt_0_compat; [apply exp_pos|].
  apply Rmult_lt_0_compat; [apply exp_pos|now apply Gam_pos].
Qed.
Lemma gamma_form x : gamma_pdf k th x = Rpower x (k - 1) * gamma_h x.
Proof. unfold gamma_pdf, gamma_h. unfold Rdiv. ring. Qed.
Lemma gamma_0_gt : 1 < k -> lim0 (gamma_pdf k th) 0.
Proof.
  intros. eapply lim0_ext; [exists 1; split; [lra|]; intros; symmetry; apply gamma_form|].
  apply lim0_pw; [lra|apply gamma_h_cont].
Qed.
Lemma gamma_0_lt : k < 1 -> lim0_inf (gamma_pdf k th).
Proof.
  intros. eapply lim0_inf_ext; [exists 1; split; [lra|]; intros; symmetry; apply gamma_form|].
  apply lim0_pw_inf; [lra|apply gamma_h_cont|apply gamma_h_0].
Qed.
End G.
Lemma gamma_0_eq th : 0 < th -> lim0 (gamma_pdf 1 th) (1 / th).
Proof.
  intros Ht. replace (1 / th) with (gamma_h 1 th 0).
  - apply lim0_cont; [apply gamma_h_cont; lra|]. intros x Hx.
    rewrite gamma_form. replace (1 - 1) with 0 by ring. rewrite Rpower_O by lra. apply Rmult_1_l.
  - unfold gamma_h. rewrite Gam_1, Rpower_1 by auto. replace (- 0 / th) with 0 by (field; lra).
    rewrite exp_0. field. lra.
Qed.
Lemma lim0_chisq n l : lim0 (gamma_pdf (n / 2) 2) l -> lim0 (chisq_pdf n) l.
Proof. apply lim0_ext. exists 1. split; [lra|]. reflexivity. Qed.
Lemma lim0_chisq_inf n : lim0_inf (gamma_pdf (n / 2) 2) -> lim0_inf (chisq_pdf n).
Proof. apply lim0_inf_ext. exists 1. split; [lra|]. reflexivity. Qed.
(** ** Beta *)
Section B.
Variables a b : R.
Hypothesis Ha : 0 < a.
Hypothesis Hb : 0 < b.
Definition beta_h x := 1 / Beta a b * Rpower (1 - x) (b - 1).
Lemma beta_h_cont : continuous beta_h 0.
Proof.
  apply exd_cont. unfold beta_h, Rpower. auto_derive.
  lra.
Qed.
Lemma beta_h_0 : beta_h 0 = 1 / Beta a b.
Proof. unfold beta_h. rewrite Rminus_0_r. unfold Rpower. rewrite ln_1, Rmult_0_r, exp_0. ring. Qed.
Lemma beta_h_pos : 0 < beta_h 0.
Proof. rewrite beta_h_0. apply Rdiv_lt_0_compat; [lra|now apply Beta_pos]. Qed.
Lemma beta_form x : beta_pdf a b x = Rpower x (a - 1) * beta_h x.
Proof. unfold beta_pdf, beta_h. unfold Rdiv. ring. Qed.
Lemma beta_0_gt : 1 < a -> lim0 (beta_pdf a b) 0.
Proof.
  intros. eapply lim0_ext; [exists 1; split; [lra|]; intros; symmetry; apply beta_form|].
  apply lim0_pw; [lra|apply beta_h_cont].
Qed.
Lemma beta_0_lt : a < 1 -> lim0_inf (beta_pdf a b).
Proof.
  intros. eapply lim0_inf_ext; [exists 1; split; [lra|]; intros; symmetry; apply beta_form|].
  apply lim0_pw_inf; [lra|apply beta_h_cont|apply beta_h_pos].
Qed.
End B.
Lemma Beta_1 b : 0 < b -> Beta 1 b = / b.
Proof.
  intros. rewrite Beta_val, Gam_1 by lra. rewrite (Rplus_comm 1 b), Gam_rec by auto.
  pose proof (Gam_pos b). field. lra.
Qed.
Lemma beta_0_eq b : 0 < b -> lim0 (beta_pdf 1 b) b.
Proof.
  intros Hb. replace b with (beta_h 1 b 0) at 2.
  - apply lim0_cont; [apply beta_h_cont; lra|]. intros x Hx.
    rewrite beta_form. replace (1 - 1) with 0 by ring. rewrite Rpower_O by lra. apply Rmult_1_l.
  - rewrite beta_h_0, Beta_1 by auto. field. lra.
Qed.
Lemma beta_pdf_flip a b x : beta_pdf a b (1 - x) = beta_pdf b a x.
Proof. unfold beta_pdf. replace (1 - (1 - x)) with x by ring. rewrite Beta_sym. ring. Qed.
(** ** F *)
Section F.
Variables d1 d2 : R.
Hypothesis H1 : 0 < d1.
Hypothesis H2 : 0 < d2.
Definition f_h x := 1 / Beta (d1 / 2) (d2 / 2) * Rpower (d1 / d2) (d1 / 2)
  * Rpower (1 + d1 / d2 * x) (- ((d1 + d2) / 2)).
Lemma f_h_cont : continuous f_h 0.
Proof.
  apply exd_cont. unfold f_h, Rpower. auto_derive. lra.
Qed.
Lemma f_h_0 : f_h 0 = 1 / Beta (d1 / 2) (d2 / 2) * Rpower (d1 / d2) (d1 / 2).
Proof.
  unfold f_h. rewrite Rmult_0_r, Rplus_0_r. unfold Rpower at 2. rewrite ln_1, Rmult_0_r, exp_0. ring.
Qed.
Lemma f_h_pos : 0 < f_h 0.
Proof.
  rewrite f_h_0. apply Rmult_lt_0_compat; [|apply exp_pos].
  apply Rdiv_lt_0_compat; [lra|apply Beta_pos; lra].
Qed.
Lemma f_form x : f_pdf d1 d2 x = Rpower x (d1 / 2 - 1) * f_h x.
Proof. unfold f_pdf, f_h. unfold Rdiv. ring. Qed.
Lemma f_0_gt : 2 < d1 -> lim0 (f_pdf d1 d2) 0.
Proof.
  intros. eapply lim0_ext; [exists 1; split; [lra|]; intros; symmetry; apply f_form|].
  apply lim0_pw; [lra|apply f_h_cont].
Qed.
Lemma f_0_lt : d1 < 2 -> lim0_inf (f_pdf d1 d2).
Proof.
  intros. eapply lim0_inf_ext; [exists 1; split; [lra|]; intros; symmetry; apply f_form|].
  apply lim0_pw_inf; [lra|apply f_h_cont|apply f_h_pos].
Qed.
End F.
Lemma f_0_eq d2 : 0 < d2 -> lim0 (f_pdf 2 d2) 1.
Proof.
  intros Hd. replace 1 with (f_h 2 d2 0).
  - apply lim0_cont; [apply f_h_cont; lra|]. intros x Hx.
    rewrite f_form. replace (2 / 2 - 1) with 0 by field. rewrite Rpower_O by lra. apply Rmult_1_l.
  - rewrite f_h_0. replace (2 / 2) with 1 by field. rewrite Beta_1 by lra.
    rewrite Rpower_1 by (apply Rdiv_lt_0_compat; lra). field. lra.
Qed.
(** ** Weibull *)
Section W.
Variables k th : R.
Hypothesis Hk : 0 < k.
Hypothesis Ht : 0 < th.
Definition weibull_h x := k / th * Rpower (/ th) (k - 1) * exp (- pw (x / th) k).
Lemma weibull_h_cont : continuous weibull_h 0.
Proof.
  unfold weibull_h. apply (continuous_mult (K:=R_AbsRing) (fun _ => k / th * Rpower (/ th) (k - 1))).
  { apply continuous_const. }
  apply (continuous_comp (fun x => - pw (x / th) k) exp).
  - apply (continuous_opp (V:=R_NormedModule) (fun x => pw (x / th) k)).
    apply (continuous_comp (fun x => x / th) (fun t => pw t k)).
    + apply exd_cont. auto_derive. auto.
    + now apply pw_cont.
  - apply exd_cont. auto_derive. auto.
Qed.
Lemma weibull_h_0 : weibull_h 0 = k / th * Rpower (/ th) (k - 1).
Proof.
  unfold weibull_h. replace (0 / th) with 0 by (field; lra). rewrite pw_0, Ropp_0, exp_0. ring.
Qed.
Lemma weibull_h_pos : 0 < weibull_h 0.
Proof. rewrite weibull_h_0. apply Rmult_lt_0_compat; [now apply Rdiv_lt_0_compat|apply exp_pos]. Qed.
Lemma weibull_form x : 0 < x -> weibull_pdf k th x = Rpower x (k - 1) * weibull_h x.
Proof.
  intros. assert (0 < / th) by now apply Rinv_0_lt_compat. assert (0 < x / th) by now apply Rdiv_lt_0_compat.
  unfold weibull_pdf, weibull_h. rewrite pw_pos by auto.
  replace (Rpower (x / th) (k - 1)) with (Rpower x (k - 1) * Rpower (/ th) (k - 1))
    by (unfold Rdiv; now rewrite Rpower_mult_distr). ring.
Qed.
Lemma weibull_0_gt : 1 < k -> lim0 (weibull_pdf k th) 0.
Proof.
  intros. eapply lim0_ext; [exists 1; split; [lra|]; intros; symmetry; apply weibull_form; lra|].
  apply lim0_pw; [lra|apply weibull_h_cont].
Qed.
Lemma weibull_0_lt : k < 1 -> lim0_inf (weibull_pdf k th).
Proof.
  intros. eapply lim0_inf_ext; [exists 1; split; [lra|]; intros; symmetry; apply weibull_form; lra|].
  apply lim0_pw_inf; [lra|apply weibull_h_cont|apply weibull_h_pos].
Qed.
End W.
Lemma weibull_0_eq th : 0 < th -> lim0 (weibull_pdf 1 th) (1 / th).
Proof.
  intros Ht. replace (1 / th) with (weibull_h 1 th 0).
  - apply lim0_cont; [apply weibull_h_cont; lra|]. intros x Hx.
    rewrite weibull_form by auto. replace (1 - 1) with 0 by ring. rewrite Rpower_O by lra. apply Rmult_1_l.
  - rewrite weibull_h_0 by auto. replace (1 - 1) with 0 by ring.
    rewrite Rpower_O by now apply Rinv_0_lt_compat. field. lra.
Qed.
(** ** Inverse gamma, inverse Gaussian, log-normal *)
Lemma rp_exp_lin a b : 0 < a -> 0 < b ->
  exists K, 0 <= K /\ forall x, 0 < x -> 0 <= Rpower x (- a - 1) * exp (- b / x) <= K * x.
Proof.
  intros Ha Hb. pose proof (gam_C_pos (a + 2)) as HC.
  exists (gam_C (a + 2) * Rpower b (- (a + 2))). split.
  { left. apply Rmult_lt_0_compat; auto. apply exp_pos. }
  intros x Hx. assert (Hq : 0 < b / x) by now apply Rdiv_lt_0_compat.
  pose proof (pow_exp_bound (a + 2) (b / x) ltac:(lra) Hq) as B. split.
  { left. apply Rmult_lt_0_compat; apply exp_pos. }
  rewrite Rpower_div in B by auto.
  assert (E : Rpower x (- a - 1) = x * / Rpower x (a + 2)).
  { rewrite <- Rpower_Ropp. rewrite <- (Rpower_1 x) at 2 by auto. rewrite <- Rpower_plus. f_equal. ring. }
  rewrite E. replace (- b / x) with (- (b / x)) by (field; lra).
  rewrite (Rpower_Ropp b). set (e := exp (- (b / x))) in *.
  assert (0 < Rpower b (a + 2)) by apply exp_pos. assert (0 < Rpower x (a + 2)) by apply exp_pos.
  replace (x * / Rpower x (a + 2) * e) with (x * (/ Rpower b (a + 2) * (Rpower b (a + 2) / Rpower x (a + 2) * e)))
    by (field; lra).
  rewrite (Rmult_comm _ x). apply Rmult_le_compat_l; [lra|]. rewrite (Rmult_comm (gam_C _)).
  apply Rmult_le_compat_l; auto. left. now apply Rinv_0_lt_compat.
Qed.
Lemma invgamma_0 a b : 0 < a -> 0 < b -> lim0 (invgamma_pdf a b) 0.
Proof.
  intros Ha Hb. destruct (rp_exp_lin a b Ha Hb) as (K & HK & H). pose proof (Gam_pos a Ha).
  assert (P : 0 < Rpower b a / Gam a) by (apply Rdiv_lt_0_compat; auto; apply exp_pos).
  apply (lim0_squeeze _ (Rpower b a / Gam a * K)).
  - apply Rmult_le_pos; lra.
  - intros x Hx. specialize (H x Hx). unfold invgamma_pdf.
    rewrite !(Rmult_assoc (Rpower b a / Gam a)). split.
    + apply Rmult_le_pos; lra.
    + apply Rmult_le_compat_l; lra.
Qed.
Lemma invgauss_0 mu l : 0 < mu -> 0 < l -> lim0 (invgauss_pdf mu l) 0.
Proof.
  intros Hm Hl. destruct (rp_exp_lin (/ 2) (l / 2) ltac:(lra) ltac:(lra)) as (K & HK & H).
  assert (0 < PI) by apply PI_RGT_0. set (C := sqrt (l / (2 * PI)) * exp (l / mu)).
  assert (P : 0 <= C).
  { unfold C. apply Rmult_le_pos; [apply sqrt_pos|left; apply exp_pos]. }
  apply (lim0_squeeze _ (C * K)).
  - apply Rmult_le_pos; lra.
  - intros x Hx. specialize (H x Hx). unfold invgauss_pdf. split.
    { apply Rmult_le_pos; [apply sqrt_pos|left; apply exp_pos]. }
    rewrite (Rmult_assoc C K x). apply Rle_trans with (C * (Rpower x (- / 2 - 1) * exp (- (l / 2) / x))).
    2: apply Rmult_le_compat_l; lra.
    assert (Hx3 : 0 < x ^ 3) by now apply pow_lt.
    assert (E1 : sqrt (l / (2 * PI * x ^ 3)) = sqrt (l / (2 * PI)) * Rpower x (- / 2 - 1)).
    { replace (- / 2 - 1) with (- (INR 3 * / 2)) by (cbn [INR]; field).
      rewrite Rpower_Ropp, <- Rpower_mult, Rpower_pow, Rpower_sqrt by auto.
      replace (l / (2 * PI * x ^ 3)) with ((l / (2 * PI)) / x ^ 3) by (field; lra).
      rewrite sqrt_div_alt by auto. reflexivity. }
    rewrite E1. unfold C. set (s := sqrt _). set (r := Rpower _ _).
    assert (E2 : exp (- (l * (x - mu) ^ 2 / (2 * mu ^ 2 * x))) <= exp (l / mu) * exp (- (l / 2) / x)).
    { rewrite <- exp_plus.
      assert (Ei : - (l * (x - mu) ^ 2 / (2 * mu ^ 2 * x)) <= l / mu + - (l / 2) / x).
      { replace (- (l * (x - mu) ^ 2 / (2 * mu ^ 2 * x))) with (l / mu + - (l / 2) / x - l * x / (2 * mu ^ 2))
          by (field; lra).
        assert (0 <= l * x / (2 * mu ^ 2)); [|lra].
        apply Rmult_le_pos; [nra|]. left. apply Rinv_0_lt_compat. nra. }
      destruct Ei as [Ei| ->]; [left; now apply exp_increasing|lra]. }
    assert (0 <= s * r) by (apply Rmult_le_pos; [apply sqrt_pos|left; apply exp_pos]).
    replace (s * exp (l / mu) * (r * exp (- (l / 2) / x))) with (s * r * (exp (l / mu) * exp (- (l / 2) / x))) by ring.
    now apply Rmult_le_compat_l.
Qed.
Lemma lnorm_0 mu s : 0 < s -> lim0 (lnorm_pdf mu s) 0.
Proof.
  intros Hs. assert (0 < PI) by apply PI_RGT_0.
  assert (Hq : 0 < sqrt (2 * PI) * s) by (apply Rmult_lt_0_compat; auto; apply sqrt_lt_R0; lra).
  set (C := 1 / (sqrt (2 * PI) * s)). assert (HC : 0 < C) by (apply Rdiv_lt_0_compat; lra).
  apply (lim0_squeeze _ (C * exp (2 * s ^ 2 - 2 * mu))).
  { left. apply Rmult_lt_0_compat; auto. apply exp_pos. }
  intros x Hx. unfold lnorm_pdf. fold C.
  assert (0 < / x) by now apply Rinv_0_lt_compat. split.
  { left. apply Rmult_lt_0_compat; [|apply exp_pos]. apply Rmult_lt_0_compat; auto. unfold Rdiv. lra. }
  assert (Ei : exp (- ((ln x - mu) ^ 2 / (2 * s ^ 2))) <= exp (2 * s ^ 2 - 2 * mu) * (x * x)).
  { replace (x * x) with (exp (2 * ln x)).
    2:{ replace (2 * ln x) with (ln x + ln x) by ring. now rewrite exp_plus, exp_ln. }
    rewrite <- exp_plus.
    assert (L : - ((ln x - mu) ^ 2 / (2 * s ^ 2)) <= 2 * s ^ 2 - 2 * mu + 2 * ln x).
    { set (y := ln x - mu). replace (2 * s ^ 2 - 2 * mu + 2 * ln x) with (2 * s ^ 2 + 2 * y) by (unfold y; ring).
      replace (2 * s ^ 2 + 2 * y) with ((y + 2 * s ^ 2) ^ 2 / (2 * s ^ 2) + - (y ^ 2 / (2 * s ^ 2))) by (field; lra).
      assert (0 <= (y + 2 * s ^ 2) ^ 2 / (2 * s ^ 2)); [|lra].
      apply Rmult_le_pos; [apply pow2_ge_0|]. left. apply Rinv_0_lt_compat. nra. }
    destruct L as [L| ->]; [left; now apply exp_increasing|lra]. }
  replace (C * exp (2 * s ^ 2 - 2 * mu) * x) with (1 / x * C * (exp (2 * s ^ 2 - 2 * mu) * (x * x)))
    by (field; lra).
  apply Rmult_le_compat_l; auto. apply Rmult_le_pos; [|lra]. unfold Rdiv. lra.
Qed.
