(** Beta, F, t and inverse Gaussian families, for log-gamma, incomplete beta and
    inverse incomplete beta functions that are the mathematical ones. *)
From Coq Require Import Reals ZArith QArith Bool Lra Lia Psatz.
From Coquelicot Require Import Coquelicot.
From Verif Require Import Num Sanity ER ERTac Prob Dens Quant Spec SpecER ClosedElem RealElem
  LogForm Support Elem Analysis Erf NormR Norm PowInt GammaFn BetaFn SpecSF FamR FamG.
Local Open Scope R_scope.

Definition incbeta_spec (S : SF) : Prop :=
  forall a b x, 0 < a -> 0 < b -> 0 <= x <= 1 -> sf_incbeta S (Fin a) (Fin b) (Fin x) = Fin (IB a b x).
Definition incbeta_inv_spec (S : SF) : Prop :=
  forall a b p, 0 < a -> 0 < b -> 0 < p < 1 ->
    exists x, sf_incbeta_inv S (Fin a) (Fin b) (Fin p) = Fin x /\ 0 < x < 1 /\ IB a b x = p.

Section S.
Variable S : SF.
Notation NS := (ER_Num S).
Notation eps := (sf_eps S).

(** ** Beta *)
Lemma dbeta_val x a b lf : lgamma_spec S -> 0 < a -> 0 < b -> 0 < x < 1 ->
  dbeta (N:=NS) (Fin x) (Fin a) (Fin b) lf = val lf (beta_pdf a b x).
Proof.
  intros HL Ha Hb Hx. unfold dbeta, dbeta_log_compute. un_cls. er_arith. rewrite !HL by lra. er_arith. rdecide.
  apply expval. unfold beta_pdf. rewrite Beta_val by auto.
  pose proof (Gam_pos a Ha). pose proof (Gam_pos b Hb). pose proof (Gam_pos (a + b) ltac:(lra)).
  rewrite !exp_plus, exp_Ropp, exp_minus, exp_plus, !exp_ln by auto.
  rewrite <- !Rpower_exp_ln by lra. field. lra.
Qed.
Lemma pbeta_val x a b lf : incbeta_spec S -> 0 < a -> 0 < b -> 0 < x < 1 ->
  pbeta (N:=NS) (Fin x) (Fin a) (Fin b) lf = val lf (beta_cdf a b x).
Proof.
  intros HI Ha Hb Hx. unfold pbeta, pbeta_compute. un_cls. er_arith. rewrite HI by lra. rdecide.
  destruct lf; reflexivity.
Qed.
Lemma pbeta_low x a b lf : 0 <= a -> 0 <= b -> x <= 0 ->
  pbeta (N:=NS) (Fin x) (Fin a) (Fin b) lf = val lf 0.
Proof.
  intros. rewrite pbeta_below by (auto; now apply Ele_Fin).
  destruct lf; unfold val, zero_form; rewrite ?elog_0; auto.
Qed.
Lemma pbeta_high x a b lf : 0 <= a -> 0 <= b -> 1 <= x ->
  pbeta (N:=NS) (Fin x) (Fin a) (Fin b) lf = val lf 1.
Proof.
  intros. rewrite pbeta_above by (auto; now apply Ele_Fin).
  destruct lf; unfold val, one_form; rewrite ?elog_1; auto.
Qed.
(** the closed interval, without log *)
Lemma pbeta_unit x a b : incbeta_spec S -> 0 < a -> 0 < b -> 0 <= x <= 1 ->
  pbeta (N:=NS) (Fin x) (Fin a) (Fin b) false = Fin (IB a b x).
Proof.
  intros HI Ha Hb Hx. destruct (Req_dec x 0) as [->|H0].
  { rewrite pbeta_low by lra. now rewrite IB_0. }
  destruct (Req_dec x 1) as [->|H1].
  { rewrite pbeta_high by lra. now rewrite IB_1. }
  rewrite pbeta_val by (auto; lra). reflexivity.
Qed.
Lemma qbeta_val p a b : incbeta_inv_spec S -> 0 < a -> 0 < b -> 0 < p < 1 ->
  exists q, qbeta (N:=NS) (Fin p) (Fin a) (Fin b) = Fin q /\ 0 < q < 1 /\ beta_cdf a b q = p.
Proof.
  intros HI Ha Hb Hp. destruct (HI a b p Ha Hb Hp) as (z & Ez & Hz & Hq). exists z.
  unfold qbeta, qbeta_compute. un_cls. er_arith. rewrite Ez. rdecide. auto.
Qed.
Definition beta_G a b x := if Rle_dec x 0 then 0 else if Rlt_dec x 1 then beta_cdf a b x else 1.
Lemma pbeta_like a b : incbeta_spec S -> 0 < a -> 0 < b ->
  cdf_like (fun x => pbeta (N:=NS) x (Fin a) (Fin b) false) (beta_G a b).
Proof.
  intros HI Ha Hb.
  assert (P : forall x, 0 < x < 1 -> 0 < beta_cdf a b x < 1) by (intros; apply IB_srange; lra).
  repeat split.
  - intros x. unfold beta_G. destruct Rle_dec; [rewrite pbeta_low; auto; lra|].
    destruct Rlt_dec; [rewrite pbeta_val|rewrite pbeta_high]; auto; lra.
  - rewrite pbeta_below by (lra || reflexivity). reflexivity.
  - rewrite pbeta_above by (lra || reflexivity). reflexivity.
  - unfold beta_G. destruct Rle_dec; [lra|]. destruct Rlt_dec; [|lra]. left. apply P. lra.
  - unfold beta_G. destruct Rle_dec; [lra|]. destruct Rlt_dec; [|lra]. left. apply P. lra.
  - intros x y Hxy. unfold beta_G.
    destruct (Rle_dec x 0), (Rle_dec y 0), (Rlt_dec x 1), (Rlt_dec y 1); try lra;
      try (left; apply P; lra).
    destruct Hxy as [Hxy| ->]; [|lra]. left. apply IB_slt; lra.
Qed.
Lemma pbeta_density a b x : lgamma_spec S -> incbeta_spec S -> 0 < a -> 0 < b -> 0 < x < 1 ->
  density_of (fun y => pbeta (N:=NS) y (Fin a) (Fin b) false)
    (fun y => dbeta (N:=NS) y (Fin a) (Fin b) false) x.
Proof.
  intros. apply (density_of_intro _ _ (beta_cdf a b) x (beta_pdf a b x)).
  - apply (locally_between _ 0 1); auto. intros. rewrite pbeta_val by (auto; lra). reflexivity.
  - rewrite dbeta_val by (auto; lra). reflexivity.
  - now apply beta_cdf_derive.
Qed.
Lemma pbeta_qbeta a b p : incbeta_spec S -> incbeta_inv_spec S -> 0 < a -> 0 < b -> 0 < p < 1 ->
  pbeta (N:=NS) (qbeta (N:=NS) (Fin p) (Fin a) (Fin b)) (Fin a) (Fin b) false = Fin p.
Proof.
  intros HI HV Ha Hb Hp. destruct (qbeta_val p a b) as (q & -> & Hq0 & Hq); auto.
  rewrite pbeta_val by auto. unfold val. now rewrite Hq.
Qed.
Lemma qbeta_pbeta a b x : incbeta_spec S -> incbeta_inv_spec S -> 0 < a -> 0 < b -> 0 < x < 1 ->
  qbeta (N:=NS) (pbeta (N:=NS) (Fin x) (Fin a) (Fin b) false) (Fin a) (Fin b) = Fin x.
Proof.
  intros HI HV Ha Hb Hx. rewrite pbeta_val by auto. unfold val.
  destruct (qbeta_val (beta_cdf a b x) a b) as (q & -> & Hq0 & Hq); auto.
  { now apply IB_srange. }
  f_equal. apply (IB_inj a b) in Hq; auto; lra.
Qed.
Lemma qbeta_like a b : incbeta_inv_spec S -> 0 < a -> 0 < b ->
  quantile_like (fun p => qbeta (N:=NS) p (Fin a) (Fin b)) (Fin 0) (Fin 1).
Proof.
  intros HI Ha Hb. apply (qf_like_inv _ (beta_cdf a b) _ _ (fun x => 0 < x < 1)).
  - unfold qbeta. un_cls. er_arith. rdecide. reflexivity.
  - unfold qbeta. un_cls. er_arith. rdecide. reflexivity.
  - apply Ele_Fin. lra.
  - apply Ele_Fin. lra.
  - apply Ele_Fin. lra.
  - intros p Hp. destruct (qbeta_val p a b) as (q & E & H); auto. eauto.
  - intros x Hx. split; apply Ele_Fin; lra.
  - intros. apply IB_slt; lra.
Qed.

(** ** F *)
Lemma f_u d1 d2 x : 0 < d1 -> 0 < d2 -> 0 < x ->
  d1 * x / d2 / (1 + d1 * x / d2) = d1 * x / (d2 + d1 * x).
Proof. intros. assert (0 < d1 * x) by nra. field. split; lra. Qed.
Lemma df_val x d1 d2 lf : lgamma_spec S -> 0 < eps -> eps <= d1 -> eps <= d2 -> 0 < x ->
  df (N:=NS) (Fin x) (Fin d1) (Fin d2) lf = val lf (f_pdf d1 d2 x).
Proof.
  intros HL He H1 H2 Hx. pose proof (f_arg d1 d2 ltac:(lra) ltac:(lra) x Hx) as Hu.
  assert (Hd : 0 < d1 * x) by nra. assert (Hq : 0 < d1 * x / d2) by (apply Rdiv_lt_0_compat; lra).
  set (adj := d1 / d2 / ((1 + d1 * x / d2) * (1 + d1 * x / d2))).
  assert (Hadj : 0 < adj).
  { unfold adj. apply Rdiv_lt_0_compat; [apply Rdiv_lt_0_compat; lra|]. nra. }
  assert (Ef : f_pdf d1 d2 x = beta_pdf (d1 / 2) (d2 / 2) (d1 * x / (d2 + d1 * x)) * adj).
  { assert (0 < d1 / d2) by (apply Rdiv_lt_0_compat; lra).
    assert (HB := Beta_pos (d1 / 2) (d2 / 2) ltac:(lra) ltac:(lra)).
    unfold f_pdf, beta_pdf, adj. set (r := d1 / d2) in *.
    replace (d1 * x / d2) with (r * x) by (unfold r; field; lra).
    replace (d1 * x / (d2 + d1 * x)) with (r * x / (1 + r * x)) by (unfold r; field; split; nra).
    assert (0 < r * x) by nra.
    replace (1 - r * x / (1 + r * x)) with (/ (1 + r * x)) by (field; lra).
    rewrite Rpower_div, Rpower_inv, !Rpower_m1 by lra. rewrite <- Rpower_mult_distr by lra.
    replace (- ((d1 + d2) / 2)) with (- (d1 / 2 + d2 / 2)) by field.
    rewrite Rpower_Ropp, Rpower_plus.
    pose proof (Rpower_nz (1 + r * x) (d1 / 2)). pose proof (Rpower_nz (1 + r * x) (d2 / 2)).
    field. repeat split; auto; lra. }
  assert (Ea : d1 / 2 / (d2 / 2) / (1 + d1 * x / d2) * (1 - x * (d1 / 2 / (d2 / 2) / (1 + d1 * x / d2))) = adj).
  { unfold adj. field. split; lra. }
  pose proof (beta_pdf_pos (d1 / 2) (d2 / 2) ltac:(lra) ltac:(lra) (d1 * x / (d2 + d1 * x))) as Hb.
  unfold df, df_log_check, df_compute_adj. un_cls. er_red. er_arith. rdecide. refold S.
  rewrite f_u by lra. rewrite Ef. rewrite Ea. destruct lf.
  - rewrite dbeta_val by (auto; lra). unfold val. rewrite !elog_F by (auto; now apply Rmult_lt_0_compat).
    er_arith. now rewrite ln_mult.
  - rewrite dbeta_val by (auto; lra). unfold val. er_arith. reflexivity.
Qed.
Lemma pf_val x d1 d2 lf : incbeta_spec S -> 0 < eps -> eps <= d1 -> eps <= d2 -> eps <= x ->
  pf (N:=NS) (Fin x) (Fin d1) (Fin d2) lf = val lf (f_cdf d1 d2 x).
Proof.
  intros HI He H1 H2 Hx. pose proof (f_arg d1 d2 ltac:(lra) ltac:(lra) x ltac:(lra)) as Hu.
  assert (Hd : 0 < d1 * x) by nra. assert (Hq : 0 < d1 * x / d2) by (apply Rdiv_lt_0_compat; lra).
  unfold pf, pf_compute. un_cls. er_red. er_arith. rewrite f_u, HI by lra. rdecide. destruct lf; reflexivity.
Qed.
Lemma pf_low x d1 d2 lf : eps <= d1 -> eps <= d2 -> x < eps ->
  pf (N:=NS) (Fin x) (Fin d1) (Fin d2) lf = val lf 0.
Proof.
  intros. unfold pf. un_cls. er_arith. rdecide. destruct lf; unfold val; rewrite ?elog_0; auto.
Qed.
Lemma qf_val p d1 d2 : incbeta_inv_spec S -> 0 < eps -> eps <= d1 -> eps <= d2 -> 0 < p < 1 ->
  exists q, qf (N:=NS) (Fin p) (Fin d1) (Fin d2) = Fin q /\ 0 < q /\ f_cdf d1 d2 q = p.
Proof.
  intros HI He H1 H2 Hp. destruct (HI (d1 / 2) (d2 / 2) p ltac:(lra) ltac:(lra) Hp) as (z & Ez & Hz & Hq).
  assert (Hd : 0 < d1 / 2 / (d2 / 2)) by (apply Rdiv_lt_0_compat; lra).
  assert (Hd' : 0 < d1 / 2 / (d2 / 2) * (1 - z)) by (apply Rmult_lt_0_compat; lra).
  exists (z / (d1 / 2 / (d2 / 2) * (1 - z))).
  unfold qf, qf_compute, qf_compute_adj. un_cls. er_red. er_arith. rewrite Ez. er_arith. rdecide.
  repeat split; [apply Rdiv_lt_0_compat; lra|]. unfold f_cdf. rewrite <- Hq. f_equal. field. lra.
Qed.
Definition f_G d1 d2 x := if Rlt_dec x eps then 0 else f_cdf d1 d2 x.
Lemma pf_like d1 d2 : incbeta_spec S -> 0 < eps -> eps <= d1 -> eps <= d2 ->
  cdf_like (fun x => pf (N:=NS) x (Fin d1) (Fin d2) false) (f_G d1 d2).
Proof.
  intros HI He H1 H2.
  assert (P : forall x, eps <= x -> 0 < f_cdf d1 d2 x < 1) by (intros; apply f_cdf_pos; lra).
  repeat split.
  - intros x. unfold f_G. destruct Rlt_dec; [rewrite pf_low|rewrite pf_val]; auto; lra.
  - rewrite pf_below by (lra || reflexivity). reflexivity.
  - rewrite pf_above by lra. reflexivity.
  - unfold f_G. destruct Rlt_dec; [lra|]. left. apply P. lra.
  - unfold f_G. destruct Rlt_dec; [lra|]. left. apply P. lra.
  - intros x y Hxy. unfold f_G. destruct (Rlt_dec x eps), (Rlt_dec y eps); try lra.
    + left. apply P. lra.
    + destruct Hxy as [Hxy| ->]; [|lra]. left. apply f_cdf_slt; lra.
Qed.
Lemma pf_density d1 d2 x : lgamma_spec S -> incbeta_spec S -> 0 < eps -> eps <= d1 -> eps <= d2 -> eps < x ->
  density_of (fun y => pf (N:=NS) y (Fin d1) (Fin d2) false)
    (fun y => df (N:=NS) y (Fin d1) (Fin d2) false) x.
Proof.
  intros. apply (density_of_intro _ _ (f_cdf d1 d2) x (f_pdf d1 d2 x)).
  - apply (locally_gt _ eps); auto. intros. rewrite pf_val by (auto; lra). reflexivity.
  - rewrite df_val by (auto; lra). reflexivity.
  - apply f_cdf_derive; lra.
Qed.
Lemma pf_density_bad d1 d2 x : lgamma_spec S -> 0 < eps -> eps <= d1 -> eps <= d2 -> 0 < x < eps ->
  ~ density_of (fun y => pf (N:=NS) y (Fin d1) (Fin d2) false)
    (fun y => df (N:=NS) y (Fin d1) (Fin d2) false) x.
Proof.
  intros HL He H1 H2 Hx. apply (density_bad _ _ x (f_pdf d1 d2 x)).
  - apply (locally_lt _ eps); [lra|]. intros. now rewrite pf_low by lra.
  - rewrite df_val by (auto; lra). reflexivity.
  - apply f_pdf_pos; lra.
Qed.
Lemma pf_qf d1 d2 p : incbeta_spec S -> incbeta_inv_spec S -> 0 < eps -> eps <= d1 -> eps <= d2 -> 0 < p < 1 ->
  Ele (Fin eps) (qf (N:=NS) (Fin p) (Fin d1) (Fin d2)) ->
  pf (N:=NS) (qf (N:=NS) (Fin p) (Fin d1) (Fin d2)) (Fin d1) (Fin d2) false = Fin p.
Proof.
  intros HI HV He H1 H2 Hp. destruct (qf_val p d1 d2) as (q & -> & Hq0 & Hq); auto.
  intros H. apply Ele_Fin in H. rewrite pf_val by auto. unfold val. now rewrite Hq.
Qed.
Lemma qf_pf d1 d2 x : incbeta_spec S -> incbeta_inv_spec S -> 0 < eps -> eps <= d1 -> eps <= d2 -> eps <= x ->
  qf (N:=NS) (pf (N:=NS) (Fin x) (Fin d1) (Fin d2) false) (Fin d1) (Fin d2) = Fin x.
Proof.
  intros HI HV He H1 H2 Hx. rewrite pf_val by auto. unfold val.
  destruct (qf_val (f_cdf d1 d2 x) d1 d2) as (q & -> & Hq0 & Hq); auto.
  { apply f_cdf_pos; lra. }
  f_equal. destruct (Rtotal_order q x) as [L|[->|L]]; auto; apply (f_cdf_slt d1 d2) in L; lra.
Qed.
Lemma qf_like d1 d2 : incbeta_inv_spec S -> 0 < eps -> eps <= d1 -> eps <= d2 ->
  quantile_like (fun p => qf (N:=NS) p (Fin d1) (Fin d2)) (Fin 0) PInf.
Proof.
  intros HI He H1 H2. apply (qf_like_inv _ (f_cdf d1 d2) _ _ (fun x => 0 < x)); try reflexivity.
  - unfold qf. un_cls. er_arith. rdecide. reflexivity.
  - unfold qf. un_cls. er_arith. rdecide. reflexivity.
  - apply Ele_Fin. lra.
  - intros p Hp. destruct (qf_val p d1 d2) as (q & E & H); auto. eauto.
  - intros x Hx. split; [|reflexivity]. apply Ele_Fin. lra.
  - intros. apply f_cdf_slt; lra.
Qed.

(** ** t *)
Lemma dt_val x n lf : lgamma_spec S -> 0 < eps -> eps <= n ->
  dt (N:=NS) (Fin x) (Fin n) lf = val lf (t_pdf n x).
Proof.
  intros HL He Hn. pose proof (t_base n ltac:(lra) x) as Hb.
  assert (Eb : 1 + x / n * x = 1 + x ^ 2 / n) by (field; lra).
  pose proof PI_RGT_0.
  unfold dt, dt_log_compute, dt_log_cons_term, dt_log_mult_term. un_cls. er_red. er_arith.
  rewrite !HL by lra. er_arith. rewrite Eb. er_arith. rdecide. apply expval. unfold t_pdf.
  replace (n / 2 + 1 / 2) with ((n + 1) / 2) by field.
  pose proof (Gam_pos ((n + 1) / 2) ltac:(lra)). pose proof (Gam_pos (n / 2) ltac:(lra)).
  rewrite <- ln_mult by lra.
  rewrite exp_plus, !exp_minus, !exp_ln, exp_half_ln by nra.
  rewrite <- Rpower_exp_ln by lra.
  assert (0 < R_sqrt.sqrt (n * Rtrigo1.PI)) by (apply sqrt_lt_R0; nra). field. lra.
Qed.
Lemma pt_main_1_val x n : incbeta_spec S -> 0 < n -> x <= 0 ->
  pt_main_1 (N:=NS) (Fin (x * x)) (Fin n) = Fin (t_cdf n x).
Proof.
  intros HI Hn Hx. rewrite t_cdf_main1 by auto. pose proof (t_IB_arg n Hn x) as Ha.
  assert (0 <= x * x) by nra. assert (0 < n + x * x) by lra. unfold pt_main_1. un_cls. er_arith. refold S.
  replace (1 / 2) with (/ 2) by field.
  replace (x * x / (n + x * x)) with (x ^ 2 / (n + x ^ 2)) by (field; nra).
  rewrite pbeta_unit by (auto; lra). er_arith. reflexivity.
Qed.
Lemma pt_main_2_val x n : incbeta_spec S -> 0 < n -> x <= 0 ->
  pt_main_2 (N:=NS) (Fin (1 + x / n * x)) (Fin n) = Fin (t_cdf n x).
Proof.
  intros HI Hn Hx. rewrite t_cdf_main2 by auto.
  assert (0 <= x ^ 2) by apply pow2_ge_0.
  assert (Ha : 0 < n / (n + x ^ 2) <= 1).
  { split; [apply Rdiv_lt_0_compat; lra|]. apply (Rmult_le_reg_r (n + x ^ 2)); [lra|].
    unfold Rdiv. rewrite Rmult_assoc, Rinv_l by lra. lra. }
  pose proof (t_base n Hn x) as Hb.
  unfold pt_main_2. un_cls. replace (1 + x / n * x) with (1 + x ^ 2 / n) by (field; lra).
  er_arith. refold S. replace (1 / 2) with (/ 2) by field.
  replace (1 / (1 + x ^ 2 / n)) with (n / (n + x ^ 2)) by (field; lra).
  rewrite pbeta_unit by (auto; lra). er_arith. reflexivity.
Qed.
Lemma t_cdf_neg n x : 0 < n -> t_cdf n x = 1 - t_cdf n (- x).
Proof. intros. rewrite t_cdf_sym by auto. ring. Qed.
Lemma pt_main_val x n : incbeta_spec S -> 0 < n ->
  pt_main (N:=NS) (Fin x) (Fin n) = Fin (t_cdf n x).
Proof.
  intros HI Hn.
  unfold pt_main. un_cls. er_arith. refold S.
  assert (C : x <= 0 \/ 0 < x) by lra. destruct C as [C|C].
  - rewrite pt_main_1_val, pt_main_2_val by auto. rewrite (proj2 (Rltb_false 0 x)) by auto.
    destruct (Rltb (x * x) n); reflexivity.
  - replace (x * x) with (- x * - x) by ring. replace (x / n * x) with (- x / n * - x) by (field; lra).
    rewrite pt_main_1_val, pt_main_2_val by (auto; lra). rewrite (proj2 (Rltb_true 0 x)) by auto.
    rewrite (t_cdf_neg n x) by auto. destruct (Rltb (- x * - x) n); reflexivity.
Qed.
Lemma pt_val x n lf : incbeta_spec S -> 0 < eps -> eps <= n ->
  pt (N:=NS) (Fin x) (Fin n) lf = val lf (t_cdf n x).
Proof.
  intros HI He Hn.
  assert (E : pt_compute (N:=NS) (Fin x) (Fin n) = Fin (t_cdf n x)).
  { unfold pt_compute. rewrite pt_main_val by (auto; lra). unfold pcauchy_compute.
    assert (0 < x * x + 2) by nra. assert (0 < R_sqrt.sqrt (x * x + 2)) by now apply sqrt_lt_R0.
    un_cls. er_arith. unfold Reqb. destruct Req_EM_T as [->|]; [|destruct Req_EM_T as [->|]]; auto.
    - rewrite <- t_cdf_1. unfold cauchy_cdf. replace ((x - 0) / 1) with x by field.
      f_equal. field. apply PI_neq0.
    - rewrite <- t_cdf_2. reflexivity. }
  unfold pt. rewrite E. un_cls. er_arith. rdecide. destruct lf; reflexivity.
Qed.
Lemma pt_like n : incbeta_spec S -> 0 < eps -> eps <= n ->
  cdf_like (fun x => pt (N:=NS) x (Fin n) false) (t_cdf n).
Proof.
  intros HI He Hn. repeat split.
  - intros. now apply pt_val.
  - apply (pt_ends S n false); auto.
  - apply (pt_ends S n false); auto.
  - left. apply t_cdf_range. lra.
  - left. apply t_cdf_range. lra.
  - intros. apply t_cdf_le; auto. lra.
Qed.
Lemma pt_density n x : lgamma_spec S -> incbeta_spec S -> 0 < eps -> eps <= n ->
  density_of (fun y => pt (N:=NS) y (Fin n) false) (fun y => dt (N:=NS) y (Fin n) false) x.
Proof.
  intros. apply (density_of_intro _ _ (t_cdf n) x (t_pdf n x)).
  - apply locally_all. intros. now apply pt_val.
  - now apply dt_val.
  - apply t_cdf_derive. lra.
Qed.
(** quantiles with one and with two degrees of freedom are exact *)
Lemma qt_1_val p : 0 < eps <= 1 -> 0 < p < 1 ->
  qt (N:=NS) (Fin p) (Fin 1) = Fin (cauchy_qf 0 1 p).
Proof.
  intros He Hp. unfold qt. un_cls. er_arith. rdecide.
  f_equal. unfold cauchy_qf. ring.
Qed.
Definition t2_qf p := (2 * p - 1) / R_sqrt.sqrt (2 * p * (1 - p)).
Lemma qt_2_val p : 0 < eps <= 1 -> 0 < p < 1 -> qt (N:=NS) (Fin p) (Fin 2) = Fin (t2_qf p).
Proof.
  intros He Hp. assert (0 < 2 * p * (1 - p)) by nra.
  assert (0 < R_sqrt.sqrt (2 * p * (1 - p))) by now apply sqrt_lt_R0.
  unfold qt. un_cls. er_arith. rdecide. reflexivity.
Qed.
Lemma t2_qf_cdf p : 0 < p < 1 -> t_cdf 2 (t2_qf p) = p.
Proof.
  intros Hp. rewrite <- t_cdf_2. unfold t2_qf. assert (H : 0 < 2 * p * (1 - p)) by nra.
  set (s := R_sqrt.sqrt (2 * p * (1 - p))). assert (0 < s) by now apply sqrt_lt_R0.
  assert (Ss : s * s = 2 * p * (1 - p)) by (apply sqrt_sqrt; lra).
  assert (E : (2 * p - 1) / s * ((2 * p - 1) / s) + 2 = (/ s) * (/ s)).
  { field_simplify_eq; [|lra]. nra. }
  rewrite E, sqrt_square by (left; now apply Rinv_0_lt_compat). field. lra.
Qed.
Lemma pt_qt_1 p : incbeta_spec S -> 0 < eps <= 1 -> 0 < p < 1 ->
  pt (N:=NS) (qt (N:=NS) (Fin p) (Fin 1)) (Fin 1) false = Fin p.
Proof.
  intros. rewrite qt_1_val by auto. rewrite pt_val by lra || auto. unfold val. rewrite <- t_cdf_1.
  rewrite cauchy_cdf_qf; auto. lra.
Qed.
Lemma pt_qt_2 p : incbeta_spec S -> 0 < eps <= 1 -> 0 < p < 1 ->
  pt (N:=NS) (qt (N:=NS) (Fin p) (Fin 2)) (Fin 2) false = Fin p.
Proof.
  intros. rewrite qt_2_val by auto. rewrite pt_val by lra || auto. unfold val. now rewrite t2_qf_cdf.
Qed.
Lemma qt_pt_1 x : incbeta_spec S -> 0 < eps <= 1 ->
  qt (N:=NS) (pt (N:=NS) (Fin x) (Fin 1) false) (Fin 1) = Fin x.
Proof.
  intros. rewrite pt_val by lra || auto. unfold val. rewrite qt_1_val by (auto; apply t_cdf_range; lra).
  rewrite <- t_cdf_1. rewrite cauchy_qf_cdf; auto. lra.
Qed.
Lemma t_cdf_inj n x y : 0 < n -> t_cdf n x = t_cdf n y -> x = y.
Proof.
  intros Hn H. destruct (Rtotal_order x y) as [L|[->|L]]; auto; apply (t_cdf_slt n Hn) in L; lra.
Qed.
Lemma qt_pt_2 x : incbeta_spec S -> 0 < eps <= 1 ->
  qt (N:=NS) (pt (N:=NS) (Fin x) (Fin 2) false) (Fin 2) = Fin x.
Proof.
  intros. rewrite pt_val by lra || auto. unfold val. rewrite qt_2_val by (auto; apply t_cdf_range; lra).
  f_equal. apply (t_cdf_inj 2); [lra|]. apply t2_qf_cdf. apply t_cdf_range. lra.
Qed.
Lemma qt_1_like : incbeta_spec S -> 0 < eps <= 1 ->
  quantile_like (fun p => qt (N:=NS) p (Fin 1)) MInf PInf.
Proof.
  intros HI He. apply (qf_like_inv _ (t_cdf 1) _ _ (fun _ => True)); try reflexivity.
  - unfold qt. un_cls. er_arith. rdecide. reflexivity.
  - unfold qt. un_cls. er_arith. rdecide. reflexivity.
  - intros p Hp. exists (cauchy_qf 0 1 p). rewrite qt_1_val by auto. repeat split; auto.
    rewrite <- t_cdf_1, cauchy_cdf_qf; auto. lra.
  - intros x _. split; reflexivity.
  - intros. apply t_cdf_slt; auto. lra.
Qed.
Lemma qt_2_like : 0 < eps <= 1 ->
  quantile_like (fun p => qt (N:=NS) p (Fin 2)) MInf PInf.
Proof.
  intros He. apply (qf_like_inv _ (t_cdf 2) _ _ (fun _ => True)); try reflexivity.
  - unfold qt. un_cls. er_arith. rdecide. reflexivity.
  - unfold qt. un_cls. er_arith. rdecide. reflexivity.
  - intros p Hp. exists (t2_qf p). rewrite qt_2_val by auto. repeat split; auto. now apply t2_qf_cdf.
  - intros x _. split; reflexivity.
  - intros. apply t_cdf_slt; auto. lra.
Qed.

(** ** Inverse Gaussian *)
Lemma pinvgauss_val x mu l lf : erf_spec S -> 0 < mu -> 0 < l -> 0 < x ->
  pinvgauss (N:=NS) (Fin x) (Fin mu) (Fin l) lf = val lf (invgauss_cdf mu l x).
Proof.
  intros HE Hm Hl Hx. assert (Hq : 0 < l / x) by now apply Rdiv_lt_0_compat.
  unfold pinvgauss, pinvgauss_compute, pinvgauss_term_1, pinvgauss_term_2, pnorm_std.
  un_cls. er_red. er_arith. refold S. rewrite !pnorm_val by (auto; lra). unfold val at 1 2.
  er_arith. rdecide. destruct lf; reflexivity.
Qed.
Lemma pinvgauss_low x mu l lf : 0 < mu -> 0 < l -> x <= 0 ->
  pinvgauss (N:=NS) (Fin x) (Fin mu) (Fin l) lf = val lf 0.
Proof.
  intros. rewrite pinvgauss_below by (auto; now apply Ele_Fin).
  destruct lf; unfold val, zero_form; rewrite ?elog_0; auto.
Qed.
Definition invgauss_G mu l x := if Rle_dec x 0 then 0 else invgauss_cdf mu l x.
Lemma pinvgauss_like mu l : erf_spec S -> 0 < mu -> 0 < l ->
  cdf_like (fun x => pinvgauss (N:=NS) x (Fin mu) (Fin l) false) (invgauss_G mu l).
Proof.
  intros HE Hm Hl.
  assert (P : forall x, 0 < x -> 0 < invgauss_cdf mu l x < 1).
  { intros. split; [apply invgauss_cdf_gt0|now apply invgauss_cdf_lt1]. }
  repeat split.
  - intros x. unfold invgauss_G. destruct Rle_dec; [rewrite pinvgauss_low|rewrite pinvgauss_val]; auto; lra.
  - rewrite pinvgauss_below by (lra || reflexivity). reflexivity.
  - rewrite pinvgauss_above by lra. reflexivity.
  - unfold invgauss_G. destruct Rle_dec; [lra|]. left. apply P. lra.
  - unfold invgauss_G. destruct Rle_dec; [lra|]. left. apply P. lra.
  - intros x y Hxy. unfold invgauss_G. destruct (Rle_dec x 0), (Rle_dec y 0); try lra.
    + left. apply P. lra.
    + destruct Hxy as [Hxy| ->]; [|lra]. left. apply invgauss_cdf_slt; lra.
Qed.
Lemma pinvgauss_density mu l x : erf_spec S -> 0 < mu -> 0 < l -> 0 < x ->
  density_of (fun y => pinvgauss (N:=NS) y (Fin mu) (Fin l) false)
    (fun y => dinvgauss (N:=NS) y (Fin mu) (Fin l) false) x.
Proof.
  intros. apply (density_of_intro _ _ (invgauss_cdf mu l) x (invgauss_pdf mu l x)).
  - apply (locally_gt _ 0); auto. intros. rewrite pinvgauss_val by auto. reflexivity.
  - now rewrite dinvgauss_val.
  - now apply invgauss_cdf_derive.
Qed.
(** the Newton iteration of qinvgauss either spends its 100 steps or stops at a
    point whose CDF value is within the smallest positive normal number of p *)
Lemma qinvgauss_iter_stop steps qn p mu l :
  (exists q, qinvgauss_iter (N:=NS) steps qn p mu l = q /\
     eltb (eabs (esub p (pinvgauss (N:=NS) q mu l false))) (Fin (sf_tmin S)) = true)
  \/ exists qs : nat -> ER, qs 0%nat = qn /\ qs steps = qinvgauss_iter (N:=NS) steps qn p mu l /\
     forall i, (i < steps)%nat -> qs (Datatypes.S i) = eadd (qs i)
       (ediv (esub p (pinvgauss (N:=NS) (qs i) mu l false)) (dinvgauss (N:=NS) (qs i) mu l false)).
Proof.
  revert qn. induction steps as [|n IH]; intros qn; cbn [qinvgauss_iter];
    match goal with |- context [if ?b then _ else _] => destruct b eqn:E end.
  - left. eauto.
  - right. exists (fun _ => qn). repeat split. lia.
  - left. eauto.
  - destruct (IH (eadd qn (ediv (esub p (pinvgauss (N:=NS) qn mu l false)) (dinvgauss (N:=NS) qn mu l false))))
      as [H|(qs & H0 & Hn & Hi)]; [left; exact H|right].
    exists (fun i => match i with O => qn | Datatypes.S i => qs i end). repeat split; auto.
    intros [|i] Hlt; [exact H0|]. apply Hi. lia.
Qed.
End S.
