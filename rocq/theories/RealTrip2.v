(** Round trips, real analysis: the relative change of the other distribution functions under a relative
    change of the argument. *)
From Coq Require Import Reals Lra.
From Coquelicot Require Import Coquelicot.
From Verif Require Import RealElem RealAcc RealTrip GammaFn BetaFn Spec SpecSF NormR.
Local Open Scope R_scope.

Lemma gamma_shift k th q t : 0 < k -> 0 < th -> 0 < q -> exists u, Rabs u <= k * Rabs t /\ gamma_cdf k th (q * exp t) = gamma_cdf k th q * exp u.
Proof.
  intros Hk Ht Hq. unfold gamma_cdf. replace (q * exp t / th) with (q / th * exp t) by (field; lra). apply cond_PG; auto. now apply Rdiv_lt_0_compat.
Qed.
Lemma weibull_shift k th q t : 0 < k -> 0 < th -> 0 < q -> exists u, Rabs u <= k * Rabs t /\ weibull_cdf k th (q * exp t) = weibull_cdf k th q * exp u.
Proof.
  intros Hk Ht Hq. unfold weibull_cdf. destruct (cond_expm1 (Rpower (q / th) k) (k * t)) as (u & Hu & E); [left; apply exp_pos|].
  exists u. split; [rewrite Rabs_mult, (Rabs_pos_eq k) in Hu by lra; exact Hu|].
  rewrite <- E. do 3 f_equal. replace (q * exp t / th) with (q / th * exp t) by (field; lra).
  unfold Rpower. rewrite ln_mult, ln_exp, Rmult_plus_distr_l, exp_plus; auto using exp_pos. now apply Rdiv_lt_0_compat.
Qed.
(** the logarithm of the quotient of a Weibull quantile by its scale *)
Lemma weibull_log k th q p : 0 < k -> 0 < th -> 0 < q -> weibull_cdf k th q = p -> k * ln (q / th) = ln (- ln (1 - p)).
Proof.
  intros Hk Ht Hq E. unfold weibull_cdf in E. assert (X : 1 - p = exp (- Rpower (q / th) k)) by lra. rewrite X, ln_exp, Ropp_involutive. unfold Rpower. now rewrite ln_exp.
Qed.
(** *** Student distribution with two degrees of freedom *)
Definition t2_cdf (x : R) : R := 1 / 2 + x / (2 * sqrt (x * x + 2)).
Lemma t2_derive x : is_derive t2_cdf x (/ (sqrt (x * x + 2) * (x * x + 2))).
Proof.
  unfold t2_cdf. assert (P : 0 < x * x + 2) by nra. pose proof (sqrt_lt_R0 _ P) as S. auto_derive; [repeat split; auto; lra|].
  pose proof (sqrt_sqrt (x * x + 2) ltac:(lra)) as Q. set (w := sqrt (x * x + 2)) in *. rewrite <- Q.
  match goal with |- ?l = _ => replace l with ((w * w - x * x) / (2 * w * (w * w))) by (field; lra) end. replace (w * w - x * x) with 2 by lra. field. lra.
Qed.
Lemma t2_slope x : 0 < / (sqrt (x * x + 2) * (x * x + 2)) <= / 2 /\ Rabs (x * / (sqrt (x * x + 2) * (x * x + 2))) <= / 2.
Proof.
  assert (P : 2 <= x * x + 2) by nra. assert (W1 : 1 <= sqrt (x * x + 2)) by (rewrite <- sqrt_1; apply sqrt_le_1; lra).
  assert (A : 0 < / (sqrt (x * x + 2) * (x * x + 2)) <= / 2). { split; [apply Rinv_0_lt_compat; nra|apply Rinv_le_contravar; nra]. }
  split; auto. rewrite Rabs_mult, Rabs_inv, (Rabs_pos_eq (_ * _)) by nra.
  apply (Rmult_le_reg_r (sqrt (x * x + 2) * (x * x + 2))); [nra|]. rewrite Rmult_assoc, Rinv_l by nra.
  assert (B : Rabs x <= sqrt (x * x + 2)). { rewrite <- sqrt_Rsqr_abs. apply sqrt_le_1; unfold Rsqr; nra. } nra.
Qed.
Lemma t2_trip q q' A B : 0 <= A <= / 100 -> 0 <= B -> Rabs (q' - q) <= A * Rabs q + B -> Rabs (t2_cdf q' - t2_cdf q) <= 51 / 100 * A + / 2 * B.
Proof.
  intros HA HB H. destruct (split_err A B q q' HA HB H) as (t & s & Ht & Hs & ->).
  assert (C : Rabs (t2_cdf (q * exp t + s) - t2_cdf q) <= / 2 * Rabs t + / 2 * Rabs s).
  { apply (cond_gen t2_cdf (fun x => / (sqrt (x * x + 2) * (x * x + 2)))).
    - apply t2_derive.
    - intros y. apply t2_slope.
    - intros x _. destruct (t2_slope x) as [S _]. rewrite Rabs_pos_eq; lra. }
  lra.
Qed.
(** *** beta distribution, second shape at least one: relative condition number at most the first shape *)
Lemma IB_lowbound a b x : 0 < a -> 1 <= b -> 0 < x < 1 -> Rpower x a * Rpower (1 - x) (b - 1) / (a * Beta a b) <= IB a b x.
Proof.
  intros Ha Hb Hx. pose proof (Beta_pos a b Ha ltac:(lra)) as G. assert (AB : 0 < a * Beta a b) by nra.
  assert (Pw : 0 < Rpower (1 - x) (b - 1)) by apply exp_pos. set (c := Rpower (1 - x) (b - 1) / (a * Beta a b)). assert (Pc : 0 < c) by now apply Rdiv_lt_0_compat.
  set (h := fun y => IB a b y - c * Rpower y a).
  assert (D : forall y, 0 < y < 1 -> is_derive h y (Rpower y (a - 1) * (Rpower (1 - y) (b - 1) - Rpower (1 - x) (b - 1)) / Beta a b)).
  { intros y Hy. unfold h. replace (Rpower y (a - 1) * (Rpower (1 - y) (b - 1) - Rpower (1 - x) (b - 1)) / Beta a b) with (Rpower y (a - 1) * Rpower (1 - y) (b - 1) / Beta a b - c * (a * Rpower y (a - 1))) by (unfold c; field; lra).
    apply (is_derive_minus (IB a b)); [apply IB_derive; lra|]. unfold Rpower. auto_derive; [lra|]. replace ((a - 1) * ln y) with (a * ln y + - ln y) by ring. rewrite exp_plus, (exp_Ropp (ln y)), exp_ln by lra. field. lra. }
  replace (Rpower x a * Rpower (1 - x) (b - 1) / (a * Beta a b)) with (c * Rpower x a) by (unfold c; field; lra).
  enough (0 <= h x) by (unfold h in *; lra). apply Rnot_lt_le. intros N.
  set (y := Rmin (x / 2) (Rpower (- h x / (2 * c)) (/ a))). assert (Pq : 0 < - h x / (2 * c)) by (apply Rdiv_lt_0_compat; lra).
  assert (Y : 0 < y < x). { unfold y. assert (0 < Rpower (- h x / (2 * c)) (/ a)) by apply exp_pos. split; [apply Rmin_glb_lt; lra|]. eapply Rle_lt_trans; [apply Rmin_l|lra]. }
  destruct (MVT_cor2 h (fun y => Rpower y (a - 1) * (Rpower (1 - y) (b - 1) - Rpower (1 - x) (b - 1)) / Beta a b) y x ltac:(lra)) as (z & E & I).
  { intros z I. apply is_derive_Reals, D. lra. }
  assert (M : h y <= h x).
  { assert (0 <= Rpower z (a - 1) * (Rpower (1 - z) (b - 1) - Rpower (1 - x) (b - 1)) / Beta a b); [|nra].
    apply Rle_mult_inv_pos; auto. apply Rmult_le_pos; [left; apply exp_pos|].
    assert (Rpower (1 - x) (b - 1) <= Rpower (1 - z) (b - 1)) by (apply Rle_Rpower_l; lra). lra. }
  assert (B : h x < h y); [|lra]. unfold h at 2. pose proof (IB_range a b y Ha ltac:(lra) ltac:(lra)).
  assert (Q : Rpower y a <= - h x / (2 * c)).
  { apply Rle_trans with (Rpower (Rpower (- h x / (2 * c)) (/ a)) a).
    - apply Rle_Rpower_l; [lra|]. split; [lra|apply Rmin_r].
    - rewrite Rpower_mult, Rinv_l, Rpower_1 by lra. lra. }
  assert (c * Rpower y a <= - h x / 2); [|lra]. replace (- h x / 2) with (c * (- h x / (2 * c))) by (field; lra). apply Rmult_le_compat_l; lra.
Qed.
Lemma beta_shift a b q t : 0 < a -> 1 <= b -> 0 < q < 1 -> q * exp t < 1 -> exists u, Rabs u <= a * Rabs t /\ IB a b (q * exp t) = IB a b q * exp u.
Proof.
  intros Ha Hb Hq Ht. pose proof (Beta_pos a b Ha ltac:(lra)) as G.
  assert (I : forall y, Rmin 0 t <= y <= Rmax 0 t -> 0 < q * exp y < 1).
  { intros y [_ Hy]. pose proof (exp_pos y). split; [nra|]. revert Hy. unfold Rmax. destruct (Rle_dec 0 t) as [H0|H0]; intros Hy.
    - apply Rle_lt_trans with (q * exp t); auto. apply Rmult_le_compat_l; [lra|]. destruct (Req_dec y t) as [->|]; [lra|]. left. apply exp_increasing. lra.
    - pose proof (exp_np y Hy). nra. }
  set (f' := fun y => q * exp y * (Rpower (q * exp y) (a - 1) * Rpower (1 - q * exp y) (b - 1) / Beta a b) * / IB a b (q * exp y)).
  assert (D : forall y, Rmin 0 t <= y <= Rmax 0 t -> is_derive (fun y => ln (IB a b (q * exp y))) y (f' y)).
  { intros y Hy. specialize (I y Hy). unfold f'. rewrite Rmult_comm.
    assert (D2 : is_derive (fun y => q * exp y) y (q * exp y)) by (auto_derive; [auto|ring]).
    pose proof (is_derive_comp (IB a b) (fun y => q * exp y) y _ _ (IB_derive a b (q * exp y) Ha ltac:(lra) I) D2) as D3.
    pose proof (is_derive_comp ln (fun y => IB a b (q * exp y)) y _ _ (is_derive_ln _ (proj1 (IB_srange a b _ Ha ltac:(lra) I))) D3) as D4.
    refine (eq_rect _ (fun l => is_derive _ y l) D4 _ _). unfold scal. cbn. unfold mult. cbn. ring. }
  destruct (MVT_gen (fun y => ln (IB a b (q * exp y))) 0 t f') as (c & Hc & E).
  - intros y Hy. apply D. lra.
  - intros y Hy. apply continuity_pt_filterlim. apply (ex_derive_continuous (fun y => ln (IB a b (q * exp y)))). eexists. apply D. exact Hy.
  - cbn beta in E. rewrite exp_0, Rmult_1_r, Rminus_0_r in E. specialize (I c Hc).
    assert (It : 0 < q * exp t < 1) by (pose proof (exp_pos t); split; [nra|auto]).
    pose proof (IB_srange a b _ Ha ltac:(lra) I) as P. pose proof (IB_srange a b _ Ha ltac:(lra) It) as Pt. pose proof (IB_srange a b q Ha ltac:(lra) Hq) as P0.
    exists (f' c * t). split.
    + rewrite Rabs_mult. apply Rmult_le_compat_r; [apply Rabs_pos|]. unfold f'. set (x := q * exp c) in *.
      pose proof (IB_lowbound a b x Ha Hb I) as L.
      assert (X : x * (Rpower x (a - 1) * Rpower (1 - x) (b - 1) / Beta a b) = a * (Rpower x a * Rpower (1 - x) (b - 1) / (a * Beta a b))).
      { replace (x * (Rpower x (a - 1) * Rpower (1 - x) (b - 1) / Beta a b)) with (Rpower x (a - 1) * x * Rpower (1 - x) (b - 1) / Beta a b) by (field; lra).
        replace (Rpower x (a - 1) * x) with (Rpower x a); [field; lra|]. replace a with (a - 1 + 1) at 1 by ring. rewrite Rpower_plus, Rpower_1 by lra. auto. }
      assert (0 < Rpower x a * Rpower (1 - x) (b - 1) / (a * Beta a b)).
      { apply Rdiv_lt_0_compat; [apply Rmult_lt_0_compat; apply exp_pos|nra]. }
      rewrite X, Rabs_pos_eq. 2:{ apply Rle_mult_inv_pos; [nra|lra]. }
      apply (Rmult_le_reg_r (IB a b x)); [lra|]. rewrite Rmult_assoc, Rinv_l by lra. nra.
    + rewrite <- E. unfold Rminus. rewrite exp_plus, exp_Ropp, !exp_ln by lra. field. lra.
Qed.
