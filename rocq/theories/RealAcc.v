(** Conditioning of the mathematical functions. *)
From Coq Require Import Reals Lra.
From Coquelicot Require Import Coquelicot.
From Verif Require Import RealElem Erf GammaFn.
Local Open Scope R_scope.

(** an increase of the argument by the factor exp t, in the logarithm of a positive function *)
Lemma cond_gen (f f' : R -> R) C L z t s : (forall x, is_derive f x (f' x)) ->
  (forall y, Rabs (z * exp y * f' (z * exp y)) <= C) -> (forall x, Rabs (x - z * exp t) <= Rabs s -> Rabs (f' x) <= L) ->
  Rabs (f (z * exp t + s) - f z) <= C * Rabs t + L * Rabs s.
Proof.
  intros D HC HL.
  assert (A : Rabs (f (z * exp t + s) - f (z * exp t)) <= L * Rabs s).
  { destruct (MVT_gen f (z * exp t) (z * exp t + s) f') as (c & I & E).
    - intros x _. apply D.
    - intros x _. apply continuity_pt_filterlim. apply (ex_derive_continuous f). exists (f' x). apply D.
    - rewrite E, Rabs_mult. replace (z * exp t + s - z * exp t) with s by ring. apply Rmult_le_compat_r; [apply Rabs_pos|]. apply HL.
      revert I. unfold Rmin, Rmax. destruct (Rle_dec (z * exp t) (z * exp t + s)) as [Q|Q]; intros I.
      + rewrite !Rabs_pos_eq by lra. lra.
      + rewrite !Rabs_left1 by lra. lra. }
  assert (B : Rabs (f (z * exp t) - f z) <= C * Rabs t).
  { destruct (MVT_gen (fun y => f (z * exp y)) 0 t (fun y => z * exp y * f' (z * exp y))) as (c & _ & E).
    - intros x _. assert (D2 : is_derive (fun y => z * exp y) x (z * exp x)) by (auto_derive; [auto|ring]).
      pose proof (is_derive_comp f (fun y => z * exp y) x _ _ (D (z * exp x)) D2) as G. exact G.
    - intros x _. apply continuity_pt_filterlim. apply (ex_derive_continuous (fun y => f (z * exp y))).
      assert (D2 : is_derive (fun y => z * exp y) x (z * exp x)) by (auto_derive; [auto|ring]).
      eexists. exact (is_derive_comp f (fun y => z * exp y) x _ _ (D (z * exp x)) D2).
    - cbn beta in E. rewrite exp_0, Rmult_1_r in E. rewrite E, Rabs_mult, Rminus_0_r. apply Rmult_le_compat_r; [apply Rabs_pos|auto]. }
  replace (f (z * exp t + s) - f z) with ((f (z * exp t + s) - f (z * exp t)) + (f (z * exp t) - f z)) by ring.
  eapply Rle_trans; [apply Rabs_triang|lra].
Qed.

Lemma exp_ge_e x : 2 * x <= exp x.
Proof.
  pose proof (exp_ineq1_le (x - 1)) as A. pose proof (exp_ineq1_le 1) as B. replace x with (1 + (x - 1)) at 2 by ring. rewrite exp_plus.
  destruct (Rle_dec x 0) as [H|H]; [pose proof (exp_pos 1); pose proof (exp_pos (x - 1)); nra|]. nra.
Qed.
Lemma exp_half_2 : exp (/ 2) <= 2.
Proof. pose proof exp_le_3 as A. replace 1 with (/ 2 + / 2) in A by lra. rewrite exp_plus in A. pose proof (exp_pos (/ 2)). nra. Qed.
(** *** exponential of a non-positive number *)
Lemma cond_exp y t s : 0 <= y -> Rabs s <= / 2 -> Rabs (exp (- y * exp t + s) - exp (- y)) <= / 2 * Rabs t + 2 * Rabs s.
Proof.
  intros Hy Hs. apply (cond_gen exp exp (/ 2) 2 (- y) t s).
  - intros x. auto_derive; [auto|ring].
  - intros u. pose proof (exp_pos u). rewrite Rabs_mult. rewrite (Rabs_pos_eq (exp _)) by (left; apply exp_pos). rewrite Rabs_mult, Rabs_Ropp, (Rabs_pos_eq y), (Rabs_pos_eq (exp u)) by lra.
    replace (- y * exp u) with (- (y * exp u)) by ring. rewrite exp_Ropp. set (w := y * exp u). pose proof (exp_ge_e w). pose proof (exp_pos w).
    apply (Rmult_le_reg_r (exp w)); [auto|]. rewrite Rmult_assoc, Rinv_l by lra. lra.
  - intros x H. rewrite Rabs_pos_eq by (left; apply exp_pos). pose proof (exp_pos t).
    assert (x <= / 2). { pose proof (Rle_abs (x - - y * exp t)). assert (0 <= y * exp t) by nra. lra. }
    apply Rle_trans with (exp (/ 2)); [destruct (Req_dec x (/ 2)) as [->|]; [lra|left; apply exp_increasing; lra]|].
    exact exp_half_2.
Qed.
(** *** error function *)
Lemma sqrt_PI_ge : 17 / 10 <= sqrt PI.
Proof.
  assert (289 / 100 <= PI). { pose proof PI_ineq 1%nat as [A _]. revert A. unfold tg_alt, PI_tg. cbn. lra. }
  pose proof (sqrt_sqrt PI ltac:(lra)). pose proof (sqrt_pos PI). nra.
Qed.

Lemma sq_exp_bound x : Rabs (x * exp (- x ^ 2)) <= / 2.
Proof.
  pose proof (exp_ineq1_le (x ^ 2)) as A. rewrite exp_Ropp, Rabs_mult, Rabs_inv. pose proof (exp_pos (x ^ 2)).
  rewrite (Rabs_pos_eq (exp _)) by lra. apply (Rmult_le_reg_r (exp (x ^ 2))); [auto|]. rewrite Rmult_assoc, Rinv_l by lra. rewrite Rmult_1_r.
  assert (2 * Rabs x <= 1 + x ^ 2); [|lra]. rewrite <- (pow2_abs x). pose proof (pow2_ge_0 (Rabs x - 1)). nra.
Qed.
Lemma exp_np x : x <= 0 -> 0 < exp x <= 1.
Proof. intros H. split; [apply exp_pos|]. rewrite <- exp_0. destruct (Req_dec x 0) as [->|]; [lra|left; apply exp_increasing; lra]. Qed.
Lemma erf_c : 0 < 2 / sqrt PI <= 6 / 5.
Proof.
  pose proof sqrt_PI_ge as H. split; [apply Rdiv_lt_0_compat; lra|]. apply (Rmult_le_reg_r (sqrt PI)); [lra|]. unfold Rdiv at 1. rewrite Rmult_assoc, Rinv_l by lra. lra.
Qed.
Lemma cond_erf z t s : Rabs (erfR (z * exp t + s) - erfR z) <= 3 / 5 * Rabs t + 6 / 5 * Rabs s.
Proof.
  pose proof erf_c. apply (cond_gen erfR (fun x => 2 / sqrt PI * exp (- x ^ 2))).
  - intros x. apply erfR_derive.
  - intros u. set (x := z * exp u). replace (x * (2 / sqrt PI * exp (- x ^ 2))) with (2 / sqrt PI * (x * exp (- x ^ 2))) by ring.
    rewrite Rabs_mult, (Rabs_pos_eq (2 / _)) by lra. pose proof (sq_exp_bound x). pose proof (Rabs_pos (x * exp (- x ^ 2))). nra.
  - intros x _. rewrite Rabs_mult, (Rabs_pos_eq (2 / _)) by lra. pose proof (exp_np (- x ^ 2) ltac:(pose proof (pow2_ge_0 x); lra)).
    rewrite Rabs_pos_eq by lra. nra.
Qed.
(** *** arc tangent *)
Lemma cond_atan z t s : Rabs (atan (z * exp t + s) - atan z) <= / 2 * Rabs t + Rabs s.
Proof.
  rewrite <- (Rmult_1_l (Rabs s)). apply (cond_gen atan (fun x => / (1 + x ^ 2))).
  - intros x. apply is_derive_atan.
  - intros u. set (x := z * exp u). pose proof (pow2_ge_0 x). rewrite Rabs_mult, Rabs_inv, (Rabs_pos_eq (1 + x ^ 2)) by lra.
    apply (Rmult_le_reg_r (1 + x ^ 2)); [lra|]. rewrite Rmult_assoc, Rinv_l by lra. rewrite <- (pow2_abs x). pose proof (pow2_ge_0 (Rabs x - 1)). nra.
  - intros x _. pose proof (pow2_ge_0 x). rewrite Rabs_inv, Rabs_pos_eq by lra. rewrite <- Rinv_1. apply Rinv_le_contravar; lra.
Qed.
(** *** hyperbolic tangent *)
Lemma tanh_derive x : is_derive tanh x (/ (cosh x) ^ 2).
Proof.
  assert (P : 0 < cosh x) by (unfold cosh; pose proof (exp_pos x); pose proof (exp_pos (- x)); lra).
  assert (E : 4 = (exp x + exp (- x)) ^ 2 - (exp x - exp (- x)) ^ 2).
  { assert (exp x * exp (- x) = 1) by (rewrite <- exp_plus, Rplus_opp_r; apply exp_0). nra. }
  unfold tanh, sinh, cosh in *. auto_derive; [lra|]. set (a := exp x) in *. set (b := exp (- x)) in *.
  transitivity (((a + b) ^ 2 - (a - b) ^ 2) / (a + b) ^ 2); [field; lra|]. rewrite <- E. field. lra.
Qed.
Lemma cosh_ge x : 1 + x ^ 2 <= (cosh x) ^ 2.
Proof.
  assert (H : forall y, 0 <= y -> y <= sinh y).
  { intros y [Hy | <-]; [|rewrite sinh_0; lra]. destruct (MVT_cor2 (fun u => sinh u - u) (fun u => cosh u - 1) 0 y Hy) as (c & E & I).
    - intros c _. apply is_derive_Reals. unfold sinh, cosh. auto_derive; [auto|]. field.
    - rewrite sinh_0 in E. assert (1 <= cosh c). { unfold cosh. pose proof (exp_pos c). rewrite exp_Ropp. assert (exp c * / exp c = 1) by (apply Rinv_r; lra). pose proof (pow2_ge_0 (exp c - 1)). assert (0 < / exp c) by now apply Rinv_0_lt_compat. nra. }
      nra. }
  assert (E : (cosh x) ^ 2 = 1 + (sinh x) ^ 2).
  { unfold cosh, sinh. assert (exp x * exp (- x) = 1) by (rewrite <- exp_plus, Rplus_opp_r; apply exp_0). nra. }
  rewrite E. apply Rplus_le_compat_l. destruct (Rle_dec 0 x) as [P|P].
  - pose proof (H x P). nra.
  - pose proof (H (- x) ltac:(lra)) as Q. assert (sinh (- x) = - sinh x) by (unfold sinh; rewrite Ropp_involutive; field). nra.
Qed.
Lemma cond_tanh z t s : Rabs (tanh (z * exp t + s) - tanh z) <= / 2 * Rabs t + Rabs s.
Proof.
  rewrite <- (Rmult_1_l (Rabs s)). apply (cond_gen tanh (fun x => / (cosh x) ^ 2)).
  - intros x. apply tanh_derive.
  - intros u. set (x := z * exp u). pose proof (pow2_ge_0 x). pose proof (cosh_ge x). rewrite Rabs_mult, Rabs_inv, (Rabs_pos_eq (cosh x ^ 2)) by lra.
    apply (Rmult_le_reg_r (cosh x ^ 2)); [lra|]. rewrite Rmult_assoc, Rinv_l by lra. rewrite <- (pow2_abs x) in *. pose proof (pow2_ge_0 (Rabs x - 1)). nra.
  - intros x _. pose proof (pow2_ge_0 x). pose proof (cosh_ge x). rewrite Rabs_inv, Rabs_pos_eq by lra. rewrite <- Rinv_1. apply Rinv_le_contravar; lra.
Qed.
(** *** 1 - exp(-p): relative condition number at most one *)
Lemma cond_expm1 p t : 0 <= p -> exists u, Rabs u <= Rabs t /\ 1 - exp (- (p * exp t)) = (1 - exp (- p)) * exp u.
Proof.
  intros [Hp | <-]; [|exists 0; rewrite Rabs_R0, exp_0, Rmult_0_l, Ropp_0, exp_0; split; [apply Rabs_pos|lra]].
  set (g := fun y => 1 - exp (- y)).
  assert (Pg : forall y, 0 < y -> 0 < g y). { intros y Hy. unfold g. assert (exp (- y) < 1) by (rewrite <- exp_0; apply exp_increasing; lra). lra. }
  assert (Mg : forall x y, x <= y -> g x <= g y). { intros x y H. unfold g. destruct (Req_dec x y) as [->|]; [lra|]. assert (exp (- y) < exp (- x)) by (apply exp_increasing; lra). lra. }
  assert (Lg : forall q l, 0 < q -> 1 <= l -> g (l * q) <= l * g q).
  { intros q l Hq [Hl | <-]; [|rewrite !Rmult_1_l; lra].
    destruct (MVT_cor2 (fun l => l * g q - g (l * q)) (fun l => g q - q * exp (- (l * q))) 1 l Hl) as (c & E & I).
    - intros c _. apply is_derive_Reals. unfold g. auto_derive; [auto|ring].
    - assert (q * exp (- (c * q)) <= g q).
      { unfold g. pose proof (exp_ineq1_le q) as Q. assert (exp (- (c * q)) <= exp (- q)) by (left; apply exp_increasing; nra).
        rewrite (exp_Ropp q) in *. pose proof (exp_pos q). assert (q * / exp q <= 1 - / exp q); [|nra].
        apply (Rmult_le_reg_r (exp q)); [auto|]. rewrite Rmult_minus_distr_r, Rmult_assoc, Rinv_l by lra. lra. }
      rewrite !Rmult_1_l in E. nra. }
  assert (K : forall q u, 0 < q -> 0 <= u -> g q <= g (q * exp u) <= g q * exp u).
  { intros q u Hq Hu. pose proof (exp_ineq1_le u). split; [apply Mg; nra|]. rewrite (Rmult_comm q), (Rmult_comm (g q)). apply Lg; lra. }
  change (1 - exp (- (p * exp t))) with (g (p * exp t)). change (1 - exp (- p)) with (g p).
  pose proof (exp_pos t) as Pt. assert (Pq : 0 < p * exp t) by nra.
  exists (ln (g (p * exp t) / g p)). pose proof (Pg p Hp). pose proof (Pg _ Pq).
  assert (Pr : 0 < g (p * exp t) / g p) by now apply Rdiv_lt_0_compat.
  split; [|rewrite exp_ln by auto; field; lra].
  assert (LN : forall v, exp (- Rabs t) <= v <= exp (Rabs t) -> Rabs (ln v) <= Rabs t).
  { intros v [A B]. pose proof (exp_pos (- Rabs t)). apply Rabs_le. rewrite <- (ln_exp (Rabs t)) at 2. rewrite <- (ln_exp (- Rabs t)) at 1.
    split; [destruct A as [A | ->]|destruct B as [B | ->]]; try lra; left; apply ln_increasing; lra. }
  apply LN. destruct (Rle_dec 0 t) as [Ht|Ht].
  - rewrite (Rabs_pos_eq t Ht). destruct (K p t Hp Ht) as [A B]. pose proof (exp_np (- t) ltac:(lra)). split.
    + apply Rle_trans with 1; [lra|]. apply (Rmult_le_reg_r (g p)); auto. unfold Rdiv. rewrite Rmult_assoc, Rinv_l by lra. lra.
    + apply (Rmult_le_reg_r (g p)); auto. unfold Rdiv. rewrite Rmult_assoc, Rinv_l by lra. lra.
  - rewrite (Rabs_left1 t) by lra. rewrite Ropp_involutive. destruct (K (p * exp t) (- t) Pq ltac:(lra)) as [A B].
    rewrite Rmult_assoc, <- exp_plus, Rplus_opp_r, exp_0, Rmult_1_r in A, B. rewrite exp_Ropp in B. pose proof (exp_ineq1_le (- t)). split.
    + apply (Rmult_le_reg_r (g p)); auto. unfold Rdiv. rewrite Rmult_assoc, Rinv_l by lra. apply (Rmult_le_reg_r (/ exp t)); [now apply Rinv_0_lt_compat|].
      replace (exp t * g p * / exp t) with (g p) by (field; lra). lra.
    + apply Rle_trans with 1; [|lra]. apply (Rmult_le_reg_r (g p)); auto. unfold Rdiv. rewrite Rmult_assoc, Rinv_l by lra. lra.
Qed.

(** *** incomplete gamma function: relative condition number at most a *)
Lemma PG_low a x : 0 < a -> 0 < x -> Rpower x a * exp (- x) / (a * Gam a) <= PG a x.
Proof.
  intros Ha Hx. pose proof (Gam_pos a Ha) as G.
  set (h := fun y => PG a y - Rpower y a * exp (- y) / (a * Gam a)).
  assert (D : forall y, 0 < y -> is_derive h y (Rpower y a * exp (- y) / (a * Gam a))).
  { intros y Hy. unfold h. replace (Rpower y a * exp (- y) / (a * Gam a)) with (Rpower y (a - 1) * exp (- y) / Gam a - (Rpower y (a - 1) * a * exp (- y) - Rpower y a * exp (- y)) / (a * Gam a)) by (field; lra).
    apply (is_derive_minus (PG a)); [now apply PG_derive|].
    unfold Rpower. auto_derive; [auto|]. replace ((a - 1) * ln y) with (a * ln y + - ln y) by ring. rewrite exp_plus, (exp_Ropp (ln y)), exp_ln by auto. field. lra. }
  enough (0 <= h x) by (unfold h in *; lra).
  apply Rnot_lt_le. intros N.
  (* near zero h is above - eps *)
  assert (P : forall y, 0 < y -> 0 < Rpower y a * exp (- y) / (a * Gam a)).
  { intros y Hy. unfold Rpower. pose proof (exp_pos (a * ln y)). pose proof (exp_pos (- y)). apply Rdiv_lt_0_compat; apply Rmult_lt_0_compat; auto. }
  set (y := Rmin (x / 2) (Rpower (- h x * (a * Gam a) / 2) (/ a))).
  assert (Pc : 0 < - h x * (a * Gam a) / 2). { assert (0 < a * Gam a) by now apply Rmult_lt_0_compat. nra. }
  assert (Y : 0 < y < x). { unfold y. assert (0 < Rpower (- h x * (a * Gam a) / 2) (/ a)) by apply exp_pos. split; [apply Rmin_glb_lt; lra|]. eapply Rle_lt_trans; [apply Rmin_l|lra]. }
  destruct (MVT_cor2 h (fun y => Rpower y a * exp (- y) / (a * Gam a)) y x ltac:(lra)) as (c & E & I).
  { intros c I. apply is_derive_Reals, D. lra. }
  assert (M : h y <= h x). { pose proof (P c ltac:(lra)). nra. }
  assert (B : h x < h y); [|lra]. unfold h at 2. pose proof (PG_pos a y Ha ltac:(lra)).
  assert (Q : Rpower y a * exp (- y) / (a * Gam a) <= - h x / 2).
  { assert (Rpower y a <= - h x * (a * Gam a) / 2).
    { apply Rle_trans with (Rpower (Rpower (- h x * (a * Gam a) / 2) (/ a)) a).
      - apply Rle_Rpower_l; [lra|]. split; [lra|apply Rmin_r].
      - rewrite Rpower_mult, Rinv_l, Rpower_1 by lra. lra. }
    pose proof (exp_np (- y) ltac:(lra)). assert (0 < Rpower y a) by apply exp_pos. assert (0 < a * Gam a) by now apply Rmult_lt_0_compat.
    apply (Rmult_le_reg_r (a * Gam a)); auto. unfold Rdiv at 1. rewrite Rmult_assoc, Rinv_l by lra. nra. }
  lra.
Qed.
Lemma cond_PG a q t : 0 < a -> 0 < q -> exists u, Rabs u <= a * Rabs t /\ PG a (q * exp t) = PG a q * exp u.
Proof.
  intros Ha Hq. pose proof (Gam_pos a Ha) as G.
  assert (Pq : forall y, 0 < q * exp y) by (intros y; pose proof (exp_pos y); nra).
  assert (PP : forall y, 0 < PG a (q * exp y)) by (intros y; now apply PG_pos).
  set (f' := fun y => q * exp y * (Rpower (q * exp y) (a - 1) * exp (- (q * exp y)) / Gam a) * / PG a (q * exp y)).
  assert (D : forall y, is_derive (fun y => ln (PG a (q * exp y))) y (f' y)).
  { intros y. unfold f'. rewrite Rmult_comm.
    assert (D2 : is_derive (fun y => q * exp y) y (q * exp y)) by (auto_derive; [auto|ring]).
    pose proof (is_derive_comp (PG a) (fun y => q * exp y) y _ _ (PG_derive a (q * exp y) Ha (Pq y)) D2) as D3.
    pose proof (is_derive_comp ln (fun y => PG a (q * exp y)) y _ _ (is_derive_ln _ (PP y)) D3) as D4.
    refine (eq_rect _ (fun l => is_derive _ y l) D4 _ _). unfold scal. cbn. unfold mult. cbn. ring. }
  assert (B : forall y, Rabs (f' y) <= a).
  { intros y. unfold f'. set (x := q * exp y). assert (Hx : 0 < x) by apply Pq. pose proof (PG_pos a x Ha Hx) as Hp. pose proof (PG_low a x Ha Hx) as L.
    replace (x * (Rpower x (a - 1) * exp (- x) / Gam a)) with (a * (Rpower x a * exp (- x) / (a * Gam a))).
    2: { replace (Rpower x a) with (x * Rpower x (a - 1)); [field; lra|]. rewrite <- (Rpower_1 x) at 1 by auto. rewrite <- Rpower_plus. f_equal. ring. }
    assert (0 < Rpower x a * exp (- x) / (a * Gam a)). { apply Rdiv_lt_0_compat; apply Rmult_lt_0_compat; auto; apply exp_pos. }
    rewrite Rabs_pos_eq. 2: { apply Rmult_le_pos; [nra|]. left. now apply Rinv_0_lt_compat. }
    apply (Rmult_le_reg_r (PG a x)); auto. rewrite Rmult_assoc, Rinv_l by lra. nra. }
  destruct (MVT_gen (fun y => ln (PG a (q * exp y))) 0 t f') as (c & _ & E).
  - intros x _. apply D.
  - intros x _. apply continuity_pt_filterlim. apply (ex_derive_continuous (fun y => ln (PG a (q * exp y)))). eexists. apply D.
  - cbn beta in E. rewrite exp_0, Rmult_1_r, Rminus_0_r in E. exists (f' c * t). split.
    + rewrite Rabs_mult. apply Rmult_le_compat_r; [apply Rabs_pos|apply B].
    + rewrite <- E. unfold Rminus. rewrite exp_plus, exp_Ropp, !exp_ln; auto; [|now apply PG_pos]. field. apply Rgt_not_eq. now apply PG_pos.
Qed.
