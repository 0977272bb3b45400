(** Real arithmetic for the Student and F distribution functions in double precision: the incomplete beta
    function changes by a bounded factor when its argument does, also for a second shape below one. *)
From Coq Require Import Reals Lra.
From Coquelicot Require Import Coquelicot.
From Verif Require Import RealAcc RealAccQ GammaFn BetaFn Spec SpecSF FamR RealElem RealTrip2.
Local Open Scope R_scope.

Lemma IB_low1 a b x : 0 < a -> 0 < b <= 1 -> 0 < x < 1 -> Rpower x a / (a * Beta a b) <= IB a b x.
Proof.
  intros Ha Hb Hx. pose proof (Beta_pos a b Ha ltac:(lra)) as G. assert (AB : 0 < a * Beta a b) by nra.
  set (c := / (a * Beta a b)). assert (Pc : 0 < c) by now apply Rinv_0_lt_compat.
  set (h := fun y => IB a b y - c * Rpower y a).
  assert (D : forall y, 0 < y < 1 -> is_derive h y (Rpower y (a - 1) * (Rpower (1 - y) (b - 1) - 1) / Beta a b)).
  { intros y Hy. unfold h. replace (Rpower y (a - 1) * (Rpower (1 - y) (b - 1) - 1) / Beta a b) with (Rpower y (a - 1) * Rpower (1 - y) (b - 1) / Beta a b - c * (a * Rpower y (a - 1))) by (unfold c; field; lra).
    apply (is_derive_minus (IB a b)); [apply IB_derive; lra|]. unfold Rpower. auto_derive; [lra|]. replace ((a - 1) * ln y) with (a * ln y + - ln y) by ring. rewrite exp_plus, (exp_Ropp (ln y)), exp_ln by lra. field. lra. }
  replace (Rpower x a / (a * Beta a b)) with (c * Rpower x a) by (unfold c; field; lra).
  enough (0 <= h x) by (unfold h in *; lra). apply Rnot_lt_le. intros N.
  set (y := Rmin (x / 2) (Rpower (- h x / (2 * c)) (/ a))). assert (Pq : 0 < - h x / (2 * c)) by (apply Rdiv_lt_0_compat; lra).
  assert (Y : 0 < y < x). { unfold y. assert (0 < Rpower (- h x / (2 * c)) (/ a)) by apply exp_pos. split; [apply Rmin_glb_lt; lra|]. eapply Rle_lt_trans; [apply Rmin_l|lra]. }
  destruct (MVT_cor2 h (fun y => Rpower y (a - 1) * (Rpower (1 - y) (b - 1) - 1) / Beta a b) y x ltac:(lra)) as (z & E & I).
  { intros z I. apply is_derive_Reals, D. lra. }
  assert (M : h y <= h x).
  { assert (0 <= Rpower z (a - 1) * (Rpower (1 - z) (b - 1) - 1) / Beta a b); [|nra].
    apply Rle_mult_inv_pos; auto. apply Rmult_le_pos; [left; apply exp_pos|].
    assert (1 <= Rpower (1 - z) (b - 1)); [|lra]. unfold Rpower. apply Rle_trans with (exp 0); [rewrite exp_0; lra|]. assert (ln (1 - z) <= 0) by (rewrite <- ln_1; apply ln_le; lra).
    assert (V : 0 <= (b - 1) * ln (1 - z)) by nra. destruct V as [V|V]; [left; now apply exp_increasing|rewrite <- V; lra]. }
  assert (B : h x < h y); [|lra]. unfold h at 2. pose proof (IB_range a b y Ha ltac:(lra) ltac:(lra)).
  assert (Q : Rpower y a <= - h x / (2 * c)).
  { apply Rle_trans with (Rpower (Rpower (- h x / (2 * c)) (/ a)) a).
    - apply Rle_Rpower_l; [lra|]. split; [lra|apply Rmin_r].
    - rewrite Rpower_mult, Rinv_l, Rpower_1 by lra. lra. }
  assert (c * Rpower y a <= - h x / 2); [|lra]. replace (- h x / 2) with (c * (- h x / (2 * c))) by (field; lra). apply Rmult_le_compat_l; lra.
Qed.
(** (1 - x)^(b-1) is at most four for x up to 3/4 *)
Lemma pow_four x b : 0 < x <= 3 / 4 -> 0 < b <= 1 -> Rpower (1 - x) (b - 1) <= 4.
Proof.
  intros Hx Hb. unfold Rpower. assert (L : ln (/ 4) <= ln (1 - x)) by (apply ln_le; lra). rewrite ln_Rinv in L by lra. assert (0 <= ln 4) by (rewrite <- ln_1; apply ln_le; lra).
  assert (M : (b - 1) * ln (1 - x) <= ln 4) by nra. rewrite <- (exp_ln 4) by lra. destruct M as [M|M]; [left; now apply exp_increasing|right; now rewrite M].
Qed.
Lemma beta_shift4 a b q t : 0 < a -> 0 < b -> 0 < q <= 3 / 4 -> q * exp t <= 3 / 4 -> exists u, Rabs u <= 4 * a * Rabs t /\ IB a b (q * exp t) = IB a b q * exp u.
Proof.
  intros Ha Hb Hq Ht. destruct (Rle_lt_dec 1 b) as [B1|B1].
  { destruct (beta_shift a b q t Ha B1 ltac:(lra) ltac:(lra)) as (u & U & E). exists u. split; auto. pose proof (Rabs_pos t). nra. }
  pose proof (Beta_pos a b Ha ltac:(lra)) as G.
  assert (I : forall y, Rmin 0 t <= y <= Rmax 0 t -> 0 < q * exp y <= 3 / 4).
  { intros y [_ Hy]. pose proof (exp_pos y). split; [nra|]. revert Hy. unfold Rmax. destruct (Rle_dec 0 t) as [H0|H0]; intros Hy.
    - apply Rle_trans with (q * exp t); auto. apply Rmult_le_compat_l; [lra|]. destruct (Req_dec y t) as [->|]; [lra|]. left. apply exp_increasing. lra.
    - pose proof (exp_np y Hy). nra. }
  set (f' := fun y => q * exp y * (Rpower (q * exp y) (a - 1) * Rpower (1 - q * exp y) (b - 1) / Beta a b) * / IB a b (q * exp y)).
  assert (D : forall y, Rmin 0 t <= y <= Rmax 0 t -> is_derive (fun y => ln (IB a b (q * exp y))) y (f' y)).
  { intros y Hy. specialize (I y Hy). assert (I' : 0 < q * exp y < 1) by lra. unfold f'. rewrite Rmult_comm.
    assert (D2 : is_derive (fun y => q * exp y) y (q * exp y)) by (auto_derive; [auto|ring]).
    pose proof (is_derive_comp (IB a b) (fun y => q * exp y) y _ _ (IB_derive a b (q * exp y) Ha ltac:(lra) I') D2) as D3.
    pose proof (is_derive_comp ln (fun y => IB a b (q * exp y)) y _ _ (is_derive_ln _ (proj1 (IB_srange a b _ Ha ltac:(lra) I'))) D3) as D4.
    refine (eq_rect _ (fun l => is_derive _ y l) D4 _ _). unfold scal. cbn. unfold mult. cbn. ring. }
  destruct (MVT_gen (fun y => ln (IB a b (q * exp y))) 0 t f') as (c & Hc & E).
  - intros y Hy. apply D. lra.
  - intros y Hy. apply continuity_pt_filterlim. apply (ex_derive_continuous (fun y => ln (IB a b (q * exp y)))). eexists. apply D. exact Hy.
  - cbn beta in E. rewrite exp_0, Rmult_1_r, Rminus_0_r in E. specialize (I c Hc).
    assert (It : 0 < q * exp t < 1) by (pose proof (exp_pos t); split; [nra|lra]). assert (I' : 0 < q * exp c < 1) by lra.
    pose proof (IB_srange a b _ Ha ltac:(lra) I') as P. pose proof (IB_srange a b _ Ha ltac:(lra) It) as Pt. pose proof (IB_srange a b q Ha ltac:(lra) ltac:(lra)) as P0.
    exists (f' c * t). split.
    + rewrite Rabs_mult. apply Rmult_le_compat_r; [apply Rabs_pos|]. unfold f'. set (x := q * exp c) in *.
      pose proof (IB_low1 a b x Ha ltac:(lra) I') as L. pose proof (pow_four x b I ltac:(lra)) as W. assert (W0 : 0 < Rpower (1 - x) (b - 1)) by apply exp_pos.
      assert (X : x * (Rpower x (a - 1) * Rpower (1 - x) (b - 1) / Beta a b) = a * Rpower (1 - x) (b - 1) * (Rpower x a / (a * Beta a b))).
      { replace (x * (Rpower x (a - 1) * Rpower (1 - x) (b - 1) / Beta a b)) with (Rpower x (a - 1) * x * Rpower (1 - x) (b - 1) / Beta a b) by (field; lra).
        replace (Rpower x (a - 1) * x) with (Rpower x a); [field; lra|]. replace a with (a - 1 + 1) at 1 by ring. rewrite Rpower_plus, Rpower_1 by lra. auto. }
      assert (Y : 0 < Rpower x a / (a * Beta a b)) by (apply Rdiv_lt_0_compat; [apply exp_pos|nra]).
      assert (Z : 0 < a * Rpower (1 - x) (b - 1) <= 4 * a) by (split; [apply Rmult_lt_0_compat; lra|nra]).
      rewrite X, Rabs_pos_eq. 2:{ apply Rle_mult_inv_pos; [apply Rmult_le_pos; lra|lra]. }
      apply (Rmult_le_reg_r (IB a b x)); [lra|]. rewrite Rmult_assoc, Rinv_l, Rmult_1_r by lra. apply Rmult_le_compat; lra.
    + rewrite <- E. unfold Rminus. rewrite exp_plus, exp_Ropp, !exp_ln by lra. field. lra.
Qed.
(** x / (1 + x): a relative change of x is divided by 1 + x *)
Lemma frac_shift c t : 0 < c -> Rabs t <= / 100 -> exists u, Rabs u <= 102 / 100 * Rabs t / (1 + c) /\ c * exp t / (1 + c * exp t) = c / (1 + c) * exp u.
Proof.
  intros Hc Ht. pose proof (exp_pos t) as Pt. assert (P1 : 0 < 1 + c) by lra.
  assert (PE : forall y, 0 < 1 + c * exp y) by (intros y; pose proof (exp_pos y); nra).
  destruct (MVT_gen (fun y => y - ln (1 + c * exp y)) 0 t (fun y => 1 - c * exp y / (1 + c * exp y))) as (z & Hz & E).
  - intros y _. auto_derive; [apply PE|]. field. specialize (PE y). lra.
  - intros y _. apply continuity_pt_filterlim. apply (ex_derive_continuous (fun y => y - ln (1 + c * exp y))). eexists. auto_derive; [apply PE|reflexivity].
  - cbn beta in E. rewrite exp_0, Rmult_1_r, !Rminus_0_r in E. specialize (PE t) as P2. specialize (PE z) as P3.
    exists ((1 - c * exp z / (1 + c * exp z)) * t). split.
    + rewrite Rabs_mult. replace (1 - c * exp z / (1 + c * exp z)) with (/ (1 + c * exp z)) by (field; lra). rewrite Rabs_inv, (Rabs_pos_eq (1 + c * exp z)) by lra.
      replace (102 / 100 * Rabs t / (1 + c)) with (102 / 100 * / (1 + c) * Rabs t) by (field; lra). apply Rmult_le_compat_r; [apply Rabs_pos|].
      assert (Z : - / 100 <= z). { destruct Hz as [Hz _]. revert Hz. unfold Rmin. destruct (Rle_dec 0 t); intros; [lra|]. rewrite Rabs_left in Ht by lra. lra. }
      assert (X : 99 / 100 <= exp z) by (pose proof (exp_ineq1_le z); lra).
      apply (Rmult_le_reg_l (1 + c * exp z)); auto. rewrite Rinv_r by lra. replace ((1 + c * exp z) * (102 / 100 * / (1 + c))) with (102 / 100 * (1 + c * exp z) / (1 + c)) by (field; lra).
      apply (Rmult_le_reg_r (1 + c)); auto. unfold Rdiv at 1. rewrite Rmult_assoc, Rinv_l by lra. nra.
    + rewrite <- E. replace (t - ln (1 + c * exp t) - (0 - ln (1 + c))) with (t + - ln (1 + c * exp t) + ln (1 + c)) by ring. rewrite !exp_plus, exp_Ropp, !exp_ln by lra. field. lra.
Qed.
