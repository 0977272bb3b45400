(** Error propagation in binary64: relative errors are kept as factors exp t, which compose exactly
    under multiplication and division. *)
From Coq Require Import ZArith QArith Reals Bool Lra Lia.
From Coquelicot Require Import Coquelicot.
From Verif Require Import Num B64 B64R B64Ord SpecB64 SpecAcc B64Cdf.
From Flocq Require Import Core Relative Plus_error IEEE754.BinarySingleNaN.
Local Open Scope R_scope.
Notation exp := Rtrigo_def.exp.

(** ** numbers *)
Lemma ulp1_val : ulp1 = / 4503599627370496. Proof. unfold ulp1. cbn. lra. Qed.
Lemma tiny_pos : 0 < tiny. Proof. apply bpow_gt_0. Qed.
Lemma tiny_small : tiny <= ulp1 / 1000000.
Proof.
  unfold tiny, ulp1. apply Rle_trans with (bpow radix2 (-52 + -20)); [apply bpow_le; lia|].
  rewrite bpow_plus. assert (bpow radix2 (-20) <= / 1000000) by (cbn; lra). pose proof (bpow_gt_0 radix2 (-52)). unfold Rdiv. nra.
Qed.
Lemma huge_pos : 0 < huge. Proof. apply bpow_gt_0. Qed.
Lemma huge_1 : 1000 < huge.
Proof. apply Rlt_le_trans with (bpow radix2 10); [cbn; lra|]. apply bpow_le. lia. Qed.
Lemma huge_max : 1024 * huge < maxR.
Proof. unfold huge, maxR. replace 1024 with (bpow radix2 10) by (cbn; lra). rewrite <- bpow_plus. apply bpow_lt. lia. Qed.
Lemma tiny_huge : tiny * huge <= / 1000.
Proof. unfold tiny, huge. rewrite <- bpow_plus. apply Rle_trans with (bpow radix2 (-10)); [apply bpow_le; lia|cbn; lra]. Qed.

(** ** factors *)
Lemma ln_abs d : Rabs d <= / 2 -> Rabs (ln (1 + d)) <= 2 * Rabs d.
Proof.
  intros H. pose proof (Rle_abs d). pose proof (Rle_abs (- d)) as B. rewrite Rabs_Ropp in B.
  assert (L : forall x, 0 < x -> ln x <= x - 1).
  { intros x P. pose proof (exp_ineq1_le (ln x)) as Q. rewrite exp_ln in Q by auto. lra. }
  assert (P : 0 < 1 + d) by lra. apply Rabs_le. split.
  - pose proof (L (/ (1 + d)) (Rinv_0_lt_compat _ P)) as Q. rewrite ln_Rinv in Q by auto.
    assert (/ (1 + d) - 1 <= 2 * Rabs d); [|lra].
    replace (/ (1 + d) - 1) with (- d * / (1 + d)) by (field; lra).
    assert (0 < / (1 + d) <= 2). { split; [now apply Rinv_0_lt_compat|]. rewrite <- (Rinv_inv 2). apply Rinv_le_contravar; lra. }
    pose proof (Rabs_pos d). nra.
  - pose proof (L (1 + d) P). pose proof (Rabs_pos d). lra.
Qed.
Lemma factor d : Rabs d <= / 2 * bpow radix2 (-52) -> exists t, Rabs t <= ulp1 /\ 1 + d = exp t.
Proof.
  intros H. assert (Q : Rabs d <= / 2). { pose proof ulp1_val. unfold ulp1 in *. lra. }
  exists (ln (1 + d)). split.
  - pose proof (ln_abs d Q). unfold ulp1. lra.
  - rewrite exp_ln; auto. pose proof (Rle_abs (- d)) as B. rewrite Rabs_Ropp in B. lra.
Qed.
Lemma exp_m1 k : 0 <= k <= / 200 -> exp k - 1 <= 101 / 100 * k.
Proof.
  intros H. assert (E : exp k <= / (1 - k)).
  { pose proof (exp_ineq1_le (- k)) as Q. rewrite exp_Ropp in Q. rewrite <- (Rinv_inv (exp k)). apply Rinv_le_contravar; lra. }
  assert (/ (1 - k) <= 1 + 101 / 100 * k); [|lra]. apply (Rmult_le_reg_r (1 - k)); [lra|]. rewrite Rinv_l by lra. nra.
Qed.
Lemma exp_abs t k : Rabs t <= k -> Rabs (exp t - 1) <= exp k - 1.
Proof.
  intros H. pose proof (Rle_abs t). pose proof (Rle_abs (- t)) as B. rewrite Rabs_Ropp in B. pose proof (Rabs_pos t).
  assert (exp t <= exp k) by (apply exp_le_compat || (destruct (Req_dec t k) as [->|]; [lra|left; apply exp_increasing; lra])).
  assert (M : exp (- k) <= exp t) by (destruct (Req_dec t (- k)) as [->|]; [lra|left; apply exp_increasing; lra]).
  rewrite exp_Ropp in M. assert (P : 1 <= exp k) by (pose proof (exp_ineq1_le k); lra).
  assert (1 - / exp k <= exp k - 1). { assert (/ exp k * exp k = 1) by (apply Rinv_l; lra). nra. }
  apply Rabs_le. lra.
Qed.
Lemma exp_abs' t k : Rabs t <= k -> k <= / 200 -> Rabs (exp t - 1) <= 101 / 100 * k.
Proof. intros H K. pose proof (exp_abs t k H). pose proof (Rabs_pos t). pose proof (exp_m1 k ltac:(lra)). lra. Qed.
Lemma exp_2 t k : Rabs t <= k -> k <= / 2 -> / 2 <= exp t <= 2.
Proof.
  intros H K. pose proof (Rle_abs t). pose proof (Rle_abs (- t)) as B. rewrite Rabs_Ropp in B. split; [pose proof (exp_ineq1_le t); lra|].
  pose proof (exp_ineq1_le (- t)) as Q. rewrite exp_Ropp in Q. rewrite <- (Rinv_inv (exp t)), <- (Rinv_inv 2). apply Rinv_le_contravar; lra.
Qed.
Lemma abs_sum t s k l : Rabs t <= k -> Rabs s <= l -> Rabs (t + s) <= k + l.
Proof. intros. eapply Rle_trans; [apply Rabs_triang|lra]. Qed.
Lemma abs_dif t s k l : Rabs t <= k -> Rabs s <= l -> Rabs (t - s) <= k + l.
Proof. intros. apply abs_sum; auto. now rewrite Rabs_Ropp. Qed.

Lemma abs_le0 s : Rabs s <= 0 -> s = 0.
Proof. intros H. pose proof (Rabs_pos s). destruct (Req_dec s 0) as [|N]; auto. apply Rabs_pos_lt in N. lra. Qed.

(** ** rounding *)
Lemma rnd_near r : exists t s, Rabs t <= ulp1 /\ Rabs s <= tiny /\ rnd r = r * exp t + s.
Proof.
  destruct (error_N_FLT radix2 (-1074) 53 ltac:(lia) (fun x => negb (Z.even x)) r) as (d & s & A & B & _ & E).
  destruct (factor d A) as (t & T & X). exists t, s. split; auto. split.
  - eapply Rle_trans; [exact B|]. unfold tiny. pose proof (bpow_gt_0 radix2 (-1074)). lra.
  - rewrite <- X. exact E.
Qed.
Lemma rnd_near_add (x y : b64) : exists t, Rabs t <= ulp1 /\ rnd (B2R x + B2R y) = (B2R x + B2R y) * exp t.
Proof.
  destruct (@FLT_plus_error_N_ex radix2 (-1074) 53 ltac:(reflexivity) (fun x => negb (Z.even x)) (B2R x) (B2R y)) as (d & A & E).
  - apply (generic_format_B2R 53 1024).
  - apply (generic_format_B2R 53 1024).
  - destruct (factor d) as (t & T & X).
    + eapply Rle_trans; [exact A|]. unfold u_ro. change (- (53) + 1)%Z with (-52)%Z. pose proof (bpow_gt_0 radix2 (-52)) as P. 
      assert (V : 0 < / 2 * bpow radix2 (-52)) by lra. set (v := / 2 * bpow radix2 (-52)) in *. clearbody v. apply (Rmult_le_reg_r (1 + v)); [lra|]. replace (v / (1 + v) * (1 + v)) with v by (field; lra). nra.
    + exists t. split; auto. rewrite <- X. exact E.
Qed.
Lemma rnd_bound r : Rabs r <= 4 * huge -> Rabs (rnd r) < maxR.
Proof.
  intros H. destruct (rnd_near r) as (t & s & T & S & ->). pose proof ulp1_val. pose proof (exp_2 t ulp1 T ltac:(lra)) as E. pose proof huge_max. pose proof huge_1.
  eapply Rle_lt_trans; [apply Rabs_triang|]. rewrite Rabs_mult, (Rabs_pos_eq (exp t)) by lra. pose proof tiny_small. pose proof (Rabs_pos r). nra.
Qed.

(** ** operations on exact numbers *)
Lemma near_exact x : finite x -> near 0 0 x (B2R x).
Proof. intros F. split; auto. exists 0, 0. rewrite Rabs_R0, exp_0. repeat split; lra. Qed.
Lemma near_le k h k' h' y r : near k h y r -> k <= k' -> h <= h' -> near k' h' y r.
Proof. intros (F & t & s & A & B & E) K H. split; auto. exists t, s. repeat split; auto; lra. Qed.
Lemma near_sub x y : finite x -> finite y -> Rabs (B2R x - B2R y) <= 4 * huge -> near ulp1 0 (bsub x y) (B2R x - B2R y).
Proof.
  intros Fx Fy H. destruct (bsub_R x y Fx Fy (rnd_bound _ H)) as [E G]. split; auto.
  destruct (rnd_near_add x (Bopp y)) as (t & T & Q). rewrite B2R_Bopp in Q. exists t, 0. rewrite Rabs_R0. split; auto. split; [lra|]. rewrite E. unfold Rminus. rewrite Q. lra.
Qed.
Lemma near_add x y : finite x -> finite y -> Rabs (B2R x + B2R y) <= 4 * huge -> near ulp1 0 (badd x y) (B2R x + B2R y).
Proof.
  intros Fx Fy H. destruct (badd_R x y Fx Fy (rnd_bound _ H)) as [E G]. split; auto.
  destruct (rnd_near_add x y) as (t & T & Q). exists t, 0. rewrite Rabs_R0. split; auto. split; [lra|]. rewrite E, Q. lra.
Qed.
Lemma near_mul0 x y : finite x -> finite y -> Rabs (B2R x * B2R y) <= 4 * huge -> near ulp1 tiny (bmul x y) (B2R x * B2R y).
Proof.
  intros Fx Fy H. destruct (bmul_R x y Fx Fy (rnd_bound _ H)) as [E G]. split; auto.
  destruct (rnd_near (B2R x * B2R y)) as (t & s & T & S & Q). exists t, s. rewrite E. auto.
Qed.
Lemma near_div0 x y : finite x -> B2R y <> 0 -> Rabs (B2R x / B2R y) <= 4 * huge -> near ulp1 tiny (bdiv x y) (B2R x / B2R y).
Proof.
  intros Fx Fy H. destruct (bdiv_R x y Fx Fy (rnd_bound _ H)) as [E G]. split; auto.
  destruct (rnd_near (B2R x / B2R y)) as (t & s & T & S & Q). exists t, s. rewrite E. auto.
Qed.
Lemma near_opp k h y r : near k h y r -> near k h (Bopp y) (- r).
Proof.
  intros (F & t & s & A & B & E). split; [unfold finite; now rewrite is_finite_Bopp|]. exists t, (- s). rewrite Rabs_Ropp, B2R_Bopp, E. repeat split; auto. lra.
Qed.

(** ** operations on approximations *)
Lemma near_div k1 h1 k2 h x y a b : near k1 h1 x a -> near k2 0 y b -> b <> 0 -> k1 + k2 <= / 200 ->
  Rabs (a / b) <= huge -> 2 * h1 / Rabs b <= h -> h <= 1 -> near (k1 + k2 + ulp1) (2 * h + tiny) (bdiv x y) (a / b).
Proof.
  intros (Fx & t1 & s1 & T1 & S1 & E1) (Fy & t2 & s2 & T2 & S2 & E2) B K G Hh H1.
  assert (Z2 : s2 = 0) by now apply abs_le0. subst s2. rewrite Rplus_0_r in E2.
  pose proof (exp_pos t2) as P2. pose proof (Rabs_pos t1). pose proof (Rabs_pos t2).
  assert (Ny : B2R y <> 0). { rewrite E2. intros Q. apply Rmult_integral in Q. lra. }
  set (v := s1 / (b * exp t2)).
  assert (Ev : B2R x / B2R y = a / b * exp (t1 - t2) + v).
  { rewrite E1, E2. unfold v, Rminus. rewrite exp_plus, exp_Ropp. field. repeat split; auto; apply Rgt_not_eq; auto. }
  assert (Vb : Rabs v <= h).
  { unfold v, Rdiv. rewrite Rabs_mult, Rabs_inv, Rabs_mult. rewrite (Rabs_pos_eq (exp t2)) by lra.
    pose proof (exp_2 t2 k2 T2 ltac:(lra)) as X. assert (0 < Rabs b) by now apply Rabs_pos_lt.
    rewrite Rinv_mult. assert (/ exp t2 <= 2) by (rewrite <- (Rinv_inv 2); apply Rinv_le_contravar; lra). assert (0 < / exp t2) by now apply Rinv_0_lt_compat.
    eapply Rle_trans; [|exact Hh]. unfold Rdiv. assert (0 < / Rabs b) by now apply Rinv_0_lt_compat. pose proof (Rabs_pos s1).
    replace (2 * h1 * / Rabs b) with (h1 * (/ Rabs b * 2)) by ring. apply Rmult_le_compat; [apply Rabs_pos|nra|exact S1|]. apply Rmult_le_compat_l; lra. }
  pose proof (abs_dif _ _ _ _ T1 T2) as T12. pose proof (exp_2 _ _ T12 ltac:(lra)) as X.
  assert (Q : Rabs (B2R x / B2R y) <= 4 * huge).
  { rewrite Ev. eapply Rle_trans; [apply Rabs_triang|]. rewrite Rabs_mult, (Rabs_pos_eq (exp _)) by lra. pose proof huge_1. pose proof (Rabs_pos (a / b)). nra. }
  destruct (near_div0 x y Fx Ny Q) as (Ff & t & s & T & S & E). split; auto.
  pose proof ulp1_val. pose proof (exp_2 t ulp1 T ltac:(lra)) as Xt.
  exists (t1 - t2 + t), (v * exp t + s). split; [now apply abs_sum|]. split.
  - eapply Rle_trans; [apply Rabs_triang|]. rewrite Rabs_mult, (Rabs_pos_eq (exp t)) by lra. pose proof (Rabs_pos v). nra.
  - rewrite E, Ev, (exp_plus (t1 - t2) t). ring.
Qed.
Lemma near_mul k1 h1 k2 h x y a b : near k1 h1 x a -> near k2 0 y b -> k1 + k2 <= / 200 ->
  Rabs (a * b) <= huge -> 2 * h1 * Rabs b <= h -> h <= 1 -> near (k1 + k2 + ulp1) (2 * h + tiny) (bmul x y) (a * b).
Proof.
  intros (Fx & t1 & s1 & T1 & S1 & E1) (Fy & t2 & s2 & T2 & S2 & E2) K G Hh H1.
  assert (Z2 : s2 = 0) by now apply abs_le0. subst s2. rewrite Rplus_0_r in E2.
  pose proof (Rabs_pos t1). pose proof (Rabs_pos t2).
  set (v := s1 * (b * exp t2)).
  assert (Ev : B2R x * B2R y = a * b * exp (t1 + t2) + v). { rewrite E1, E2. unfold v. rewrite exp_plus. ring. }
  assert (Vb : Rabs v <= h).
  { unfold v. rewrite !Rabs_mult. pose proof (exp_2 t2 k2 T2 ltac:(lra)) as X. rewrite (Rabs_pos_eq (exp t2)) by lra.
    eapply Rle_trans; [|exact Hh]. pose proof (Rabs_pos s1). pose proof (Rabs_pos b).
    replace (2 * h1 * Rabs b) with (h1 * (Rabs b * 2)) by ring. apply Rmult_le_compat; [apply Rabs_pos|nra|exact S1|]. apply Rmult_le_compat_l; lra. }
  pose proof (abs_sum _ _ _ _ T1 T2) as T12. pose proof (exp_2 _ _ T12 ltac:(lra)) as X.
  assert (Q : Rabs (B2R x * B2R y) <= 4 * huge).
  { rewrite Ev. eapply Rle_trans; [apply Rabs_triang|]. rewrite Rabs_mult, (Rabs_pos_eq (exp _)) by lra. pose proof huge_1. pose proof (Rabs_pos (a * b)). nra. }
  destruct (near_mul0 x y Fx Fy Q) as (Ff & t & s & T & S & E). split; auto.
  pose proof ulp1_val. pose proof (exp_2 t ulp1 T ltac:(lra)) as Xt.
  exists (t1 + t2 + t), (v * exp t + s). split; [now apply abs_sum|]. split.
  - eapply Rle_trans; [apply Rabs_triang|]. rewrite Rabs_mult, (Rabs_pos_eq (exp t)) by lra. pose proof (Rabs_pos v). nra.
  - rewrite E, Ev, (exp_plus (t1 + t2) t). ring.
Qed.

(** ** absolute errors *)
Lemma near_within k h y r : near k h y r -> k <= / 200 -> within (101 / 100 * k * Rabs r + h) y r.
Proof.
  intros (F & t & s & T & S & E) K. split; auto. rewrite E. replace (r * exp t + s - r) with (r * (exp t - 1) + s) by ring.
  eapply Rle_trans; [apply Rabs_triang|]. rewrite Rabs_mult. pose proof (exp_abs' t k T K). pose proof (Rabs_pos r). nra.
Qed.
Lemma within_le d d' y r : within d y r -> d <= d' -> within d' y r.
Proof. intros [F H] L. split; auto. lra. Qed.
Lemma within_tri d d' y r r' : within d y r -> Rabs (r - r') <= d' -> within (d + d') y r'.
Proof. intros [F H] L. split; auto. replace (B2R y - r') with ((B2R y - r) + (r - r')) by ring. eapply Rle_trans; [apply Rabs_triang|lra]. Qed.
Lemma within_add d1 d2 x y a b B : within d1 x a -> within d2 y b -> Rabs (a + b) <= B -> d1 + d2 <= 1 -> B <= huge ->
  within (d1 + d2 + 101 / 100 * ulp1 * (B + 1)) (badd x y) (a + b).
Proof.
  intros [Fx Dx] [Fy Dy] HB D HH. pose proof ulp1_val. pose proof huge_1.
  assert (Q : Rabs (B2R x + B2R y - (a + b)) <= d1 + d2).
  { replace (B2R x + B2R y - (a + b)) with ((B2R x - a) + (B2R y - b)) by ring. now apply abs_sum. }
  assert (Q2 : Rabs (B2R x + B2R y) <= B + 1).
  { replace (B2R x + B2R y) with ((a + b) + (B2R x + B2R y - (a + b))) by ring. eapply Rle_trans; [apply Rabs_triang|lra]. }
  pose proof (near_within _ _ _ _ (near_add x y Fx Fy ltac:(lra)) ltac:(lra)) as W.
  pose proof (within_tri _ _ _ _ _ W Q) as W'. eapply within_le; [exact W'|]. nra.
Qed.
Lemma within_sub d1 d2 x y a b B : within d1 x a -> within d2 y b -> Rabs (a - b) <= B -> d1 + d2 <= 1 -> B <= huge ->
  within (d1 + d2 + 101 / 100 * ulp1 * (B + 1)) (bsub x y) (a - b).
Proof.
  intros [Fx Dx] [Fy Dy] HB D HH. pose proof ulp1_val. pose proof huge_1.
  assert (Q : Rabs (B2R x - B2R y - (a - b)) <= d1 + d2).
  { replace (B2R x - B2R y - (a - b)) with ((B2R x - a) - (B2R y - b)) by ring. now apply abs_dif. }
  assert (Q2 : Rabs (B2R x - B2R y) <= B + 1).
  { replace (B2R x - B2R y) with ((a - b) + (B2R x - B2R y - (a - b))) by ring. eapply Rle_trans; [apply Rabs_triang|lra]. }
  pose proof (near_within _ _ _ _ (near_sub x y Fx Fy ltac:(lra)) ltac:(lra)) as W.
  pose proof (within_tri _ _ _ _ _ W Q) as W'. eapply within_le; [exact W'|]. nra.
Qed.
(** multiplication by an exact number *)
Lemma within_mulc d c x a B : within d x a -> finite c -> Rabs (B2R c * a) <= B -> Rabs (B2R c) * d <= 1 -> B <= huge ->
  within (Rabs (B2R c) * d + 101 / 100 * ulp1 * (B + 1) + tiny) (bmul c x) (B2R c * a).
Proof.
  intros [Fx Dx] Fc HB D HH. pose proof ulp1_val. pose proof huge_1.
  assert (Q : Rabs (B2R c * B2R x - B2R c * a) <= Rabs (B2R c) * d).
  { replace (B2R c * B2R x - B2R c * a) with (B2R c * (B2R x - a)) by ring. rewrite Rabs_mult. apply Rmult_le_compat_l; auto. apply Rabs_pos. }
  assert (Q2 : Rabs (B2R c * B2R x) <= B + 1).
  { replace (B2R c * B2R x) with ((B2R c * a) + (B2R c * B2R x - B2R c * a)) by ring. eapply Rle_trans; [apply Rabs_triang|lra]. }
  pose proof (near_within _ _ _ _ (near_mul0 c x Fc Fx ltac:(lra)) ltac:(lra)) as W.
  pose proof (within_tri _ _ _ _ _ W Q) as W'. eapply within_le; [exact W'|]. nra.
Qed.
Lemma within_exact x : finite x -> within 0 x (B2R x).
Proof. intros F. split; auto. rewrite Rminus_diag_eq, Rabs_R0; auto; lra. Qed.
Lemma within_Z k : (Z.abs k <= 2 ^ 53)%Z -> within 0 (bofZ k) (IZR k).
Proof. intros H. destruct (bofZ_R k H) as [A B]. rewrite <- A. now apply within_exact. Qed.
Lemma near_Z k : (Z.abs k <= 2 ^ 53)%Z -> near 0 0 (bofZ k) (IZR k).
Proof. intros H. destruct (bofZ_R k H) as [A B]. rewrite <- A. now apply near_exact. Qed.

(** ** conditioning: if |x f'(x)| <= C and |f'(x)| <= L then a relative error t and an absolute error s
    in the argument change the value by at most C|t| + L|s| *)
Lemma cond_abs (f f' : R -> R) C L z t s : (forall x, is_derive f x (f' x)) ->
  (forall x, Rabs (x * f' x) <= C) -> (forall x, Rabs (f' x) <= L) ->
  Rabs (f (z * exp t + s) - f z) <= C * Rabs t + L * Rabs s.
Proof.
  intros D HC HL.
  assert (A : Rabs (f (z * exp t + s) - f (z * exp t)) <= L * Rabs s).
  { destruct (MVT_gen f (z * exp t) (z * exp t + s) f') as (c & _ & E).
    - intros x _. apply D.
    - intros x _. apply continuity_pt_filterlim. apply (ex_derive_continuous f). exists (f' x). apply D.
    - rewrite E, Rabs_mult. replace (z * exp t + s - z * exp t) with s by ring. apply Rmult_le_compat_r; auto. apply Rabs_pos. }
  assert (B : Rabs (f (z * exp t) - f z) <= C * Rabs t).
  { destruct (MVT_gen (fun y => f (z * exp y)) 0 t (fun y => z * exp y * f' (z * exp y))) as (c & _ & E).
    - intros x _. assert (D2 : is_derive (fun y => z * exp y) x (z * exp x)) by (auto_derive; [auto|ring]).
      pose proof (is_derive_comp f (fun y => z * exp y) x _ _ (D (z * exp x)) D2) as G. exact G.
    - intros x _. apply continuity_pt_filterlim. apply (ex_derive_continuous (fun y => f (z * exp y))).
      assert (D2 : is_derive (fun y => z * exp y) x (z * exp x)) by (auto_derive; [auto|ring]).
      eexists. exact (is_derive_comp f (fun y => z * exp y) x _ _ (D (z * exp x)) D2).
    - cbn beta in E. rewrite exp_0, Rmult_1_r in E. rewrite E, Rabs_mult, Rminus_0_r. apply Rmult_le_compat_r; [apply Rabs_pos|auto]. }
  replace (f (z * exp t + s) - f z) with ((f (z * exp t + s) - f (z * exp t)) + (f (z * exp t) - f z)) by ring.
  eapply Rle_trans; [apply Rabs_triang|lra].
Qed.
(** a library function after an approximate argument *)
Lemma computes_cond (f' : R -> R) C L M e k h (F : b64 -> b64) (f : R -> R) x a :
  (forall x, is_derive f x (f' x)) -> (forall x, Rabs (x * f' x) <= C) -> (forall x, Rabs (f' x) <= L) -> (forall x, Rabs (f x) <= M) ->
  computes e any F f -> near k h x a -> 0 <= e <= / 200 -> 0 <= C -> 0 <= L ->
  within (101 / 100 * e * M + tiny + (C * k + L * h)) (F x) (f a).
Proof.
  intros D HC HL HM HF (Fx & t & s & T & S & E) He PC PL. pose proof (HF x Fx I) as N.
  pose proof (near_within _ _ _ _ N ltac:(lra)) as W.
  apply (within_tri _ (C * k + L * h)) with (r' := f a) in W.
  - eapply within_le; [exact W|]. pose proof (HM (B2R x)). nra.
  - rewrite E. eapply Rle_trans; [apply (cond_abs f f' C L); auto|]. nra.
Qed.
