(** Conditioning of the mathematical distribution functions: how far the value moves when the argument
    moves by a relative error A and an absolute error B.  Used to compose the rounding error of a quantile
    function with that of the distribution function. *)
From Coq Require Import Reals Lra.
From Coquelicot Require Import Coquelicot.
From Verif Require Import RealElem RealAcc RealAccQ Erf GammaFn NormR Spec SpecSF.
Local Open Scope R_scope.

Lemma ln_1p d : Rabs d <= / 100 -> Rabs (ln (1 + d)) <= 102 / 100 * Rabs d.
Proof.
  intros H. apply Rabs_le_between in H. pose proof (exp_ineq1_le (ln (1 + d))) as A. rewrite exp_ln in A by lra.
  pose proof (exp_ineq1_le (- ln (1 + d))) as B. rewrite exp_Ropp, exp_ln in B by lra.
  assert (C : / (1 + d) <= 1 + 102 / 100 * Rabs d).
  { apply (Rmult_le_reg_r (1 + d)); [lra|]. rewrite Rinv_l by lra. unfold Rabs. destruct Rcase_abs; nra. }
  assert (E : 1 - Rabs d * (102 / 100) <= / (1 + d) <= 1 + 102 / 100 * Rabs d).
  { split; auto. apply (Rmult_le_reg_r (1 + d)); [lra|]. rewrite Rinv_l by lra. unfold Rabs. destruct Rcase_abs; nra. }
  assert (D : d <= Rabs d) by apply Rle_abs. pose proof (Rabs_pos d). apply Rabs_le. split; lra.
Qed.

(** an error of A relative to x and B absolute *)
Lemma split_err A B x x' : 0 <= A <= / 100 -> 0 <= B -> Rabs (x' - x) <= A * Rabs x + B -> exists t s, Rabs t <= 102 / 100 * A /\ Rabs s <= B /\ x' = x * exp t + s.
Proof.
  intros HA HB H. destruct (Rle_dec (Rabs (x' - x)) (A * Rabs x)) as [L|L].
  - destruct (Req_dec x 0) as [->|N].
    { exists 0, 0. rewrite Rabs_R0 in *. repeat split; try lra. rewrite Rmult_0_l. rewrite Rminus_0_r, Rmult_0_r in L. pose proof (Rabs_pos x'). assert (Rabs x' = 0) by lra. apply Rabs_eq_0 in H1. lra. }
    pose proof (Rabs_pos_lt x N) as P. assert (K : Rabs ((x' - x) / x) <= A).
    { unfold Rdiv. rewrite Rabs_mult, Rabs_inv. apply (Rmult_le_reg_r (Rabs x)); auto. rewrite Rmult_assoc, Rinv_l by lra. lra. }
    exists (ln (1 + (x' - x) / x)), 0. pose proof (ln_1p ((x' - x) / x) ltac:(lra)). split; [nra|]. split; [rewrite Rabs_R0; auto|].
    apply Rabs_le_between in K. rewrite exp_ln by lra. field. auto.
  - (* take the whole relative part in the direction of the error *)
    assert (S : exists u, Rabs u <= A /\ Rabs (x' - x - x * u) <= B).
    { destruct (Req_dec x 0) as [->|N]. { exists 0. rewrite Rabs_R0 in *. split; [lra|]. replace (x' - 0 - 0 * 0) with (x' - 0) by ring. lra. }
      pose proof (Rabs_pos_lt x N) as P. destruct (Rle_dec 0 (x' - x)) as [Q|Q].
      - exists (A * Rabs x / x). assert (I : x * (A * Rabs x / x) = A * Rabs x) by (field; auto). rewrite I. split.
        + unfold Rdiv. rewrite !Rabs_mult, Rabs_inv, Rabs_Rabsolu, (Rabs_pos_eq A) by lra. rewrite Rmult_assoc, Rinv_r by lra. lra.
        + rewrite (Rabs_pos_eq (x' - x)) in * by auto. rewrite Rabs_pos_eq; lra.
      - exists (- (A * Rabs x / x)). assert (I : x * - (A * Rabs x / x) = - (A * Rabs x)) by (field; auto). rewrite I. split.
        + rewrite Rabs_Ropp. unfold Rdiv. rewrite !Rabs_mult, Rabs_inv, Rabs_Rabsolu, (Rabs_pos_eq A) by lra. rewrite Rmult_assoc, Rinv_r by lra. lra.
        + rewrite (Rabs_left1 (x' - x)) in * by lra. rewrite Rabs_left1; lra. }
    destruct S as (u & Hu & Hs). exists (ln (1 + u)), (x' - x - x * u). pose proof (ln_1p u ltac:(lra)). split; [nra|]. split; auto.
    apply Rabs_le_between in Hu. rewrite exp_ln by lra. ring.
Qed.

(** *** normal *)
Lemma norm_trip mu sigma q q' A B : 0 < sigma -> 0 <= A <= / 100 -> 0 <= B -> Rabs (q' - q) <= A * Rabs (q - mu) + B ->
  Rabs (norm_cdf mu sigma q' - norm_cdf mu sigma q) <= A / 3 + / 2 * (B / sigma).
Proof.
  intros Ps HA HB H. pose proof sqrt2_pos as Q. assert (Q1 : 6 / 5 <= sqrt 2). { apply Rsqr_incr_0_var; [|lra]. rewrite Rsqr_sqrt by lra. unfold Rsqr. lra. }
  set (c := sqrt 2 * sigma). assert (Pc : 0 < c) by (unfold c; nra).
  destruct (split_err A (B / c) ((q - mu) / c) ((q' - mu) / c) HA) as (t & s & Ht & Hs & E).
  - apply Rle_mult_inv_pos; auto.
  - replace ((q' - mu) / c - (q - mu) / c) with ((q' - q) / c) by (field; lra). unfold Rdiv. rewrite !Rabs_mult, Rabs_inv, (Rabs_pos_eq c) by lra.
    assert (0 < / c) by now apply Rinv_0_lt_compat. nra.
  - unfold norm_cdf. fold c. rewrite E. pose proof (cond_erf ((q - mu) / c) t s) as C.
    match goal with |- Rabs (1 / 2 * (1 + ?p) - 1 / 2 * (1 + ?q)) <= _ => replace (1 / 2 * (1 + p) - 1 / 2 * (1 + q)) with (/ 2 * (p - q)) by lra end.
    rewrite Rabs_mult, (Rabs_pos_eq (/ 2)) by lra. assert (D : B / c <= 5 / 6 * (B / sigma)).
    { unfold c, Rdiv. rewrite Rinv_mult. assert (I1 : / sqrt 2 <= 5 / 6). { replace (5 / 6) with (/ (6 / 5)) by field. apply Rinv_le_contravar; lra. }
      assert (0 <= B * / sigma) by (apply Rle_mult_inv_pos; auto). nra. }
    lra.
Qed.
(** *** logistic *)
Lemma logis_tanh' mu s x : s <> 0 -> logis_cdf mu s x = 1 / 2 * (1 + tanh ((x - mu) / (2 * s))).
Proof.
  intros H. unfold logis_cdf, tanh, sinh, cosh. set (z := (x - mu) / (2 * s)). replace ((x - mu) / s) with (2 * z) by (unfold z; field; auto).
  pose proof (exp_pos z). pose proof (exp_pos (- z)). replace (- (2 * z)) with (- z + - z) by ring. rewrite exp_plus.
  assert (E : exp (- z) = / exp z) by apply exp_Ropp. rewrite E. set (w := exp z) in *. assert (0 < w * w) by nra. field. repeat split; lra.
Qed.
Lemma logis_trip mu sigma q q' A B : 0 < sigma -> 0 <= A <= / 100 -> 0 <= B -> Rabs (q' - q) <= A * Rabs (q - mu) + B ->
  Rabs (logis_cdf mu sigma q' - logis_cdf mu sigma q) <= A / 3 + / 4 * (B / sigma).
Proof.
  intros Ps HA HB H. set (c := 2 * sigma). assert (Pc : 0 < c) by (unfold c; nra).
  destruct (split_err A (B / c) ((q - mu) / c) ((q' - mu) / c) HA) as (t & s & Ht & Hs & E).
  - apply Rle_mult_inv_pos; auto.
  - replace ((q' - mu) / c - (q - mu) / c) with ((q' - q) / c) by (field; lra). unfold Rdiv. rewrite !Rabs_mult, Rabs_inv, (Rabs_pos_eq c) by lra.
    assert (0 < / c) by now apply Rinv_0_lt_compat. nra.
  - rewrite !logis_tanh' by lra. fold c. rewrite E. pose proof (cond_tanh ((q - mu) / c) t s) as C.
    match goal with |- Rabs (1 / 2 * (1 + ?p) - 1 / 2 * (1 + ?q)) <= _ => replace (1 / 2 * (1 + p) - 1 / 2 * (1 + q)) with (/ 2 * (p - q)) by lra end.
    rewrite Rabs_mult, (Rabs_pos_eq (/ 2)) by lra. assert (D : B / c = / 2 * (B / sigma)) by (unfold c; field; lra). lra.
Qed.
(** *** Laplace *)
Lemma lap_le mu s x : 0 < s -> x <= mu -> laplace_cdf mu s x = / 2 * exp ((x - mu) / s).
Proof. intros. rewrite laplace_cdf_low by auto. lra. Qed.
Lemma lap_ge mu s x : 0 < s -> mu <= x -> laplace_cdf mu s x = 1 - / 2 * exp (- ((x - mu) / s)).
Proof. intros. rewrite laplace_cdf_high by auto. lra. Qed.
Lemma exp_lip a b : a <= b <= 0 -> 0 <= exp b - exp a <= b - a.
Proof.
  intros H. pose proof (exp_ineq1_le (a - b)) as A. pose proof (exp_pos b) as Pb. pose proof (exp_pos (a - b)) as Pd.
  assert (B : exp b <= 1) by (rewrite <- exp_0; destruct (Req_dec b 0) as [->|]; [lra|left; apply exp_increasing; lra]).
  assert (B2 : exp (a - b) <= 1) by (rewrite <- exp_0; destruct (Req_dec a b) as [->|]; [replace (b - b) with 0 by ring; lra|left; apply exp_increasing; lra]).
  replace a with (b + (a - b)) at 1 2 by ring. rewrite exp_plus. split; nra.
Qed.
Lemma lap_lip mu s x y : 0 < s -> x <= y -> 0 <= laplace_cdf mu s y - laplace_cdf mu s x <= / 2 * ((y - x) / s).
Proof.
  intros Ps H. assert (Pi : 0 < / s) by now apply Rinv_0_lt_compat.
  assert (S : forall a b, a <= b <= mu -> 0 <= laplace_cdf mu s b - laplace_cdf mu s a <= / 2 * ((b - a) / s)).
  { intros a b Hab. rewrite !lap_le by lra. pose proof (exp_lip ((a - mu) / s) ((b - mu) / s) ltac:(unfold Rdiv; split; nra)) as L.
    replace ((b - a) / s) with ((b - mu) / s - (a - mu) / s) by (field; lra). lra. }
  assert (T : forall a b, mu <= a <= b -> 0 <= laplace_cdf mu s b - laplace_cdf mu s a <= / 2 * ((b - a) / s)).
  { intros a b Hab. rewrite !lap_ge by lra. pose proof (exp_lip (- ((b - mu) / s)) (- ((a - mu) / s)) ltac:(unfold Rdiv; split; nra)) as L.
    replace ((b - a) / s) with ((b - mu) / s - (a - mu) / s) by (field; lra). lra. }
  destruct (Rle_dec y mu) as [L|L]; [apply S; lra|]. destruct (Rle_dec mu x) as [L2|L2]; [apply T; lra|].
  pose proof (S x mu ltac:(lra)). pose proof (T mu y ltac:(lra)). replace ((y - x) / s) with ((y - mu) / s + (mu - x) / s) by (field; lra). lra.
Qed.
Lemma laplace_trip mu sigma q q' A B : 0 < sigma -> 0 <= A <= / 100 -> 0 <= B -> Rabs (q' - q) <= A * Rabs (q - mu) + B ->
  Rabs (laplace_cdf mu sigma q' - laplace_cdf mu sigma q) <= A / 3 + / 2 * (B / sigma).
Proof.
  intros Ps HA HB H. assert (Pi : 0 < / sigma) by now apply Rinv_0_lt_compat.
  destruct (split_err A B (q - mu) (q' - mu) HA HB) as (t & s & Ht & Hs & E); [replace (q' - mu - (q - mu)) with (q' - q) by ring; exact H|].
  set (r := mu + (q - mu) * exp t). assert (Eq : q' = r + s) by (unfold r; lra).
  assert (L : Rabs (laplace_cdf mu sigma q' - laplace_cdf mu sigma r) <= / 2 * (B / sigma)).
  { assert (G : Rabs (laplace_cdf mu sigma q' - laplace_cdf mu sigma r) <= / 2 * (Rabs s / sigma)).
    { rewrite Eq. destruct (Rle_dec 0 s).
      - pose proof (lap_lip mu sigma r (r + s) Ps ltac:(lra)) as L. replace (r + s - r) with s in L by ring. rewrite !Rabs_pos_eq by lra. lra.
      - pose proof (lap_lip mu sigma (r + s) r Ps ltac:(lra)) as L. replace (r - (r + s)) with (- s) in L by ring. rewrite (Rabs_left1 s), Rabs_left1 by lra. lra. }
    eapply Rle_trans; [exact G|]. unfold Rdiv. nra. }
  assert (M : Rabs (laplace_cdf mu sigma r - laplace_cdf mu sigma q) <= / 4 * Rabs t).
  { pose proof (exp_pos t) as Pt. destruct (Rle_dec q mu) as [C|C].
    - rewrite !lap_le by (auto; unfold r; nra). pose proof (cond_exp ((mu - q) / sigma) t 0 ltac:(apply Rle_mult_inv_pos; lra) ltac:(rewrite Rabs_R0; lra)) as K.
      replace (- ((mu - q) / sigma) * exp t + 0) with ((r - mu) / sigma) in K by (unfold r; field; lra). replace (- ((mu - q) / sigma)) with ((q - mu) / sigma) in K by (field; lra). rewrite Rabs_R0 in K.
      rewrite <- Rmult_minus_distr_l, Rabs_mult, (Rabs_pos_eq (/ 2)) by lra. lra.
    - rewrite !lap_ge by (auto; unfold r; nra). pose proof (cond_exp ((q - mu) / sigma) t 0 ltac:(apply Rle_mult_inv_pos; lra) ltac:(rewrite Rabs_R0; lra)) as K.
      replace (- ((q - mu) / sigma) * exp t + 0) with (- ((r - mu) / sigma)) in K by (unfold r; field; lra). rewrite Rabs_R0 in K.
      replace (1 - / 2 * exp (- ((r - mu) / sigma)) - (1 - / 2 * exp (- ((q - mu) / sigma)))) with (- (/ 2 * (exp (- ((r - mu) / sigma)) - exp (- ((q - mu) / sigma))))) by ring.
      rewrite Rabs_Ropp, Rabs_mult, (Rabs_pos_eq (/ 2)) by lra. lra. }
  replace (laplace_cdf mu sigma q' - laplace_cdf mu sigma q) with ((laplace_cdf mu sigma q' - laplace_cdf mu sigma r) + (laplace_cdf mu sigma r - laplace_cdf mu sigma q)) by ring.
  eapply Rle_trans; [apply Rabs_triang|]. lra.
Qed.
(** *** exponential *)
Lemma exp_trip rate q q' A B : 0 < rate -> 0 <= q -> 0 <= q' -> 0 <= A <= / 100 -> 0 <= B -> rate * B <= / 4 -> Rabs (q' - q) <= A * q + B ->
  Rabs (exp_cdf rate q' - exp_cdf rate q) <= 51 / 100 * A + 2 * (rate * B).
Proof.
  intros Pr Hq Hq' HA HB HB2 H. destruct (split_err A (rate * B) (- (rate * q)) (- (rate * q')) HA ltac:(nra)) as (t & s & Ht & Hs & E).
  - replace (- (rate * q') - - (rate * q)) with (- (rate * (q' - q))) by ring. rewrite !Rabs_Ropp, !Rabs_mult, (Rabs_pos_eq rate), (Rabs_pos_eq q) by lra. nra.
  - unfold exp_cdf. replace (- rate * q') with (- (rate * q')) by ring. replace (- rate * q) with (- (rate * q)) by ring. rewrite E.
    pose proof (cond_exp (rate * q) t s ltac:(nra) ltac:(lra)) as C.
    match goal with |- Rabs (1 - ?a - (1 - ?b)) <= _ => replace (1 - a - (1 - b)) with (- (a - b)) by ring end. rewrite Rabs_Ropp. lra.
Qed.
(** *** Cauchy: the error of the quantile is proportional to 1 + z^2 *)
Lemma atan_lip x y : Rabs (atan y - atan x) <= Rabs (y - x).
Proof. pose proof (cond_atan x 0 (y - x)) as C. rewrite exp_0, Rmult_1_r, Rabs_R0 in C. replace (x + (y - x)) with y in C by ring. lra. Qed.
Lemma atan_sq z d A : 0 <= A <= / 100 -> 10 * A * Rabs z <= 1 -> Rabs d <= A * (1 + z ^ 2) -> Rabs (atan (z + d) - atan z) <= 13 / 10 * A.
Proof.
  intros HA Hz Hd. destruct (MVT_gen atan z (z + d) (fun x => / (1 + x ^ 2))) as (c & I & E).
  - intros x _. apply is_derive_Reals. apply derivable_pt_lim_atan.
  - intros x _. apply derivable_continuous_pt, derivable_pt_atan.
  - rewrite E. replace (z + d - z) with d by ring. rewrite Rabs_mult, Rabs_inv, (Rabs_pos_eq (1 + c ^ 2)) by nra.
    apply (Rmult_le_reg_l (1 + c ^ 2)); [nra|]. rewrite <- Rmult_assoc, Rinv_r, Rmult_1_l by nra.
    assert (K : Rabs (c - z) <= Rabs d). { revert I. unfold Rmin, Rmax. destruct Rle_dec; intros I; [rewrite !Rabs_pos_eq|rewrite !Rabs_left1]; lra. }
    (* |d| <= A + |z|/10 *)
    set (u := Rabs z) in *. assert (Hu : 0 <= u) by apply Rabs_pos. assert (Z2 : z ^ 2 = u ^ 2) by (unfold u; rewrite pow2_abs; auto). rewrite Z2 in *.
    assert (Kd : Rabs d <= / 100 + u / 10) by nra.
    assert (Cu : u - Rabs (c - z) <= Rabs c). { unfold u. pose proof (Rabs_triang c (z - c)) as T. replace (c + (z - c)) with z in T by ring. rewrite (Rabs_minus_sym z c) in T. lra. }
    assert (C2 : c ^ 2 = Rabs c ^ 2) by (rewrite pow2_abs; auto). rewrite C2. pose proof (Rabs_pos c). set (v := Rabs c) in *.
    assert (v >= 9 / 10 * u - / 100) by lra. apply Rle_trans with (A * (1 + u ^ 2)); [auto|].
    assert (1 + u ^ 2 <= (1 + v ^ 2) * (13 / 10)). { destruct (Rle_dec (9 / 10 * u) (/ 100)); [nra|]. assert ((9 / 10 * u - / 100) ^ 2 <= v ^ 2) by nra. nra. }
    nra.
Qed.
Lemma cauchy_trip mu sigma q q' A B : 0 < sigma -> 0 <= A <= / 100 -> 0 <= B -> 10 * A * Rabs ((q - mu) / sigma) <= 1 ->
  Rabs (q' - q) <= A * sigma * (1 + ((q - mu) / sigma) ^ 2) + B -> Rabs (cauchy_cdf mu sigma q' - cauchy_cdf mu sigma q) <= / 2 * A + / 2 * (B / sigma).
Proof.
  intros Ps HA HB Hz H. assert (Pi : 0 < / sigma) by now apply Rinv_0_lt_compat. assert (P3 : 289 / 100 <= PI) by (pose proof PI_ineq 1%nat as [K _]; revert K; unfold tg_alt, PI_tg; cbn; lra).
  set (z := (q - mu) / sigma) in *. set (D := (q' - q) / sigma).
  assert (HD : Rabs D <= A * (1 + z ^ 2) + B / sigma).
  { unfold D, Rdiv. rewrite Rabs_mult, (Rabs_pos_eq (/ sigma)) by lra. apply Rle_trans with ((A * sigma * (1 + z ^ 2) + B) * / sigma); [nra|]. right. field. lra. }
  assert (Bs : 0 <= B / sigma) by (apply Rle_mult_inv_pos; auto). assert (A1 : 0 <= A * (1 + z ^ 2)) by nra.
  assert (S : exists d s, Rabs d <= A * (1 + z ^ 2) /\ Rabs s <= B / sigma /\ D = d + s).
  { destruct (Rle_dec (Rabs D) (A * (1 + z ^ 2))) as [L|L]; [exists D, 0; rewrite Rabs_R0; repeat split; lra|].
    destruct (Rle_dec 0 D) as [P|P].
    - exists (A * (1 + z ^ 2)), (D - A * (1 + z ^ 2)). rewrite (Rabs_pos_eq D) in * by auto. rewrite !Rabs_pos_eq by lra. repeat split; lra.
    - exists (- (A * (1 + z ^ 2))), (D + A * (1 + z ^ 2)). rewrite (Rabs_left1 D) in * by lra. rewrite Rabs_Ropp, (Rabs_pos_eq (A * _)) by lra. rewrite Rabs_left1 by lra. repeat split; lra. }
  destruct S as (d & s & Hd & Hs & E). assert (Eq : (q' - mu) / sigma = z + d + s) by (unfold z; unfold D in E; rewrite <- (Rplus_assoc (_ / _)) || idtac; replace ((q' - mu) / sigma) with ((q - mu) / sigma + (q' - q) / sigma) by (field; lra); rewrite E; ring).
  unfold cauchy_cdf. fold z. rewrite Eq. pose proof (atan_sq z d A HA Hz Hd) as K1. pose proof (atan_lip (z + d) (z + d + s)) as K2. replace (z + d + s - (z + d)) with s in K2 by ring.
  match goal with |- Rabs (1 / 2 + 1 / PI * ?p - (1 / 2 + 1 / PI * ?q)) <= _ => replace (1 / 2 + 1 / PI * p - (1 / 2 + 1 / PI * q)) with (/ PI * ((p - atan (z + d)) + (atan (z + d) - q))) by (field; lra) end.
  assert (PP : 0 < / PI <= 100 / 289). { split; [apply Rinv_0_lt_compat; lra|]. replace (100 / 289) with (/ (289 / 100)) by field. apply Rinv_le_contravar; lra. }
  rewrite Rabs_mult, (Rabs_pos_eq (/ PI)) by lra. eapply Rle_trans; [apply Rmult_le_compat_l; [lra|apply Rabs_triang]|]. pose proof (Rabs_pos (atan (z + d) - atan z)). pose proof (Rabs_pos (atan (z + d + s) - atan (z + d))). nra.
Qed.
(** *** uniform, clamped to its interval *)
Definition clamp (u : R) : R := Rmax 0 (Rmin u 1).
Lemma clamp_lip u v : Rabs (clamp u - clamp v) <= Rabs (u - v).
Proof. unfold clamp, Rmax, Rmin, Rabs. repeat destruct Rle_dec; repeat destruct Rcase_abs; lra. Qed.
(** *** size of the standard normal quantile *)
Lemma erf_size x y : erfR x = y -> y <= 1 - / 9007199254740992 -> x <= 63 / 10.
Proof.
  intros E H. destruct (Rle_dec x (63 / 10)) as [L|L]; auto. exfalso. pose proof (erfR_sq x ltac:(lra)) as S. pose proof (gauss_J_bounds x) as [_ J]. pose proof (erfR_range x) as R.
  assert (P3 : 289 / 100 <= PI) by (pose proof PI_ineq 1%nat as [K _]; revert K; unfold tg_alt, PI_tg; cbn; lra).
  assert (X : exp (- x ^ 2) <= exp (- (39))) by (left; apply exp_increasing; assert (63 / 10 < x) by lra; nra).
  assert (Y : exp (- (39)) <= / 27021597764222976).
  { rewrite exp_Ropp. apply Rinv_le_contravar; [lra|]. assert (E1 : 267 / 100 <= exp 1) by (pose proof (exp_ineq1_le (/ 32)) as K; replace 1 with (INR 32 * / 32) by (cbn; lra); assert (Q : exp (INR 32 * / 32) = exp (/ 32) ^ 32) by (symmetry; rewrite <- Rpower_pow by apply exp_pos; unfold Rpower; rewrite ln_exp; auto); rewrite Q; apply Rle_trans with ((33 / 32) ^ 32); [cbn; lra|apply pow_incr; lra]).
    replace 39 with (INR 39 * 1) by (cbn; lra). assert (Q : exp (INR 39 * 1) = exp 1 ^ 39) by (symmetry; rewrite <- Rpower_pow by apply exp_pos; unfold Rpower; rewrite ln_exp; auto). rewrite Q.
    apply Rle_trans with ((267 / 100) ^ 39); [cbn; lra|apply pow_incr; lra]. }
  assert (PP : 0 < 4 / PI <= 14 / 10). { split; [apply Rdiv_lt_0_compat; lra|]. apply (Rmult_le_reg_r PI); [lra|]. unfold Rdiv. rewrite Rmult_assoc, Rinv_l by lra. lra. }
  assert (Y0 : 0 <= y) by (rewrite <- E, <- erfR_0; apply erfR_le; lra).
  rewrite E in *. assert (1 - y <= 1 - y ^ 2) by nra. assert (1 - y ^ 2 <= 14 / 10 * / 27021597764222976) by nra. lra.
Qed.
