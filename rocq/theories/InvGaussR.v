(** The inverse Gaussian density is unimodal with the mode of qinvgauss.ipp 39-43, and
    Newton's method on its CDF started at the mode approaches the quantile monotonically. *)
From Coq Require Import Reals Lra Lia Psatz.
From Coquelicot Require Import Coquelicot.
From Verif Require Import Spec RealElem Analysis Erf NormR SpecSF FamR.
Local Open Scope R_scope.

Section IG.
Variables mu l : R.
Hypothesis Hmu : 0 < mu.
Hypothesis Hl : 0 < l.

Definition ig_mode : R := mu * (sqrt (1 + 9 * (mu / l) * (mu / l) / 4) - 3 * (mu / l) / 2).
Lemma ig_mode_root : 0 < ig_mode /\ l * ig_mode ^ 2 + 3 * mu ^ 2 * ig_mode - l * mu ^ 2 = 0.
Proof.
  assert (Hk : 0 < mu / l) by now apply Rdiv_lt_0_compat.
  assert (E : mu = mu / l * l) by (field; lra).
  unfold ig_mode. set (k := mu / l) in *. clearbody k.
  set (s := sqrt (1 + 9 * k * k / 4)).
  assert (Ss : s * s = 1 + 9 * k * k / 4) by (apply sqrt_sqrt; nra).
  assert (0 <= s) by apply sqrt_pos. assert (3 * k / 2 < s) by nra.
  split; [nra|].
  transitivity (l * mu ^ 2 * ((s - 3 * k / 2) * (s - 3 * k / 2) + 3 * k * (s - 3 * k / 2) - 1)).
  { rewrite E. ring. }
  replace ((s - 3 * k / 2) * (s - 3 * k / 2) + 3 * k * (s - 3 * k / 2) - 1) with (s * s - (1 + 9 * k * k / 4)) by field.
  rewrite Ss. ring.
Qed.

(** logarithm of the density without its constant *)
Definition ig_h x := - (3 / 2) * ln x - l * (x - mu) ^ 2 / (2 * mu ^ 2 * x).
Lemma ig_h_derive x : 0 < x ->
  is_derive ig_h x (- (l * x ^ 2 + 3 * mu ^ 2 * x - l * mu ^ 2) / (2 * mu ^ 2 * x ^ 2)).
Proof.
  intros Hx. unfold ig_h. auto_derive.
  - repeat split; auto. assert (0 < mu * (mu * 1) * x) by (repeat apply Rmult_lt_0_compat; lra). lra.
  - field. lra.
Qed.
Lemma ig_pdf_h x : 0 < x -> invgauss_pdf mu l x = sqrt (l / (2 * PI)) * exp (ig_h x).
Proof.
  intros Hx. pose proof PI_RGT_0. unfold invgauss_pdf, ig_h, Rminus. rewrite exp_plus.
  assert (X : sqrt (l / (2 * PI * x ^ 3)) = sqrt (l / (2 * PI)) * exp (- (3 / 2) * ln x)).
  { replace (exp (- (3 / 2) * ln x)) with (Rpower x (- (3 / 2))) by reflexivity.
    assert (0 < x ^ 3) by now apply pow_lt.
    assert (0 < l / (2 * PI)) by (apply Rdiv_lt_0_compat; lra).
    replace (l / (2 * PI * x ^ 3)) with (l / (2 * PI) * / x ^ 3) by (field; lra).
    rewrite sqrt_mult_alt by lra. f_equal. rewrite Rpower_Ropp, sqrt_inv. f_equal.
    rewrite <- Rpower_sqrt by auto. rewrite <- Rpower_pow by auto.
    rewrite Rpower_mult. f_equal. cbn. lra. }
  rewrite X. ring.
Qed.
Lemma ig_quad x : 0 < x ->
  (x <= ig_mode -> l * x ^ 2 + 3 * mu ^ 2 * x - l * mu ^ 2 <= 0) /\
  (ig_mode <= x -> 0 <= l * x ^ 2 + 3 * mu ^ 2 * x - l * mu ^ 2).
Proof.
  intros Hx. destruct ig_mode_root as (Hm & E). set (m := ig_mode) in *. clearbody m.
  assert (D : l * x ^ 2 + 3 * mu ^ 2 * x - l * mu ^ 2 = (x - m) * (l * (x + m) + 3 * mu ^ 2)).
  { transitivity (l * x ^ 2 + 3 * mu ^ 2 * x - l * mu ^ 2 - (l * m ^ 2 + 3 * mu ^ 2 * m - l * mu ^ 2)); [lra|ring]. }
  assert (0 < l * (x + m) + 3 * mu ^ 2) by nra.
  rewrite D. split; intros; nra.
Qed.
Lemma ig_pdf_up x y : 0 < x -> x <= y -> y <= ig_mode -> invgauss_pdf mu l x <= invgauss_pdf mu l y.
Proof.
  intros Hx [H| ->] Hy; [|lra]. rewrite !ig_pdf_h by lra.
  apply Rmult_le_compat_l; [apply sqrt_pos|]. apply exp_le_compat.
  destruct (mvt ig_h (fun x => - (l * x ^ 2 + 3 * mu ^ 2 * x - l * mu ^ 2) / (2 * mu ^ 2 * x ^ 2)) x y) as (c & Hc & E); auto.
  - intros. apply ig_h_derive. lra.
  - intros z Hz. eapply derive_cont_pt, ig_h_derive. lra.
  - assert (0 <= - (l * c ^ 2 + 3 * mu ^ 2 * c - l * mu ^ 2) / (2 * mu ^ 2 * c ^ 2)); [|nra].
    destruct (ig_quad c ltac:(lra)) as (Q & _). specialize (Q ltac:(lra)).
    apply Rmult_le_pos; [lra|]. left. apply Rinv_0_lt_compat.
    assert (0 < mu ^ 2) by now apply pow_lt. assert (0 < c ^ 2) by (apply pow_lt; lra). nra.
Qed.
Lemma ig_pdf_down x y : ig_mode <= x -> x <= y -> invgauss_pdf mu l y <= invgauss_pdf mu l x.
Proof.
  intros Hx [H| ->]; [|lra]. destruct ig_mode_root as (Hm & _). rewrite !ig_pdf_h by lra.
  apply Rmult_le_compat_l; [apply sqrt_pos|]. apply exp_le_compat.
  destruct (mvt ig_h (fun x => - (l * x ^ 2 + 3 * mu ^ 2 * x - l * mu ^ 2) / (2 * mu ^ 2 * x ^ 2)) x y) as (c & Hc & E); auto.
  - intros. apply ig_h_derive. lra.
  - intros z Hz. eapply derive_cont_pt, ig_h_derive. lra.
  - assert (0 <= (l * c ^ 2 + 3 * mu ^ 2 * c - l * mu ^ 2) / (2 * mu ^ 2 * c ^ 2)); [|unfold Rdiv in *; nra].
    destruct (ig_quad c ltac:(lra)) as (_ & Q). specialize (Q ltac:(lra)).
    apply Rmult_le_pos; [lra|]. left. apply Rinv_0_lt_compat.
    assert (0 < mu ^ 2) by now apply pow_lt. assert (0 < c ^ 2) by (apply pow_lt; lra). nra.
Qed.
Lemma ig_pdf_max x : 0 < x -> invgauss_pdf mu l x <= invgauss_pdf mu l ig_mode.
Proof.
  intros. destruct (Rle_dec x ig_mode); [apply ig_pdf_up; lra|apply ig_pdf_down; lra].
Qed.

(** existence of the quantile *)
Lemma ig_quantile p : 0 < p < 1 -> exists q, 0 < q /\ invgauss_cdf mu l q = p.
Proof.
  intros Hp. destruct (invgauss_cdf_low mu l Hmu Hl p) as (a & Ha & La); [lra|].
  destruct (invgauss_cdf_high mu l Hmu Hl (1 - p)) as (b & Hb & Lb); [lra|].
  set (b' := Rmax b (a + 1)). assert (b <= b') by apply Rmax_l. assert (a + 1 <= b') by apply Rmax_r.
  specialize (La a Ha ltac:(lra)). specialize (Lb b' ltac:(lra)). apply Rabs_def2 in Lb.
  destruct (ivt (invgauss_cdf mu l) a b' p) as (q & Hq & E); try lra.
  - intros x Hx. eapply derive_cont_pt, invgauss_cdf_derive; lra.
  - exists q. split; [lra|auto].
Qed.

(** one Newton step stays between the current point and the quantile *)
Notation F := (invgauss_cdf mu l).
Notation f := (invgauss_pdf mu l).
Definition ig_step p q := q + (p - F q) / f q.
Lemma ig_step_left p s q : 0 < s -> F s = p -> s <= q -> q <= ig_mode -> s <= ig_step p q <= q.
Proof.
  intros Hs E [H|<-] Hq.
  - destruct (mvt F f s q) as (c & Hc & M); auto.
    + intros. apply invgauss_cdf_derive; lra.
    + intros z Hz. eapply derive_cont_pt, invgauss_cdf_derive; lra.
    + assert (Pq : 0 < f q) by (apply invgauss_pdf_pos; lra).
      assert (Pc : 0 < f c) by (apply invgauss_pdf_pos; lra).
      assert (U : f c <= f q) by (apply ig_pdf_up; lra).
      unfold ig_step. replace (p - F q) with (- (f c * (q - s))) by lra.
      assert (R : 0 <= f c / f q <= 1).
      { split; [apply Rmult_le_pos; [lra|left; now apply Rinv_0_lt_compat]|].
        apply (Rmult_le_reg_r (f q)); auto. unfold Rdiv. rewrite Rmult_assoc, Rinv_l; lra. }
      replace (- (f c * (q - s)) / f q) with (- ((f c / f q) * (q - s))) by (field; lra). nra.
  - unfold ig_step. rewrite E. assert (0 < f s) by (apply invgauss_pdf_pos; lra).
    replace ((p - p) / f s) with 0 by (field; lra). lra.
Qed.
Lemma ig_step_right p s q : F s = p -> q <= s -> ig_mode <= q -> q <= ig_step p q <= s.
Proof.
  intros E [H| ->] Hq; destruct ig_mode_root as (Hm & _).
  - destruct (mvt F f q s) as (c & Hc & M); auto.
    + intros. apply invgauss_cdf_derive; lra.
    + intros z Hz. eapply derive_cont_pt, invgauss_cdf_derive; lra.
    + assert (Pq : 0 < f q) by (apply invgauss_pdf_pos; lra).
      assert (Pc : 0 < f c) by (apply invgauss_pdf_pos; lra).
      assert (U : f c <= f q) by (apply ig_pdf_down; lra).
      unfold ig_step. replace (p - F q) with (f c * (s - q)) by lra.
      assert (R : 0 <= f c / f q <= 1).
      { split; [apply Rmult_le_pos; [lra|left; now apply Rinv_0_lt_compat]|].
        apply (Rmult_le_reg_r (f q)); auto. unfold Rdiv. rewrite Rmult_assoc, Rinv_l; lra. }
      replace (f c * (s - q) / f q) with ((f c / f q) * (s - q)) by (field; lra). nra.
  - unfold ig_step. rewrite E. assert (0 < f s) by (apply invgauss_pdf_pos; lra).
    replace ((p - p) / f s) with 0 by (field; lra). lra.
Qed.
(** the points reached from the mode: [between p s q] holds of each of them *)
Definition between s q := 0 < q /\ (s <= q <= ig_mode \/ ig_mode <= q <= s).
Lemma between_mode s : 0 < s -> between s ig_mode.
Proof. intros. destruct ig_mode_root. split; auto. destruct (Rle_dec s ig_mode); [left|right]; lra. Qed.
Lemma between_step p s q : 0 < s -> F s = p -> between s q -> between s (ig_step p q).
Proof.
  intros Hs E (Hq & [H|H]).
  - pose proof (ig_step_left p s q Hs E ltac:(lra) ltac:(lra)). split; [lra|]. left. lra.
  - pose proof (ig_step_right p s q E ltac:(lra) ltac:(lra)). split; [lra|]. right. lra.
Qed.
(** progress made: the distance to the quantile shrinks by the CDF error over the peak density *)
Lemma ig_step_progress p s q : 0 < s -> F s = p -> between s q ->
  Rabs (s - ig_step p q) <= Rabs (s - q) - Rabs (p - F q) / f ig_mode.
Proof.
  intros Hs E (Hq & H). destruct ig_mode_root as (Hm & _).
  assert (Pq : 0 < f q) by (apply invgauss_pdf_pos; lra).
  assert (Pm : f q <= f ig_mode) by (apply ig_pdf_max; lra).
  assert (I : / f ig_mode <= / f q) by (apply Rinv_le_contravar; lra).
  destruct H as [H|H].
  - pose proof (ig_step_left p s q Hs E ltac:(lra) ltac:(lra)) as B.
    assert (F s <= F q) by (destruct (proj1 H) as [L| <-]; [left; apply invgauss_cdf_slt; lra|lra]).
    rewrite (Rabs_left1 (s - ig_step p q)), (Rabs_left1 (s - q)), (Rabs_left1 (p - F q)) by lra.
    unfold ig_step in *. unfold Rdiv. nra.
  - pose proof (ig_step_right p s q E ltac:(lra) ltac:(lra)) as B.
    assert (F q <= F s) by (destruct (proj2 H) as [L| ->]; [left; apply invgauss_cdf_slt; lra|lra]).
    rewrite (Rabs_right (s - ig_step p q)), (Rabs_right (s - q)), (Rabs_right (p - F q)) by lra.
    unfold ig_step in *. unfold Rdiv. nra.
Qed.
Lemma ig_step_err p s q : 0 < s -> F s = p -> between s q ->
  Rabs (p - F (ig_step p q)) <= Rabs (p - F q).
Proof.
  intros Hs E (Hq & H). destruct ig_mode_root as (Hm & _).
  assert (M : forall x y, 0 < x -> x <= y -> F x <= F y).
  { intros x y Hx [L| ->]; [left; now apply invgauss_cdf_slt|lra]. }
  destruct H as [H|H].
  - pose proof (ig_step_left p s q Hs E ltac:(lra) ltac:(lra)) as B.
    pose proof (M s (ig_step p q) Hs ltac:(lra)). pose proof (M (ig_step p q) q ltac:(lra) ltac:(lra)).
    rewrite !Rabs_left1 by lra. lra.
  - pose proof (ig_step_right p s q E ltac:(lra) ltac:(lra)) as B.
    pose proof (M q (ig_step p q) Hq ltac:(lra)). pose proof (M (ig_step p q) s ltac:(lra) ltac:(lra)).
    rewrite !Rabs_right by lra. lra.
Qed.
Fixpoint ig_newton n p q := match n with O => q | S n => ig_newton n p (ig_step p q) end.
Lemma ig_newton_between n p s q : 0 < s -> F s = p -> between s q -> between s (ig_newton n p q).
Proof. intros Hs E. revert q. induction n; intros q H; cbn; auto. apply IHn. now apply between_step. Qed.
Lemma ig_newton_err n p s q : 0 < s -> F s = p -> between s q ->
  INR n * Rabs (p - F (ig_newton n p q)) <= f ig_mode * (Rabs (s - q) - Rabs (s - ig_newton n p q)) /\
  Rabs (p - F (ig_newton n p q)) <= Rabs (p - F q).
Proof.
  intros Hs E. destruct ig_mode_root as (Hm & _).
  assert (Pm : 0 < f ig_mode) by (apply invgauss_pdf_pos; lra).
  revert q. induction n as [|n IH]; intros q H; [cbn; lra|].
  rewrite S_INR. cbn [ig_newton]. destruct (IH _ (between_step p s q Hs E H)) as (I1 & I2).
  pose proof (ig_step_progress p s q Hs E H) as P. pose proof (ig_step_err p s q Hs E H) as Q.
  split; [|lra].
  assert (f ig_mode * Rabs (s - ig_step p q) <= f ig_mode * Rabs (s - q) - Rabs (p - F q)).
  { replace (Rabs (p - F q)) with (f ig_mode * (Rabs (p - F q) / f ig_mode)) by (field; lra).
    rewrite <- Rmult_minus_distr_l. apply Rmult_le_compat_l; lra. }
  lra.
Qed.
End IG.
