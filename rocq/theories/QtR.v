(** Real-number facts about Hill's approximation as used by quant/qt.ipp, at three
    degrees of freedom and normal deviate +-1/10. *)
From Coq Require Import Reals Lra Psatz.
From Coquelicot Require Import Coquelicot.
From Verif Require Import Spec RealElem Analysis Erf NormR.
Local Open Scope R_scope.

Lemma norm_cdf_0 : norm_cdf 0 1 0 = 1 / 2.
Proof. pose proof (norm_cdf_sym 0 1 0 ltac:(lra)) as H. rewrite Rminus_0_r, Rplus_0_r in H. lra. Qed.
Lemma norm_pdf_le1 x : norm_pdf 0 1 x <= 1.
Proof.
  unfold norm_pdf. assert (1 <= sqrt (2 * PI)).
  { rewrite <- sqrt_1. apply sqrt_le_1; try lra; pose proof PI_RGT_0; try lra. pose proof PI2_3_2. unfold PI2 in *. lra. }
  assert (exp (- ((x - 0) ^ 2 / (2 * 1 ^ 2))) <= 1).
  { apply Rle_trans with (exp 0); [|rewrite exp_0; lra]. apply exp_le_compat. replace ((x - 0) ^ 2 / (2 * 1 ^ 2)) with (x ^ 2 / 2) by field.
    assert (0 <= x ^ 2) by apply pow2_ge_0. lra. }
  assert (0 < exp (- ((x - 0) ^ 2 / (2 * 1 ^ 2)))) by apply exp_pos.
  assert (1 / (sqrt (2 * PI) * 1) <= 1).
  { rewrite Rmult_1_r. unfold Rdiv. rewrite Rmult_1_l. rewrite <- Rinv_1. apply Rinv_le_contravar; lra. }
  assert (0 < 1 / (sqrt (2 * PI) * 1)) by (apply Rdiv_lt_0_compat; lra).
  first [ nra | replace (- (x - 0) ^ 2 / (2 * 1 ^ 2)) with (- ((x - 0) ^ 2 / (2 * 1 ^ 2))) by (field; lra); nra ].
Qed.
Lemma norm_cdf_tenth : 2 / 5 <= norm_cdf 0 1 (- / 10) < 1 / 2.
Proof.
  split.
  - destruct (mvt (norm_cdf 0 1) (norm_pdf 0 1) (- / 10) 0) as (c & Hc & E); try lra.
    + intros. apply norm_cdf_derive. lra.
    + intros. apply continuity_pt_filterlim. apply (ex_derive_continuous (norm_cdf 0 1)).
      eexists. apply norm_cdf_derive. lra.
    + pose proof (norm_pdf_le1 c). rewrite norm_cdf_0 in E. nra.
  - rewrite <- norm_cdf_0. apply norm_cdf_smono; lra.
Qed.

(** coef_d of qt.ipp 74-83 at dof = 3 *)
Definition qtd : R := 3 * sqrt (2 / 5) * sqrt (PI / 2) * (1 + (-3 + (945 / 10) / (300 + (78696 / 1000))) / 300).
Lemma qtd_bounds : 2 <= qtd <= 3.
Proof.
  assert (H : 3 <= PI <= 4).
  { split; [pose proof PI2_3_2; unfold PI2 in *; lra|]. apply PI_4. }
  unfold qtd. rewrite Rmult_assoc with (r1 := 3). rewrite <- sqrt_mult by lra.
  assert (A : (77 / 100) <= sqrt (2 / 5 * (PI / 2))).
  { rewrite <- (sqrt_Rsqr (77 / 100)) by lra. apply sqrt_le_1; unfold Rsqr; lra. }
  assert (B : sqrt (2 / 5 * (PI / 2)) <= (9 / 10)).
  { rewrite <- (sqrt_Rsqr (9 / 10)) by lra. apply sqrt_le_1; unfold Rsqr; lra. }
  assert (C : (1 + (-3 + (945 / 10) / (300 + (78696 / 1000))) / 300) = 1 + (-3 + (945 / 10) / (378696 / 1000)) / 300) by (do 4 f_equal; lra).
  rewrite C. assert (D : (24 / 100) <= (945 / 10) / (378696 / 1000) <= (25 / 100)) by lra.
  set (s := sqrt _) in *. set (u := (945 / 10) / (378696 / 1000)) in *. nra.
Qed.
Lemma qtd_y p : 1 / 2 <= p -> 1 <= Rpower (qtd * p) (2 / 3).
Proof.
  intros. pose proof qtd_bounds. assert (1 <= qtd * p) by nra.
  rewrite <- (Rpower_O 1) by lra. replace (Rpower 1 0) with (Rpower 1 (2 / 3)).
  - apply Rle_Rpower_l; lra.
  - unfold Rpower. now rewrite ln_1, !Rmult_0_r.
Qed.
(** stages 0-2 of qt.ipp 101-137 at dof = 3, the argument being s/10 *)
Definition qtc1 x := 300 + ((78696 / 1000) + (3 / 10) * (3 - (45 / 10)) * (x + (6 / 10))) + x * (-2 + x * (-7 + x * (-5 + (5 / 100) * x * qtd))).
Definition qty2 x := x * (1 + ((x * x * (36 + x * x * ((63 / 10) + x * x * (4 / 10))) + (945 / 10)) / qtc1 x - x * x - 3) / 300).
Definition qty4 y := y + y * y * (12 + y * (4 + y)) / 24.
Lemma qty4_slt y z : 0 <= y -> y < z -> qty4 y < qty4 z.
Proof.
  intros. unfold qty4. assert (0 <= y * y) by nra. assert (y * y < z * z) by nra.
  assert (0 <= y * (4 + y)) by nra. assert (y * (4 + y) < z * (4 + z)) by nra.
  assert (0 < z * z) by nra.
  assert (y * y * (12 + y * (4 + y)) <= z * z * (12 + z * (4 + z))); [|lra].
  apply Rmult_le_compat; lra.
Qed.
Lemma qtc1_cmp : 0 < 360 < qtc1 (/ 10) /\ qtc1 (/ 10) < qtc1 (- / 10) < 390.
Proof. pose proof qtd_bounds. unfold qtc1. set (d := qtd) in *. clearbody d. repeat split; try lra; field_simplify; lra. Qed.
Lemma qty2_cmp : 0 < (4 / 10) * qty2 (- / 10) * qty2 (- / 10) /\
  (4 / 10) * qty2 (- / 10) * qty2 (- / 10) < (4 / 10) * qty2 (/ 10) * qty2 (/ 10) < (1 / 10).
Proof.
  destruct qtc1_cmp as ((_ & A) & B & C).
  set (c := qtc1 (/ 10)) in *. set (c' := qtc1 (- / 10)) in *.
  assert (Hi : forall e, 360 < e < 390 -> (24 / 100) < (948606304 / 10000000) / e < (27 / 100)).
  { intros e He. assert (0 < / e) by (apply Rinv_0_lt_compat; lra).
    assert (e * / e = 1) by (apply Rinv_r; lra). unfold Rdiv. set (i := / e) in *. clearbody i. nra. }
  assert (E1 : qty2 (/ 10) = / 10 * (1 + ((948606304 / 10000000) / c - (301 / 100)) / 300)).
  { unfold qty2. fold c. field. lra. }
  assert (E2 : qty2 (- / 10) = - (/ 10 * (1 + ((948606304 / 10000000) / c' - (301 / 100)) / 300))).
  { unfold qty2. fold c'. field. lra. }
  rewrite E1, E2. pose proof (Hi c ltac:(lra)). pose proof (Hi c' ltac:(lra)).
  assert ((948606304 / 10000000) / c' < (948606304 / 10000000) / c).
  { apply Rmult_lt_compat_l; [lra|]. apply Rinv_lt_contravar; [nra|lra]. }
  set (u := (948606304 / 10000000) / c) in *. set (v := (948606304 / 10000000) / c') in *. nra.
Qed.
