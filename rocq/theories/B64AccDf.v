(** Accuracy of the densities in double precision: F. *)
From Coq Require Import ZArith QArith Reals Bool Lra Lia.
From Verif Require Import Erf GammaFn BetaFn NormR Discrete Spec SpecSF FamR.
From Verif Require Import Num Sanity Prob Dens B64 SpecB64 SpecB64D SpecAcc SpecAccD B64R B64Ord B64Cdf B64Cdf2 B64Cdf3 B64Mag B64Dens B64Dens2 B64Dens3 B64Dens4 B64Dens5 B64CR B64Acc B64AccCdf B64AccCdf3 B64AccW B64AccLog B64AccDens B64AccDens2 B64AccDens3 B64AccDens4 B64AccDens5 B64AccDens6 SpecAccQ B64AccQ B64AccQ4 B64AccPois.
From Flocq Require Import Core IEEE754.BinarySingleNaN.
Local Open Scope R_scope.
Notation exp := Rtrigo_def.exp.
(** ** real arithmetic *)
Lemma exp_m1 t k : Rabs t <= k -> k <= / 90 -> Rabs (exp t - 1) <= 102 / 100 * k.
Proof.
  intros T K. pose proof (Rabs_pos t). apply Rabs_le. pose proof (exp_ineq1_le t) as L. pose proof (exp_ineq1_le (- t)) as L'. rewrite exp_Ropp in L'. pose proof (exp_pos t) as P.
  assert (A : - k <= t <= k) by (split; [pose proof (Rle_abs (- t)) as Q; rewrite Rabs_Ropp in Q; lra|pose proof (Rle_abs t); lra]).
  assert (M : exp t * (1 - t) <= 1). { replace 1 with (exp t * / exp t) at 2 by (field; lra). apply Rmult_le_compat_l; lra. }
  split; [lra|]. destruct (Rle_dec t 0) as [N|N].
  - assert (exp t <= 1) by (rewrite <- exp_0; apply exp_le; lra). lra.
  - assert (E2 : exp t <= 102 / 100). { apply Rmult_le_reg_r with (1 - t); [lra|]. lra. }
    assert (exp t * t <= 102 / 100 * k) by (apply Rmult_le_compat; lra). lra.
Qed.
Lemma ln_1p d k : Rabs d <= k -> k <= / 90 -> Rabs (ln (1 + d)) <= 102 / 100 * k.
Proof.
  intros D K. pose proof (Rabs_pos d). assert (A : - k <= d <= k) by (split; [pose proof (Rle_abs (- d)) as Q; rewrite Rabs_Ropp in Q; lra|pose proof (Rle_abs d); lra]).
  assert (P : 0 < 1 + d) by lra. pose proof (exp_ineq1_le (ln (1 + d))) as L1. rewrite exp_ln in L1 by auto.
  pose proof (exp_ineq1_le (- ln (1 + d))) as L2. rewrite exp_Ropp, exp_ln in L2 by auto. apply Rabs_le. split; [|lra].
  assert (/ (1 + d) <= 1 + 102 / 100 * k); [|lra]. apply Rmult_le_reg_r with (1 + d); auto. rewrite Rinv_l by lra.
  assert (Q1 : (1 + 102 / 100 * k) * (1 + - k) <= (1 + 102 / 100 * k) * (1 + d)) by (apply Rmult_le_compat_l; lra). assert (Q2 : 102 / 100 * k * k <= 102 / 100 * k * / 90) by (apply Rmult_le_compat_l; lra). lra.
Qed.
(** one minus a number known to a relative error: the error grows by the factor 1 / (1 - u) *)
Lemma one_minus_cond u t k q : 0 < u < 1 -> Rabs t <= k -> 1 <= q -> (1 - u) * q = 1 -> k * q <= / 100 -> exists s, Rabs s <= 11 / 10 * (k * q) /\ 1 - u * exp t = (1 - u) * exp s.
Proof.
  intros U T Q1 Q K. pose proof (Rabs_pos t) as T0. assert (K0 : k <= k * q) by (rewrite <- (Rmult_1_r k) at 1; apply Rmult_le_compat_l; lra).
  pose proof (exp_m1 t k T ltac:(lra)) as X. set (d := - (u * q) * (exp t - 1)).
  assert (D : Rabs d <= 102 / 100 * (k * q)).
  { unfold d. rewrite Rabs_mult, Rabs_Ropp, Rabs_pos_eq by (apply Rmult_le_pos; lra). assert (u * q <= q) by (rewrite <- (Rmult_1_l q) at 2; apply Rmult_le_compat_r; lra).
    apply Rle_trans with (q * (102 / 100 * k)); [|lra]. apply Rmult_le_compat; auto; [apply Rmult_le_pos; lra|apply Rabs_pos]. }
  exists (ln (1 + d)). pose proof (ln_1p d _ D ltac:(lra)) as L. split; [lra|].
  assert (A : - (102 / 100 * (k * q)) <= d) by (pose proof (Rle_abs (- d)) as Z; rewrite Rabs_Ropp in Z; lra).
  rewrite exp_ln by lra. unfold d. replace ((1 - u) * (1 + - (u * q) * (exp t - 1))) with ((1 - u) - ((1 - u) * q) * u * (exp t - 1)) by ring. rewrite Q. ring.
Qed.
Section D.
Variable F : TF.
Notation NB := (B64_Num F).
Variable e : R.
Hypothesis He : unit_ok e.
Lemma nmul k k' x y a b : near k 0 x a -> near k' 0 y b -> 0 <= k -> 0 <= k' -> k + k' <= / 300 -> mid (a * b) -> near (k + k' + 2 * ulp1) 0 (bmul x y) (a * b).
Proof.
  intros N N' K0 K1 K [M1 M2]. pose proof ulp1_val as U. assert (A : near (k + k' + ulp1) (2 * 0 + tiny) (bmul x y) (a * b)) by (apply (near_mul k 0 k' 0); auto; lra).
  replace (2 * 0 + tiny) with tiny in A by ring. eapply near_le; [apply (near_rel _ _ _ _ A); [lra|now apply tiny_rel]|lra|lra].
Qed.
Lemma ndiv k k' x y a b : near k 0 x a -> near k' 0 y b -> 0 <= k -> 0 <= k' -> k + k' <= / 300 -> b <> 0 -> mid (a / b) -> near (k + k' + 2 * ulp1) 0 (bdiv x y) (a / b).
Proof.
  intros N N' K0 K1 K B [M1 M2]. pose proof ulp1_val as U. assert (Z0 : 2 * 0 / Rabs b = 0) by (unfold Rdiv; ring). assert (A : near (k + k' + ulp1) (2 * 0 + tiny) (bdiv x y) (a / b)) by (apply (near_div k 0 k' 0); auto; lra).
  replace (2 * 0 + tiny) with tiny in A by ring. eapply near_le; [apply (near_rel _ _ _ _ A); [lra|now apply tiny_rel]|lra|lra].
Qed.
Lemma df_fin x df1 df2 lf : bpos x -> big_eps df1 -> big_eps df2 -> df (N:=NB) x df1 df2 lf = df_log_check (N:=NB) x (bdiv df1 (bofZ 2)) (bdiv df2 (bofZ 2)) (bdiv (bmul df1 x) df2) lf.
Proof.
  intros Px B1 B2. pose proof Px as [Fx Px']. destruct (big_eps_pos _ B1) as (_ & Pd1 & Ed1), (big_eps_pos _ B2) as (_ & Pd2 & Ed2).
  unfold df, f_sanity3, f_sanity2, any_nan2. rewrite (nan_nn F x), (nan_nn F df1), (nan_nn F df2) by (apply nn_fin; apply Px || apply Pd1 || apply Pd2). cbn [orb negb andb].
  rewrite (proj2 (eps_lt_f F df1 (nn_fin _ (proj1 Pd1))) Ed1), (proj2 (eps_lt_f F df2 (nn_fin _ (proj1 Pd2))) Ed2). cbn [negb].
  change (ltb x (ofZ 0)) with (Bltb x (bofZ 0)). change (eqb x (ofZ 0)) with (Beqb x (bofZ 0)). rewrite lt0_f by (auto; lra). rewrite !eq0_f by auto.
  unfold any_posinf2. rewrite !posinf_fin by (apply Px || apply Pd1 || apply Pd2). reflexivity.
Qed.
Lemma f_pdf_beta d1 d2 x : 0 < d1 -> 0 < d2 -> 0 < x -> let q := 1 + d1 * x / d2 in
  f_pdf d1 d2 x = beta_pdf (d1 / 2) (d2 / 2) (d1 * x / d2 / q) * (d1 / d2 / q / q).
Proof.
  intros H1 H2 Hx q. assert (0 < d1 / d2) by (apply Rdiv_lt_0_compat; lra).
  assert (HB := Beta_pos (d1 / 2) (d2 / 2) ltac:(lra) ltac:(lra)).
  unfold f_pdf, beta_pdf, q. set (r := d1 / d2) in *.
  replace (d1 * x / d2) with (r * x) by (unfold r; field; lra).
  assert (0 < r * x) by (apply Rmult_lt_0_compat; lra).
  replace (1 - r * x / (1 + r * x)) with (/ (1 + r * x)) by (field; lra).
  rewrite Rpower_div, Rpower_inv, !Rpower_m1 by lra. rewrite <- Rpower_mult_distr by lra.
  replace (- ((d1 + d2) / 2)) with (- (d1 / 2 + d2 / 2)) by field.
  rewrite Rpower_Ropp, Rpower_plus.
  pose proof (Rpower_nz (1 + r * x) (d1 / 2)). pose proof (Rpower_nz (1 + r * x) (d2 / 2)).
  field. repeat split; auto; lra.
Qed.
(** the argument handed to the beta density and the factor beside it *)
Lemma df_parts x df1 df2 : bpos x -> bpos df1 -> bpos df2 -> / huge <= B2R df1 <= huge -> / huge <= B2R df2 <= huge ->
  let c := B2R df1 * B2R x / B2R df2 in let q := 1 + c in
  mid (B2R df1 * B2R x) -> mid c -> mid (c / q) -> mid (B2R df1 / B2R df2) -> mid (B2R df1 / B2R df2 / q) -> mid (B2R df1 / B2R df2 / q / q) -> 5000 * e * q <= 1 ->
  let abx := bdiv (bmul df1 x) df2 in let a := bdiv df1 (bofZ 2) in let b := bdiv df2 (bofZ 2) in
  near (11 * ulp1) 0 (bdiv abx (badd (bofZ 1) abx)) (c / q) /\ near (25 * q * ulp1) 0 (df_compute_adj (N:=NB) x (bdiv (bdiv a b) (badd (bofZ 1) abx))) (B2R df1 / B2R df2 / q / q).
Proof.
  intros [Fx Px] [F1 P1] [F2 P2] R1 R2 c q M1 M2 M3 M4 M5 M6 HQ abx a b. pose proof ulp1_val as U. destruct (e_r e He) as (U1 & U2 & U3 & U4). pose proof huge_2 as H2.
  assert (C0 : 0 < c) by (unfold c; apply Rdiv_lt_0_compat; auto; now apply Rmult_lt_0_compat). assert (Q1 : 1 <= q) by (unfold q; lra).
  assert (UQ : ulp1 * q <= / 5000). { assert (ulp1 * q <= e * q) by (apply Rmult_le_compat_r; lra). lra. }
  assert (QU : ulp1 <= q * ulp1) by (rewrite <- (Rmult_1_l ulp1) at 1; apply Rmult_le_compat_r; lra).
  destruct (half_div df1 F1 R1) as [Fa Ea]. destruct (half_div df2 F2 R2) as [Fb Eb]. fold a in Fa, Ea. fold b in Fb, Eb.
  assert (N1 : near (2 * ulp1) 0 (bmul df1 x) (B2R df1 * B2R x)) by (eapply near_le; [apply (nmul 0 0); auto; try (now apply near_exact); lra|lra|lra]).
  assert (N2 : near (4 * ulp1) 0 abx c) by (eapply near_le; [apply (ndiv (2 * ulp1) 0); auto; try (now apply near_exact); lra|lra|lra]).
  assert (N3 : near (5 * ulp1) 0 (badd (bofZ 1) abx) q).
  { eapply near_le; [apply (near_plus 0 0 (4 * ulp1) 0); [apply (near_Z 1); sm|exact N2|..]; try lra|lra|lra]. destruct M2 as [_ M2]. rewrite Rabs_pos_eq in M2 by lra. assert (q * 2000 * ulp1 <= 1) by lra.
    assert (G : q <= huge); [|exact G]. apply Rle_trans with (bpow radix2 52). { apply Rmult_le_reg_r with ulp1; auto. apply Rle_trans with 1; [|unfold ulp1; rewrite <- bpow_plus; simpl; lra]. lra. } unfold huge. apply bpow_le. lia. }
  assert (N4 : near (11 * ulp1) 0 (bdiv abx (badd (bofZ 1) abx)) (c / q)) by (eapply near_le; [apply (ndiv (4 * ulp1) (5 * ulp1)); auto; lra|lra|lra]).
  split; [exact N4|].
  assert (N5 : near (2 * ulp1) 0 (bdiv a b) (B2R df1 / B2R df2)).
  { replace (B2R df1 / B2R df2) with (B2R a / B2R b) by (rewrite Ea, Eb; field; lra). eapply near_le; [apply (ndiv 0 0); try (now apply near_exact); try lra|lra|lra]. rewrite Ea, Eb. replace (B2R df1 / 2 / (B2R df2 / 2)) with (B2R df1 / B2R df2) by (field; lra). auto. }
  set (r0 := B2R df1 / B2R df2 / q) in *. set (r := bdiv (bdiv a b) (badd (bofZ 1) abx)) in *.
  assert (N6 : near (9 * ulp1) 0 r r0) by (eapply near_le; [apply (ndiv (2 * ulp1) (5 * ulp1)); auto; lra|lra|lra]).
  assert (Ex : B2R x * r0 = c / q) by (unfold r0, c; field; lra).
  assert (N7 : near (11 * ulp1) 0 (bmul x r) (c / q)). { rewrite <- Ex. eapply near_le; [apply (nmul 0 (9 * ulp1)); try (now apply near_exact); auto; try lra; now rewrite Ex|lra|lra]. }
  assert (V1 : (1 - c / q) * q = 1) by (unfold q; field; lra). assert (V0 : 0 < c / q) by (apply Rdiv_lt_0_compat; lra).
  assert (V2 : c / q < 1). { apply Rmult_lt_reg_r with q; [lra|]. unfold Rdiv. rewrite Rmult_assoc, Rinv_l by lra. unfold q. lra. }
  assert (N8 : near ((13 * q + 1) * ulp1) 0 (bsub (bofZ 1) (bmul x r)) (/ q)).
  { destruct N7 as (Fv & t & s & T & S & E). apply abs_le0 in S. subst s. rewrite Rplus_0_r in E. destruct (bofZ_R 1 ltac:(sm)) as [A1 G1].
    destruct (one_minus_cond (c / q) t (11 * ulp1) q (conj V0 V2) T Q1 V1 ltac:(lra)) as (s & Hs & Es).
    replace (1 - c / q) with (/ q) in Es by (apply Rmult_eq_reg_r with q; [rewrite Rinv_l|]; lra).
    assert (Xs : exp s <= 2). { apply Rabs_le_inv in Hs. apply Rle_trans with (exp (/ 100)); [apply exp_le; lra|]. pose proof (exp_ineq1_le (- / 100)) as L. rewrite exp_Ropp in L. pose proof (exp_pos (/ 100)). assert (exp (/ 100) * / exp (/ 100) = 1) by (field; lra). nra. }
    assert (I1 : / q <= 1) by (rewrite <- Rinv_1; apply Rinv_le; lra). assert (I0 : 0 < / q) by (apply Rinv_0_lt_compat; lra). pose proof (exp_pos s) as Xp.
    assert (N : near ulp1 0 (bsub (bofZ 1) (bmul x r)) (1 - B2R (bmul x r))).
    { rewrite <- A1. apply near_sub; auto. rewrite A1, E, Es. rewrite Rabs_pos_eq by (apply Rmult_le_pos; lra). apply Rle_trans with (1 * 2); [apply Rmult_le_compat|]; lra. }
    destruct N as (Fw & t2 & s2 & T2 & S2 & W2). split; auto. exists (s + t2), s2. split; [|split; auto].
    - eapply Rle_trans; [apply Rabs_triang|]. lra.
    - rewrite W2, E, Es, exp_plus. ring. }
  change (df_compute_adj (N:=NB) x r) with (bmul r (bsub (bofZ 1) (bmul x r))).
  eapply near_le; [apply (nmul (9 * ulp1) ((13 * q + 1) * ulp1)); auto; lra|lra|lra].
Qed.
Lemma near_shift k k' h v r d : near k h v (r * exp d) -> Rabs d <= k' -> near (k + k') h v r.
Proof. intros (Fv & t & s & T & S & E) D. split; auto. exists (d + t), s. split; [|split; auto]; [pose proof (Rabs_triang d t); lra|]. rewrite E, exp_plus. ring. Qed.
(** the beta density at an argument known to a relative error *)
Lemma dbeta_at k q v u a b : lgamma_acc F e -> log_acc F e -> exp_up_acc F e -> near k 0 v u -> 0 < u < 1 -> 1 <= q -> (1 - u) * q = 1 -> 0 <= k <= 11 * ulp1 -> 5000 * e * q <= 1 -> bpos a -> bpos b ->
  B2R (badd a b) = B2R a + B2R b -> B2R a + B2R b <= bpow radix2 900 ->
  let S := 5 + Rabs (ln (Gam (B2R a))) + Rabs (ln (Gam (B2R b))) + Rabs (ln (Gam (B2R a + B2R b))) + Rabs (B2R a - 1) * (1 + Rabs (ln u)) + Rabs (B2R b - 1) * (1 + Rabs (ln (1 - u))) in
  24 * e * (q * S) <= 1 -> let p := beta_pdf (B2R a) (B2R b) u in
  within (24 * e * (q * S)) (dbeta (N:=NB) v a b true) (ln p) /\ (ln p <= 599 -> near (24 * e * (q * S) + e) tiny (dbeta (N:=NB) v a b false) p) /\ Rabs (ln p) <= S /\ 5 <= S /\ 0 < p.
Proof.
  intros LG L X N HU Q1 QU K HQ Pa Pb EX Bs S HS p. destruct (e_r e He) as (U1 & U2 & U3 & U4). pose proof Pa as [Fa Pa']. pose proof Pb as [Fb Pb'].
  destruct N as (Fv & t & s & T & Hs & E). apply abs_le0 in Hs. subst s. rewrite Rplus_0_r in E. set (al := Rabs (B2R a - 1)) in *. set (be := Rabs (B2R b - 1)) in *.
  assert (UQ : ulp1 * q <= e * q) by (apply Rmult_le_compat_r; lra).
  destruct (one_minus_cond u t (11 * ulp1) q HU ltac:(lra) Q1 QU ltac:(lra)) as (s & Hs & Es). pose proof (exp_pos t) as Xt. pose proof (exp_pos s) as Xs.
  assert (V0 : 0 < B2R v) by (rewrite E; apply Rmult_lt_0_compat; lra). assert (V1 : 0 < 1 - B2R v) by (rewrite E, Es; apply Rmult_lt_0_compat; lra).
  assert (Lv : ln (B2R v) = ln u + t) by (rewrite E, ln_mult, ln_exp by lra; ring). assert (Lw : ln (1 - B2R v) = ln (1 - u) + s) by (rewrite E, Es, ln_mult, ln_exp by lra; ring).
  destruct (ln_beta_pdf (B2R a) (B2R b) u Pa' Pb' HU) as [L0 P0]. destruct (ln_beta_pdf (B2R a) (B2R b) (B2R v) Pa' Pb' ltac:(lra)) as [L1 P1]. fold p in L0, P0.
  set (p1 := beta_pdf (B2R a) (B2R b) (B2R v)) in *. assert (A0 : 0 <= al) by apply Rabs_pos. assert (B0 : 0 <= be) by apply Rabs_pos.
  pose proof (Rabs_pos (ln u)) as Z1. pose proof (Rabs_pos (ln (1 - u))) as Z2. pose proof (Rabs_pos (ln (Gam (B2R a)))) as Z3. pose proof (Rabs_pos (ln (Gam (B2R b)))) as Z4. pose proof (Rabs_pos (ln (Gam (B2R a + B2R b)))) as Z5.
  assert (Y1 : 0 <= al * Rabs (ln u)) by (apply Rmult_le_pos; lra). assert (Y2 : 0 <= be * Rabs (ln (1 - u))) by (apply Rmult_le_pos; lra).
  assert (S5 : 5 + al + be <= S) by (unfold S; lra).
  set (k2 := 11 / 10 * (11 * ulp1 * q)) in *. assert (K2 : k2 <= 121 / 10 * (e * q)) by (unfold k2; lra). assert (K1 : 11 * ulp1 <= k2). { unfold k2. assert (ulp1 * 1 <= ulp1 * q) by (apply Rmult_le_compat_l; lra). lra. }
  set (D := (B2R a - 1) * t + (B2R b - 1) * s). assert (ED : ln p1 = ln p + D) by (rewrite L1, L0, Lv, Lw; unfold D; ring).
  assert (M1 : al * Rabs t <= al * k2) by (apply Rmult_le_compat_l; lra). assert (M2 : be * Rabs s <= be * k2) by (apply Rmult_le_compat_l; lra).
  assert (M3 : (al + be) * k2 <= S * (121 / 10 * (e * q))) by (apply Rmult_le_compat; lra).
  assert (HD : Rabs D <= 121 / 10 * (e * (q * S))). { unfold D. eapply Rle_trans; [apply Rabs_triang|]. rewrite !Rabs_mult. fold al be. lra. }
  set (S1 := 5 + Rabs (ln (Gam (B2R a))) + Rabs (ln (Gam (B2R b))) + Rabs (ln (Gam (B2R a + B2R b))) + al * (1 + Rabs (ln (B2R v))) + be * (1 + Rabs (ln (1 - B2R v)))).
  assert (HS1 : S1 <= 101 / 100 * S).
  { assert (al * Rabs (ln (B2R v)) <= al * Rabs (ln u) + al * k2) by (rewrite <- Rmult_plus_distr_l; apply Rmult_le_compat_l; auto; rewrite Lv; pose proof (Rabs_triang (ln u) t); lra).
    assert (be * Rabs (ln (1 - B2R v)) <= be * Rabs (ln (1 - u)) + be * k2) by (rewrite <- Rmult_plus_distr_l; apply Rmult_le_compat_l; auto; rewrite Lw; pose proof (Rabs_triang (ln (1 - u)) s); lra).
    assert (S * (121 / 10 * (e * q)) <= S * / 100) by (apply Rmult_le_compat_l; lra). unfold S1. assert (ES : S = 5 + Rabs (ln (Gam (B2R a))) + Rabs (ln (Gam (B2R b))) + Rabs (ln (Gam (B2R a + B2R b))) + al * (1 + Rabs (ln u)) + be * (1 + Rabs (ln (1 - u)))) by reflexivity. clearbody S. lra. }
  assert (G1 : S <= q * S) by (rewrite <- (Rmult_1_l S) at 1; apply Rmult_le_compat_r; lra). assert (G2 : e * S <= e * (q * S)) by (apply Rmult_le_compat_l; lra).
  assert (S1h : S1 <= huge / 4).
  { assert (ulp1 * S <= e * S) by (apply Rmult_le_compat_r; lra). assert (S <= bpow radix2 52). { apply Rmult_le_reg_r with ulp1; auto. apply Rle_trans with 1; [lra|unfold ulp1; rewrite <- bpow_plus; simpl; lra]. }
    assert (bpow radix2 52 <= huge / 8). { unfold huge. apply Rle_trans with (bpow radix2 997); [apply bpow_le; lia|]. replace 1000%Z with (997 + 3)%Z by lia. rewrite bpow_plus. change (bpow radix2 3) with 8. lra. } pose proof huge_2. lra. }
  destruct (dbeta_acc F e He v a b LG L X (conj Fv V0) ltac:(lra) Pa Pb EX Bs S1h) as [R1 R2]. fold p1 in R1, R2. fold al be in R1, R2. fold S1 in R1, R2.
  assert (G0 : 0 <= e * (q * S)) by (apply Rmult_le_pos; lra).
  assert (W : 11 * e * S1 <= 1112 / 100 * (e * (q * S))). { assert (e * S1 <= e * (101 / 100 * S)) by (apply Rmult_le_compat_l; lra). lra. }
  split; [|split; [|split; [|split; [lra|auto]]]].
  - destruct R1 as [Fr R1]. split; auto. rewrite ED in R1. replace (B2R (dbeta (N:=NB) v a b true) - ln p) with ((B2R (dbeta (N:=NB) v a b true) - (ln p + D)) + D) by ring. eapply Rle_trans; [apply Rabs_triang|]. lra.
  - intros H6. assert (E1 : p1 = p * exp D) by (rewrite <- (exp_ln p1), ED, exp_plus, exp_ln by auto; reflexivity). pose proof (Rle_abs D) as AD.
    specialize (R2 ltac:(lra) ltac:(lra)). rewrite E1 in R2. eapply near_le; [apply (near_shift _ _ _ _ _ _ R2 HD)|lra|lra].
  - rewrite L0. unfold S. eapply Rle_trans; [apply Rabs_triang|]. eapply Rle_trans; [apply Rplus_le_compat_r, Rabs_triang|]. rewrite Rabs_Ropp, !Rabs_mult. fold al be.
    pose proof (Rabs_triang (ln (Gam (B2R a)) + ln (Gam (B2R b))) (- ln (Gam (B2R a + B2R b)))) as T1. rewrite Rabs_Ropp in T1. pose proof (Rabs_triang (ln (Gam (B2R a))) (ln (Gam (B2R b)))). unfold Rminus at 1. lra.
Qed.
Lemma df_acc x df1 df2 : lgamma_acc F e -> log_acc F e -> exp_up_acc F e -> bpos x -> big_eps df1 -> big_eps df2 -> B2R df1 <= bpow radix2 900 -> B2R df2 <= bpow radix2 900 ->
  B2R (badd (bdiv df1 (bofZ 2)) (bdiv df2 (bofZ 2))) = (B2R df1 + B2R df2) / 2 ->
  let c := B2R df1 * B2R x / B2R df2 in let q := 1 + c in let a := B2R df1 / 2 in let b := B2R df2 / 2 in let u := c / q in let j := B2R df1 / B2R df2 / q / q in
  mid (B2R df1 * B2R x) -> mid c -> mid u -> mid (B2R df1 / B2R df2) -> mid (B2R df1 / B2R df2 / q) -> mid j -> 5000 * e * q <= 1 ->
  let S := q * (5 + Rabs (ln (Gam a)) + Rabs (ln (Gam b)) + Rabs (ln (Gam (a + b))) + Rabs (a - 1) * (1 + Rabs (ln u)) + Rabs (b - 1) * (1 + Rabs (ln (1 - u))) + Rabs (ln j)) in
  32 * e * S <= / 200 -> let p := f_pdf (B2R df1) (B2R df2) (B2R x) in
  within (32 * e * S) (df (N:=NB) x df1 df2 true) (ln p) /\ (ln (beta_pdf a b u) <= 599 -> p <= huge -> near (32 * e * S) ((4 * j + 1) * tiny) (df (N:=NB) x df1 df2 false) p).
Proof.
  intros LG L X Px B1 B2 H1 H2' EX c q a b u j M1 M2 M3 M4 M5 M6 HQ S HS p. destruct (e_r e He) as (U1 & U2 & U3 & U4). pose proof ulp1_val as U. pose proof huge_2 as H2. pose proof Px as [Fx Px'].
  destruct (big_eps_pos _ B1) as (_ & Pd1 & Ed1), (big_eps_pos _ B2) as (_ & Pd2 & Ed2). pose proof Pd1 as [F1 P1]. pose proof Pd2 as [F2 P2].
  destruct eps_R as [Ee Fe]. rewrite !ev_fin in Ed1, Ed2 by auto. rewrite Ee in Ed1, Ed2.
  assert (B9 : bpow radix2 900 <= huge) by (unfold huge; apply bpow_le; lia). assert (Ih : / huge <= ulp1) by (unfold huge, ulp1; rewrite <- bpow_opp; apply bpow_le; lia).
  destruct (half_div df1 F1 ltac:(lra)) as [Fa Ea]. destruct (half_div df2 F2 ltac:(lra)) as [Fb Eb]. fold a in Ea. fold b in Eb.
  assert (C0 : 0 < c) by (unfold c; apply Rdiv_lt_0_compat; auto; now apply Rmult_lt_0_compat). assert (Q1 : 1 <= q) by (unfold q; lra).
  assert (V1 : (1 - u) * q = 1) by (unfold u, q; field; lra). assert (V0 : 0 < u) by (apply Rdiv_lt_0_compat; lra).
  assert (V2 : u < 1). { apply Rmult_lt_reg_r with q; [lra|]. unfold u, Rdiv. rewrite Rmult_assoc, Rinv_l by lra. unfold q. lra. }
  assert (J0 : 0 < j) by (unfold j; repeat (apply Rdiv_lt_0_compat; try lra)).
  destruct (df_parts x df1 df2 Px Pd1 Pd2 ltac:(lra) ltac:(lra) M1 M2 M3 M4 M5 M6 HQ) as [NU NJ]. fold c in NU, NJ. fold q in NU, NJ. fold u in NU. fold j in NJ.
  pose proof (f_pdf_beta (B2R df1) (B2R df2) (B2R x) P1 P2 Px') as EP. cbv zeta in EP. fold c in EP. fold q in EP. fold u a b j in EP. fold p in EP.
  set (S0 := 5 + Rabs (ln (Gam a)) + Rabs (ln (Gam b)) + Rabs (ln (Gam (a + b))) + Rabs (a - 1) * (1 + Rabs (ln u)) + Rabs (b - 1) * (1 + Rabs (ln (1 - u)))) in *.
  assert (ES : S = q * S0 + q * Rabs (ln j)) by (unfold S; ring). clearbody S. pose proof (Rabs_pos (ln j)) as A0. set (A := Rabs (ln j)) in *.
  assert (QA : A <= q * A) by (rewrite <- (Rmult_1_l A) at 1; apply Rmult_le_compat_r; lra). assert (QE : e <= e * q) by (rewrite <- (Rmult_1_r e) at 1; apply Rmult_le_compat_l; lra).
  assert (EA : 0 <= e * (q * A)) by (apply Rmult_le_pos; lra). assert (EA1 : e * A <= e * (q * A)) by (apply Rmult_le_compat_l; lra).
  assert (UQ : ulp1 * q <= e * q) by (apply Rmult_le_compat_r; lra). assert (UA : ulp1 * A <= e * A) by (apply Rmult_le_compat_r; lra).
  set (ha := bdiv df1 (bofZ 2)) in *. set (hb := bdiv df2 (bofZ 2)) in *.
  assert (Pha : bpos ha) by (split; [exact Fa|rewrite Ea; unfold a; lra]). assert (Phb : bpos hb) by (split; [exact Fb|rewrite Eb; unfold b; lra]).
  assert (EX' : B2R (badd ha hb) = B2R ha + B2R hb) by (rewrite EX, Ea, Eb; unfold a, b; lra). assert (Bs : B2R ha + B2R hb <= bpow radix2 900) by (rewrite Ea, Eb; unfold a, b; lra).
  pose proof (dbeta_at (11 * ulp1) q _ u ha hb LG L X NU (conj V0 V2) Q1 V1 ltac:(lra) HQ Pha Phb EX' Bs) as DB. rewrite Ea, Eb in DB. cbv zeta in DB. fold S0 in DB. rewrite ES in HS |- *. clear ES S.
  specialize (DB ltac:(lra)). destruct DB as (DL & DP & LB & S5 & PB). set (pb := beta_pdf a b u) in *. clearbody S0.
  assert (G1 : S0 <= q * S0) by (rewrite <- (Rmult_1_l S0) at 1; apply Rmult_le_compat_r; lra). assert (G2 : 5 * (e * q) <= e * (q * S0)). { replace (5 * (e * q)) with (e * (q * 5)) by ring. apply Rmult_le_compat_l; [lra|]. apply Rmult_le_compat_l; lra. }
  assert (G3 : e * S0 <= e * (q * S0)) by (apply Rmult_le_compat_l; lra). assert (G4 : ulp1 * S0 <= e * S0) by (apply Rmult_le_compat_r; lra).
  rewrite !df_fin by auto. fold ha hb. set (abx := bdiv (bmul df1 x) df2) in *. unfold df_log_check. change (ofZ 1) with (bofZ 1). change (add (bofZ 1) abx) with (badd (bofZ 1) abx). change (div ha hb) with (bdiv ha hb).
  change (div abx (badd (bofZ 1) abx)) with (bdiv abx (badd (bofZ 1) abx)). change (div (bdiv ha hb) (badd (bofZ 1) abx)) with (bdiv (bdiv ha hb) (badd (bofZ 1) abx)).
  set (jv := df_compute_adj (N:=NB) x (bdiv (bdiv ha hb) (badd (bofZ 1) abx))) in *. set (uv := bdiv abx (badd (bofZ 1) abx)) in *. clearbody jv uv. split.
  - assert (UQ0 : 0 <= ulp1 * q) by (apply Rmult_le_pos; lra). pose proof (log_within F e (25 * q * ulp1) jv j He L NJ J0 ltac:(lra)) as LJ. fold A in LJ. rewrite EP, ln_mult by auto.
    assert (Q5 : e * (25 * q * ulp1) <= e * 1) by (apply Rmult_le_compat_l; lra).
    assert (BB : Rabs (ln pb + ln j) <= S0 + A) by (eapply Rle_trans; [apply Rabs_triang|]; fold A; lra).
    assert (SH : S0 + A <= huge). { assert (ulp1 * (S0 + A) <= 1) by lra. assert (S0 + A <= bpow radix2 52). { apply Rmult_le_reg_r with ulp1; auto. apply Rle_trans with 1; [lra|unfold ulp1; rewrite <- bpow_plus; simpl; lra]. } assert (bpow radix2 52 <= huge) by (unfold huge; apply bpow_le; lia). lra. }
    eapply within_le; [apply (within_add _ _ _ _ _ _ (S0 + A) DL LJ BB); [lra|exact SH]|]. lra.
  - assert (UQ0 : 0 <= ulp1 * q) by (apply Rmult_le_pos; lra). intros H6 HP. specialize (DP H6). assert (JH : j <= huge) by (destruct M6 as [_ M6]; rewrite Rabs_pos_eq in M6; lra).
    assert (TJ : 2 * tiny * j <= 1). { apply Rle_trans with (2 * tiny * huge); [apply Rmult_le_compat_l; [unfold tiny; pose proof (bpow_gt_0 radix2 (-1074)); lra|auto]|]. unfold tiny, huge. rewrite Rmult_assoc, <- bpow_plus. simpl. lra. }
    rewrite EP. replace ((4 * j + 1) * tiny) with (2 * (2 * tiny * j) + tiny) by ring.
    eapply near_le; [apply (near_mul (24 * e * (q * S0) + e) tiny (25 * q * ulp1) (2 * tiny * j)); [exact DP|exact NJ|lra| |rewrite (Rabs_pos_eq j) by lra; lra|exact TJ]| |lra].
    + rewrite <- EP. rewrite Rabs_pos_eq; auto. rewrite EP. apply Rlt_le, Rmult_lt_0_compat; auto.
    + lra.
Qed.
End D.
