(** Accuracy of the densities in double precision: logistic, Cauchy, log-normal. *)
From Coq Require Import ZArith QArith Reals Lra Lia.
From Verif Require Import Erf GammaFn BetaFn NormR Spec SpecSF.
From Verif Require Import Num Sanity Prob Dens B64 SpecB64 SpecB64D SpecAcc SpecAccD B64R B64Ord B64Cdf B64Cdf2 B64Cdf3 B64Mag B64Dens B64Dens2 B64Dens3 B64Dens4 B64CR B64Acc B64AccCdf B64AccW B64AccLog B64AccDens.
From Flocq Require Import Core IEEE754.BinarySingleNaN.
Local Open Scope R_scope.
Notation exp := Rtrigo_def.exp.
Lemma ln_mid r : / huge <= r <= huge -> 0 < r /\ Rabs (ln r) <= 1000.
Proof.
  intros [H1 H2]. pose proof huge_pos. assert (0 < / huge) by now apply Rinv_0_lt_compat. split; [lra|].
  assert (K : ln huge <= 1000). { unfold huge. rewrite ln_bpow. pose proof ln2_01. lra. }
  apply Rabs_le. split; [|eapply Rle_trans; [apply ln_mono; [lra|exact H2]|auto]]. assert (Q : ln (/ huge) <= ln r) by (apply ln_mono; auto). rewrite ln_Rinv in Q by lra. lra.
Qed.
Lemma exp_mono a b : a <= b -> exp a <= exp b.
Proof. intros [H| ->]; [left; now apply exp_increasing|lra]. Qed.
Lemma ln2_58 : 5 / 8 <= ln 2.
Proof.
  assert (A : exp 5 <= 256). { replace 5 with (1 + 1 + 1 + 1 + 1) by lra. rewrite !exp_plus. pose proof exp_le_3 as H. pose proof (exp_pos 1). assert (exp 1 * exp 1 <= 9) by nra. assert (exp 1 * exp 1 * exp 1 <= 27) by nra. assert (exp 1 * exp 1 * exp 1 * exp 1 <= 81) by nra. assert (0 < exp 1 * exp 1 * exp 1 * exp 1) by (repeat apply Rmult_lt_0_compat; auto). nra. }
  apply (ln_mono _ _ (exp_pos 5)) in A. rewrite ln_exp in A. replace 256 with (bpow radix2 8) in A by (cbn; lra). rewrite ln_bpow in A. lra.
Qed.
Lemma exp_600 r : r <= 610 -> exp r <= huge / 8.
Proof.
  intros H. apply Rle_trans with (exp (IZR 997 * ln 2)); [apply exp_mono; pose proof ln2_58; lra|]. rewrite <- ln_bpow, exp_ln by apply bpow_gt_0. unfold huge.
  replace 1000%Z with (997 + 3)%Z by lia. rewrite bpow_plus. right. cbn [bpow radix2 radix_val Z.pow_pos]. cbn. lra.
Qed.
(** 1 + u is not more sensitive than u *)
Lemma ln_1p u t s : 0 < u -> Rabs s <= / 4 -> 0 < 1 + (u * exp t + s) /\ Rabs (ln (1 + (u * exp t + s)) - ln (1 + u)) <= Rabs t + 2 * Rabs s.
Proof.
  intros U S. pose proof (exp_pos t) as Et. assert (P : 0 < u * exp t) by now apply Rmult_lt_0_compat. set (X := 1 + u * exp t). pose proof (Rle_abs s) as S1. pose proof (Rle_abs (- s)) as S2. rewrite Rabs_Ropp in S2.
  split; [lra|]. assert (X0 : 0 < X) by (unfold X; lra). replace (1 + (u * exp t + s)) with (X * (1 + s / X)) by (unfold Rdiv; rewrite Rmult_plus_distr_l, (Rmult_comm s), <- Rmult_assoc, Rinv_r by lra; unfold X; ring).
  assert (D : Rabs (s / X) <= Rabs s). { unfold Rdiv. rewrite Rabs_mult, Rabs_inv, (Rabs_pos_eq X) by (unfold X; lra). assert (/ X <= 1). { rewrite <- Rinv_1. apply Rinv_le_contravar; unfold X; lra. } pose proof (Rabs_pos s). assert (0 < / X) by (apply Rinv_0_lt_compat; unfold X; lra). nra. }
  pose proof (Rle_abs (- (s / X))) as D2. rewrite Rabs_Ropp in D2. rewrite ln_mult by lra. pose proof (ln_abs (s / X) ltac:(lra)) as LA.
  assert (Q : Rabs (ln X - ln (1 + u)) <= Rabs t).
  { rewrite <- (ln_exp (Rabs t)). assert (Pa := Rabs_pos t). pose proof (Rle_abs t) as T1. pose proof (Rle_abs (- t)) as T2. rewrite Rabs_Ropp in T2.
    pose proof (exp_mono _ _ T1) as E1. pose proof (exp_mono _ _ Pa) as E0. rewrite exp_0 in E0. assert (E2 : exp (- Rabs t) <= exp t) by (apply exp_mono; lra).
    assert (E3 : exp (- Rabs t) <= 1) by (rewrite <- exp_0; apply exp_mono; lra). pose proof (exp_pos (- Rabs t)) as E4.
    apply Rabs_le. split.
    - assert (L : ln ((1 + u) * exp (- Rabs t)) <= ln X) by (apply ln_mono; [apply Rmult_lt_0_compat; lra|unfold X; nra]). rewrite ln_mult, !ln_exp in * by lra. lra.
    - assert (L : ln X <= ln ((1 + u) * exp (Rabs t))) by (apply ln_mono; unfold X; nra). rewrite ln_mult in L by lra. lra. }
  replace (ln X + ln (1 + s / X) - ln (1 + u)) with ((ln X - ln (1 + u)) + ln (1 + s / X)) by ring. eapply Rle_trans; [apply Rabs_triang|]. lra.
Qed.
Section D.
Variable F : TF.
Notation NB := (B64_Num F).
Variable e : R.
Hypothesis He : unit_ok e.
Notation acc := (acc e).
(** *** logistic *)
Lemma ln_logis_pdf mu s x : 0 < s -> let z := (x - mu) / s in ln (logis_pdf mu s x) = - z - ln s - 2 * ln (1 + exp (- z)) /\ 0 < logis_pdf mu s x.
Proof.
  intros P z. unfold logis_pdf. fold z. pose proof (exp_pos (- z)) as E. assert (Q : 0 < s * (1 + exp (- z)) ^ 2) by (apply Rmult_lt_0_compat; auto; apply pow_lt; lra).
  split; [|apply Rmult_lt_0_compat; auto; now apply Rinv_0_lt_compat]. unfold Rdiv. rewrite ln_mult, ln_Rinv, ln_exp by (auto; now apply Rinv_0_lt_compat).
  rewrite ln_mult by (auto; apply pow_lt; lra). replace ((1 + exp (- z)) ^ 2) with ((1 + exp (- z)) * (1 + exp (- z))) by (cbn; ring). rewrite ln_mult by lra. ring.
Qed.
Lemma dlogis_acc x mu sigma : log_acc F e -> exp_up_acc F e -> bfin x -> bfin mu -> bpos sigma ->
  reach (B2R mu) (B2R sigma) (B2R x) -> Rabs ((B2R x - B2R mu) / B2R sigma) <= 600 ->
  density_acc e 12 (4 + Rabs (ln (B2R sigma)) + 3 * Rabs ((B2R x - B2R mu) / B2R sigma)) (dlogis (N:=NB) x mu sigma) (logis_pdf (B2R mu) (B2R sigma) (B2R x)).
Proof.
  intros L X Fx Fm P Hr H. pose proof huge_2 as H2. pose proof P as [Fs Ps]. pose proof (ln_any sigma Fs Ps). pose proof (Rabs_pos (ln (B2R sigma))).
  destruct (ln_logis_pdf (B2R mu) (B2R sigma) (B2R x) Ps) as [EL EP]. pose proof (acc_z e He _ _ _ Fx Fm P Hr) as N. set (z := bdiv (bsub x mu) sigma) in *. set (z0 := (B2R x - B2R mu) / B2R sigma) in *.
  assert (D : forall lf, dlogis (N:=NB) x mu sigma lf = exp_if (N:=NB) (bsub (bsub (Bopp z) (t_log F sigma)) (bmul (bofZ 2) (t_log F (badd (bofZ 1) (t_exp F (Bopp z)))))) (negb lf)).
  { intros lf. unfold dlogis. rewrite logis_norm3. unfold norm_sanity3. rewrite (ls_sanity F), (nan_nn F x) by (auto; now apply nn_fin). cbn [negb andb]. unfold any_inf3. rewrite !inf_fin by auto. reflexivity. }
  apply (acc_dens F e 12 _ (bsub (bsub (Bopp z) (t_log F sigma)) (bmul (bofZ 2) (t_log F (badd (bofZ 1) (t_exp F (Bopp z))))))); auto; try lra; try (now rewrite D).
  rewrite EL. pose proof (Rabs_pos z0) as Pz. destruct (e_r e He) as (U1 & U2 & U3 & U4). pose proof tiny_pos.
  assert (A1 : acc 5 (2 + Rabs (ln (B2R sigma)) + Rabs z0) (bsub (Bopp z) (t_log F sigma)) (- z0 - ln (B2R sigma))).
  { replace 5 with (3 + 2) by lra. replace (2 + Rabs (ln (B2R sigma)) + Rabs z0) with ((1 + Rabs z0) + (1 + Rabs (ln (B2R sigma)))) by ring. apply (acc_sub e He 3); try lra; [|now apply acc_lg].
    apply acc_opp. replace 3 with (2 + 1) by lra. apply (acc_near e He 2); auto; lra. }
  assert (A2 : acc 8 (1 + Rabs z0) (t_log F (badd (bofZ 1) (t_exp F (Bopp z)))) (ln (1 + exp (- z0)))).
  { destruct N as (Fz & t & s & T & Hs & E). assert (Fo : finite (Bopp z)) by (unfold finite; now rewrite is_finite_Bopp).
    assert (Dz : Rabs (B2R (Bopp z) - - z0) <= 3 * (e * (1 + Rabs z0))).
    { rewrite B2R_Bopp, E. replace (- (z0 * exp t + s) - - z0) with (- (z0 * (exp t - 1) + s)) by ring. rewrite Rabs_Ropp. pose proof (exp_abs' t _ T ltac:(lra)) as Q.
      eapply Rle_trans; [apply (abs_sum _ _ _ _ (abs_prod _ _ _ _ (Rle_refl (Rabs z0)) Q) Hs)|]. nra. }
    assert (Sm : 3 * (e * (1 + Rabs z0)) <= 1) by nra. set (v := B2R (Bopp z)) in *.
    pose proof (Rabs_le_inv _ _ H) as Hz. pose proof (Rabs_le_inv _ _ Dz) as Dv.
    destruct (X (Bopp z) Fo ltac:(fold v; lra)) as (Fw & t2 & s2 & T2 & S2 & E2). fold v in E2.
    assert (E2' : B2R (t_exp F (Bopp z)) = exp (- z0) * exp (v - - z0 + t2) + s2) by (rewrite E2; f_equal; rewrite <- !exp_plus; f_equal; ring).
    assert (XB : exp (- z0) <= huge / 8) by (apply exp_600; lra).
    destruct (ln_1p (exp (- z0)) (v - - z0 + t2) s2 (exp_pos _) ltac:(lra)) as [P1 L1]. rewrite <- E2' in P1, L1. set (w := t_exp F (Bopp z)) in *.
    assert (T3 : Rabs (v - - z0 + t2) <= 3 * (e * (1 + Rabs z0)) + e) by now apply abs_sum.
    destruct (bofZ_R 1 ltac:(sm)) as [B1 F1].
    assert (WB : Rabs (B2R (bofZ 1) + B2R w) <= 4 * huge).
    { rewrite B1, Rabs_pos_eq by lra. rewrite E2'. assert (Q : exp (v - - z0 + t2) <= exp 1 * exp 1) by (rewrite <- exp_plus; apply exp_mono; pose proof (Rle_abs (v - - z0 + t2)); lra).
      pose proof exp_le_3. pose proof (exp_pos 1). pose proof (exp_pos (- z0)). pose proof (exp_pos (v - - z0 + t2)). pose proof (Rle_abs s2). assert (exp (v - - z0 + t2) <= 9) by nra. assert (exp (- z0) * exp (v - - z0 + t2) <= huge / 8 * 9) by (apply Rmult_le_compat; lra). lra. }
    destruct (near_add (bofZ 1) w F1 Fw WB) as (Fy & t4 & s4 & T4 & S4 & E4). apply abs_le0 in S4. subst s4. rewrite B1, Rplus_0_r in E4.
    replace 8 with (6 + 2) by lra. pose proof (exp_pos t4). apply (acc_log' F e He 6); auto; try lra.
    - rewrite E4. now apply Rmult_lt_0_compat.
    - rewrite E4, ln_mult, ln_exp by auto. replace (ln (1 + B2R w) + t4 - ln (1 + exp (- z0))) with ((ln (1 + B2R w) - ln (1 + exp (- z0))) + t4) by ring.
      eapply Rle_trans; [apply (abs_sum _ _ _ _ L1 T4)|]. destruct (eS_pos e He (1 + Rabs z0)) as [Q1 Q2]; [lra|]. idtac. lra.
    - pose proof (exp_pos (- z0)) as Q. assert (0 <= ln (1 + exp (- z0))) by (rewrite <- ln_1; apply ln_mono; lra). rewrite Rabs_pos_eq by auto.
      apply Rle_trans with (ln (2 * exp (Rabs z0))).
      + apply ln_mono; [lra|]. pose proof (exp_mono 0 (Rabs z0) Pz) as Q1. rewrite exp_0 in Q1. assert (exp (- z0) <= exp (Rabs z0)) by (apply exp_mono; rewrite <- Rabs_Ropp; apply Rle_abs). lra.
      + rewrite ln_mult, ln_exp by (try apply exp_pos; lra). pose proof ln2_01. lra. }
  assert (A3 : acc 10 (2 + 2 * Rabs z0) (bmul (bofZ 2) (t_log F (badd (bofZ 1) (t_exp F (Bopp z))))) (2 * ln (1 + exp (- z0)))).
  { replace 10 with (8 + 2 * 0 + 2) by lra. apply (acc_mul e He 8 0 (1 + Rabs z0) _ _ _ _ _ (near0Z e 2 ltac:(sm)) A2); try lra. rewrite Rabs_pos_eq; lra. }
  replace 12 with (10 + 2) by lra. replace (4 + Rabs (ln (B2R sigma)) + 3 * Rabs z0) with ((2 + Rabs (ln (B2R sigma)) + Rabs z0) + (2 + 2 * Rabs z0)) by ring.
  apply (acc_sub e He 10); try lra; [|exact A3]. apply (acc_le e He 5 _ 10 _ _ _ A1); lra.
Qed.
(** *** Cauchy *)
Lemma tiny_rel r : / huge <= Rabs r -> 8 * tiny <= ulp1 * Rabs r.
Proof.
  intros H. pose proof ulp1_val as U. apply Rle_trans with (ulp1 * / huge); [|apply Rmult_le_compat_l; lra]. unfold ulp1, huge, tiny. rewrite <- bpow_opp, <- bpow_plus.
  replace 8 with (bpow radix2 3) by (cbn; lra). rewrite <- bpow_plus. apply bpow_le. lia.
Qed.
Lemma norm_s k y r : near (k * e) tiny y r -> 0 <= k <= 300 -> / huge <= Rabs r -> near ((k + 1) * e) 0 y r.
Proof.
  intros N K H. destruct (e_r e He) as (U1 & U2 & U3 & U4). eapply near_le; [apply (near_rel (k * e) tiny); auto; [nra|now apply tiny_rel]| |lra]. lra.
Qed.
Lemma mul_s k1 k2 x y a b : near (k1 * e) 0 x a -> near (k2 * e) 0 y b -> 0 <= k1 <= 100 -> 0 <= k2 <= 100 -> / huge <= Rabs (a * b) <= huge -> near ((k1 + k2 + 2) * e) 0 (bmul x y) (a * b).
Proof.
  intros N1 N2 K1 K2 [H1 H2]. destruct (e_r e He) as (U1 & U2 & U3 & U4). assert (k1 * e <= 100 * / 1000000) by (apply Rmult_le_compat; lra). assert (k2 * e <= 100 * / 1000000) by (apply Rmult_le_compat; lra).
  replace (k1 + k2 + 2) with ((k1 + k2 + 1) + 1) by ring. apply norm_s; try lra; auto.
  eapply near_le; [apply (near_mul (k1 * e) 0 (k2 * e) 0 _ _ _ _ N1 N2); try lra| |]; lra.
Qed.
Lemma div_s k1 k2 x y a b : near (k1 * e) 0 x a -> near (k2 * e) 0 y b -> b <> 0 -> 0 <= k1 <= 100 -> 0 <= k2 <= 100 -> / huge <= Rabs (a / b) <= huge -> near ((k1 + k2 + 2) * e) 0 (bdiv x y) (a / b).
Proof.
  intros N1 N2 B K1 K2 [H1 H2]. destruct (e_r e He) as (U1 & U2 & U3 & U4). assert (k1 * e <= 100 * / 1000000) by (apply Rmult_le_compat; lra). assert (k2 * e <= 100 * / 1000000) by (apply Rmult_le_compat; lra).
  replace (k1 + k2 + 2) with ((k1 + k2 + 1) + 1) by ring. apply norm_s; try lra; auto.
  eapply near_le; [apply (near_div (k1 * e) 0 (k2 * e) 0 _ _ _ _ N1 N2); try lra| |]; lra.
Qed.
Lemma one_sq z z0 : near (2 * e) tiny z z0 -> 1 + z0 * z0 <= huge / 2 -> near (52 * e) 0 (badd (bofZ 1) (bmul z z)) (1 + z0 * z0).
Proof.
  intros N H. pose proof huge_2 as H2. assert (0 <= z0 * z0) by nra.
  assert (A : acc 11 (1 + z0 * z0) (bmul z z) (z0 * z0)).
  { replace 11 with (2 * 2 + 2 * 2 + 3) by lra. apply (acc_nn e He 2 2); auto; try lra; try (apply Rabs_le; nra). }
  assert (B : acc 11 1 (bofZ 1) 1).
  { apply (acc_le e He 1 1); try lra. replace 1 with (0 + 1) at 1 by lra. apply (acc_near e He 0); try lra; [|rewrite Rabs_R1; lra]. apply near_t. apply (near0Z e 1). sm. }
  replace 52 with (2 * 2 * 13) by lra. apply (near_of_acc e He 13 2 (1 + (1 + z0 * z0))); try lra. replace 13 with (11 + 2) by lra. apply (acc_add e He 11); auto; lra.
Qed.
Lemma dcauchy_acc x mu sigma : log_acc F e -> const_acc e (t_PI F) Rtrigo1.PI -> bfin x -> bfin mu -> bpos sigma -> / huge <= B2R sigma <= huge / 4 ->
  reach (B2R mu) (B2R sigma) (B2R x) -> 1 + (B2R x - B2R mu) / B2R sigma * ((B2R x - B2R mu) / B2R sigma) <= huge / 2 -> / huge <= cauchy_pdf (B2R mu) (B2R sigma) (B2R x) <= huge ->
  within (63 * e * (1 + Rabs (ln (cauchy_pdf (B2R mu) (B2R sigma) (B2R x))))) (dcauchy (N:=NB) x mu sigma true) (ln (cauchy_pdf (B2R mu) (B2R sigma) (B2R x))) /\
  near (60 * e) 0 (dcauchy (N:=NB) x mu sigma false) (cauchy_pdf (B2R mu) (B2R sigma) (B2R x)).
Proof.
  intros L C Fx Fm P Hs Hr Hz Hp. pose proof huge_2 as H2. pose proof P as [Fs Ps]. destruct (e_r e He) as (U1 & U2 & U3 & U4).
  pose proof (one_sq _ _ (acc_z e He _ _ _ Fx Fm P Hr) Hz) as N1. pose proof PI_lo as P1. pose proof PI_4 as P2.
  set (z := bdiv (bsub x mu) sigma) in *. set (z0 := (B2R x - B2R mu) / B2R sigma) in *.
  assert (HI : 0 < / huge) by (apply Rinv_0_lt_compat; lra).
  assert (N2 : near (3 * e) 0 (bmul sigma (t_PI F)) (B2R sigma * Rtrigo1.PI)).
  { replace 3 with (0 + 1 + 2) by lra. apply mul_s; try lra; [now apply near0|rewrite Rmult_1_l; exact C|]. assert (B2R sigma * 1 <= B2R sigma * Rtrigo1.PI <= B2R sigma * 4) by (split; apply Rmult_le_compat_l; lra). rewrite Rabs_pos_eq; lra. }
  assert (EC : cauchy_pdf (B2R mu) (B2R sigma) (B2R x) = 1 / (B2R sigma * Rtrigo1.PI * (1 + z0 * z0))). { unfold cauchy_pdf. fold z0. f_equal. ring. }
  assert (PP : 0 < B2R sigma * Rtrigo1.PI * (1 + z0 * z0)) by (apply Rmult_lt_0_compat; [apply Rmult_lt_0_compat; lra|nra]).
  assert (Q : / huge <= B2R sigma * Rtrigo1.PI * (1 + z0 * z0) <= huge).
  { rewrite EC in Hp. unfold Rdiv in Hp. rewrite Rmult_1_l in Hp. destruct Hp as [A B]. split.
    - rewrite <- (Rinv_inv (B2R sigma * Rtrigo1.PI * (1 + z0 * z0))). apply Rinv_le_contravar; auto; now apply Rinv_0_lt_compat.
    - rewrite <- (Rinv_inv (B2R sigma * Rtrigo1.PI * (1 + z0 * z0))), <- (Rinv_inv huge). apply Rinv_le_contravar; auto; apply Rinv_0_lt_compat; lra. }
  assert (N3 : near (57 * e) 0 (bmul (bmul sigma (t_PI F)) (badd (bofZ 1) (bmul z z))) (B2R sigma * Rtrigo1.PI * (1 + z0 * z0))).
  { replace 57 with (3 + 52 + 2) by lra. apply mul_s; auto; try lra. rewrite Rabs_pos_eq; lra. }
  assert (N4 : near (60 * e) 0 (dcauchy_compute (N:=NB) z sigma) (cauchy_pdf (B2R mu) (B2R sigma) (B2R x))).
  { rewrite EC in *. apply (near_s e He 59); [|lra]. replace 59 with (0 + 57 + 2) by lra. apply div_s; auto; try lra; [apply (near0Z e 1); sm|]. rewrite Rabs_pos_eq; lra. }
  assert (Lm := ln_mid _ Hp). destruct Lm as [L0 L1]. pose proof (Rabs_pos (ln (cauchy_pdf (B2R mu) (B2R sigma) (B2R x)))). rewrite !dcauchy_fin by auto. fold z. split; [|exact N4].
  assert (Fy : finite (dcauchy_compute (N:=NB) z sigma)) by apply N4.
  cbn [log_if]. change (within (63 * e * (1 + Rabs (ln (cauchy_pdf (B2R mu) (B2R sigma) (B2R x))))) (t_log F (dcauchy_compute (N:=NB) z sigma)) (ln (cauchy_pdf (B2R mu) (B2R sigma) (B2R x)))).
  destruct N4 as (_ & t & s & T & Hs' & E). apply abs_le0 in Hs'. subst s. rewrite Rplus_0_r in E. pose proof (exp_pos t).
  assert (Py : 0 < B2R (dcauchy_compute (N:=NB) z sigma)) by (rewrite E; now apply Rmult_lt_0_compat).
  destruct (acc_log' F e He 60 (1 + Rabs (ln (cauchy_pdf (B2R mu) (B2R sigma) (B2R x)))) _ (ln (cauchy_pdf (B2R mu) (B2R sigma) (B2R x))) L Fy Py) as (A & B & _); try lra.
  - rewrite E, ln_mult, ln_exp by auto. replace (ln (cauchy_pdf (B2R mu) (B2R sigma) (B2R x)) + t - ln (cauchy_pdf (B2R mu) (B2R sigma) (B2R x))) with t by ring.
    destruct (eS_pos e He (1 + Rabs (ln (cauchy_pdf (B2R mu) (B2R sigma) (B2R x))))) as [Q1 Q2]; lra.
  - split; auto. eapply Rle_trans; [exact B|]. destruct (eS_pos e He (1 + Rabs (ln (cauchy_pdf (B2R mu) (B2R sigma) (B2R x))))) as [Q1 Q2]; lra.
Qed.
(** *** log-normal *)
Lemma ln_lnorm_pdf mu s x : 0 < s -> 0 < x -> ln (lnorm_pdf mu s x) = ln (norm_pdf mu s (ln x)) - ln x /\ lnorm_pdf mu s x = norm_pdf mu s (ln x) / x.
Proof.
  intros P Px. assert (E : lnorm_pdf mu s x = norm_pdf mu s (ln x) / x) by (unfold lnorm_pdf, norm_pdf, Rdiv; ring). split; auto. rewrite E. unfold Rdiv.
  rewrite ln_mult; [rewrite ln_Rinv by exact Px; ring|now apply ln_norm_pdf|now apply Rinv_0_lt_compat].
Qed.
Lemma dlnorm_fin x mu sigma lf : log_acc F e -> bpos x -> bfin mu -> bpos sigma -> dlnorm (N:=NB) x mu sigma lf = if lf then bsub (dnorm (N:=NB) (t_log F x) mu sigma true) (t_log F x) else bdiv (dnorm (N:=NB) (t_log F x) mu sigma false) x.
Proof.
  intros L [Fx Px] Fm P. assert (Fl : finite (t_log F x)) by apply (L x Fx Px). pose proof P as [Fs Ps].
  unfold dlnorm. rewrite lnorm_norm3. unfold norm_sanity3. rewrite (ls_sanity F), (nan_nn F x) by (auto; now apply nn_fin). cbn [negb andb].
  change (ltb x (ofZ 0)) with (Bltb x (bofZ 0)). rewrite lt0_f by (auto; lra).
  match goal with |- context [if ?c then _ else _] => change c with (any_inf3 (N:=NB) (t_log F x) mu sigma || eqb (Num:=NB) sigma (ofZ (Num:=NB) 0)) end.
  unfold any_inf3. rewrite !inf_fin by auto. change (eqb (Num:=NB) sigma (ofZ (Num:=NB) 0)) with (Beqb sigma (bofZ 0)). rewrite eq0_f by auto. cbn [orb].
  unfold dlnorm_log_check. destruct lf; reflexivity.
Qed.
Lemma dlnorm_acc x mu sigma : const_acc e (t_LOG_2PI F) (ln (2 * Rtrigo1.PI)) -> log_acc F e -> exp_up_acc F e -> bpos x -> bfin mu -> bpos sigma -> Rabs (B2R mu) <= huge / 2 ->
  let z := (ln (B2R x) - B2R mu) / B2R sigma in let W := (1 + Rabs (ln (B2R x))) / B2R sigma in let S := 5 + Rabs (ln (B2R sigma)) + Rabs (ln (B2R x)) + z * z + W * (1 + Rabs z) in
  e * W <= / 2 -> S <= huge / 4 ->
  within (19 * e * S) (dlnorm (N:=NB) x mu sigma true) (ln (lnorm_pdf (B2R mu) (B2R sigma) (B2R x))) /\
  (18 * e * S <= / 400 -> ln (norm_pdf (B2R mu) (B2R sigma) (ln (B2R x))) <= 600 -> lnorm_pdf (B2R mu) (B2R sigma) (B2R x) <= huge -> / huge <= B2R x ->
   near (19 * e * S) (4 * (tiny / B2R x) + tiny) (dlnorm (N:=NB) x mu sigma false) (lnorm_pdf (B2R mu) (B2R sigma) (B2R x))).
Proof.
  intros C L X Px Fm P Hm z W S HW HS. pose proof huge_2 as H2. pose proof P as [Fs Ps]. pose proof Px as [Fx Px']. destruct (e_r e He) as (U1 & U2 & U3 & U4).
  rewrite !dlnorm_fin by auto. destruct (ln_lnorm_pdf (B2R mu) (B2R sigma) (B2R x) Ps Px') as [EL ED]. destruct (ln_norm_pdf (B2R mu) (B2R sigma) (ln (B2R x)) Ps) as [EN EP].
  pose proof (acc_lg F e He x L Px) as AL. pose proof (ln_any x Fx Px') as LX. pose proof (ln_any sigma Fs Ps) as LS. pose proof (Rabs_pos (ln (B2R x))) as P1. pose proof (Rabs_pos (ln (B2R sigma))) as P2. pose proof (Rabs_pos z) as P3.
  assert (Fl : finite (t_log F x)) by apply AL. set (l0 := ln (B2R x)) in *. set (l1 := B2R (t_log F x)).
  assert (W0 : 0 < W) by (apply Rmult_lt_0_compat; [lra|now apply Rinv_0_lt_compat]).
  assert (D : Rabs (l1 - l0) <= 2 * (e * (1 + Rabs l0))).
  { destruct (near_within _ _ _ _ (L x Fx Px') ltac:(lra)) as [_ Q]. fold l0 in Q. fold l1 in Q. eapply Rle_trans; [exact Q|]. nra. }
  set (z1 := (l1 - B2R mu) / B2R sigma).
  assert (Dz : Rabs (z1 - z) <= 2 * (e * W)).
  { replace (z1 - z) with ((l1 - l0) / B2R sigma) by (unfold z1, z; field; lra). unfold Rdiv. rewrite Rabs_mult, Rabs_inv, (Rabs_pos_eq (B2R sigma)) by lra.
    apply Rle_trans with (2 * (e * (1 + Rabs l0)) * / B2R sigma); [apply Rmult_le_compat_r; auto; left; now apply Rinv_0_lt_compat|]. right. unfold W, Rdiv. ring. }
  assert (Z1 : Rabs z1 <= Rabs z + 1) by (replace z1 with (z + (z1 - z)) by ring; eapply Rle_trans; [apply Rabs_triang|lra]).
  assert (Zs : z * z = Rabs z * Rabs z) by (rewrite <- Rabs_mult, Rabs_pos_eq; nra).
  assert (Zs1 : z1 * z1 <= 2 * (z * z) + 2). { assert (z1 * z1 = Rabs z1 * Rabs z1) as -> by (rewrite <- Rabs_mult, Rabs_pos_eq; nra). rewrite Zs. pose proof (Rabs_pos z1) as Pz1. pose proof (Rmult_le_compat _ _ _ _ Pz1 Pz1 Z1 Z1). pose proof (Rle_0_sqr (Rabs z - 1)) as Q. unfold Rsqr in Q. lra. }
  assert (SW : 0 <= W * (1 + Rabs z)) by (apply Rmult_le_pos; lra). assert (Zp : 0 <= z * z) by nra.
  assert (L1 : Rabs l1 <= 2000) by (replace l1 with (l0 + (l1 - l0)) by ring; eapply Rle_trans; [apply Rabs_triang|]; nra).
  assert (Hr : reach (B2R mu) (B2R sigma) l1).
  { split; [eapply Rle_trans; [apply abs_tri3|]; lra|]. fold z1. unfold S in HS. assert (Rabs z <= 1 + z * z) by nra. lra. }
  assert (V1 := dnorm_v F e He (t_log F x) mu sigma C L Fl Fm P Hr ltac:(fold l1; fold z1; unfold S in HS; lra)). fold l1 in V1. fold z1 in V1. set (v := dnorm_log_compute (N:=NB) (bdiv (bsub (t_log F x) mu) sigma) sigma) in *.
  set (S1 := 4 + Rabs (ln (B2R sigma)) + z * z + W * (1 + Rabs z)).
  assert (V : acc 17 S1 v (ln (norm_pdf (B2R mu) (B2R sigma) l0))).
  { destruct V1 as (A & B & _ & _). assert (S1b : 1 <= S1 <= huge) by (unfold S1, S in *; lra). split; [auto|]. split; [|split; [|auto]].
    - replace (B2R v - ln (norm_pdf (B2R mu) (B2R sigma) l0)) with ((B2R v - ln (norm_pdf (B2R mu) (B2R sigma) l1)) + - ((z1 - z) * (z1 + z) / 2)).
      2:{ rewrite (proj1 (ln_norm_pdf _ _ l1 Ps)), EN. fold z z1. field. }
      assert (Q : Rabs (- ((z1 - z) * (z1 + z) / 2)) <= 2 * (e * (W * (1 + Rabs z)))).
      { rewrite Rabs_Ropp. unfold Rdiv. rewrite Rabs_mult, (Rabs_pos_eq (/ 2)) by lra. assert (K : Rabs (z1 + z) <= 2 * Rabs z + 1) by (eapply Rle_trans; [apply Rabs_triang|lra]).
        pose proof (abs_prod _ _ _ _ Dz K). nra. }
      eapply Rle_trans; [apply (abs_sum _ _ _ _ B Q)|].
      assert (15 * (e * (3 + Rabs (ln (B2R sigma)) + z1 * z1 / 2)) <= 15 * (e * (4 + Rabs (ln (B2R sigma)) + z * z))) by (apply Rmult_le_compat_l; [lra|]; apply Rmult_le_compat_l; lra).
      unfold S1. assert (0 <= e * (4 + Rabs (ln (B2R sigma)) + z * z)) by (apply Rmult_le_pos; lra). assert (0 <= e * (W * (1 + Rabs z))) by (apply Rmult_le_pos; lra). lra.
    - rewrite EN. fold z. pose proof ln_2PI as Q. eapply Rle_trans; [apply abs_tri3|]. rewrite (Rabs_pos_eq (z * z / 2)) by lra.
      assert (Rabs (- / 2 * ln (2 * Rtrigo1.PI) - ln (B2R sigma)) <= 1 + Rabs (ln (B2R sigma))) by (eapply Rle_trans; [apply abs_tri3|]; rewrite (Rabs_left1 (- / 2 * _)) by lra; lra). unfold S1. lra. }
  rewrite !dnorm_fin by auto. fold v. cbn [exp_if negb]. split.
  - rewrite EL. destruct (acc_sub e He 17 S1 (1 + Rabs l0) _ _ _ _ V (acc_le e He 3 _ 17 (1 + Rabs l0) _ _ AL ltac:(lra) ltac:(lra)) ltac:(lra) ltac:(unfold S1, S in *; lra)) as (A & B & _).
    split; auto. eapply Rle_trans; [exact B|]. unfold S, S1. right. ring.
  - intros K1 K2 K3 K4. rewrite ED.
    assert (ES : e * S1 + e <= e * S) by (unfold S, S1; nra). assert (ES0 : 0 <= e * S1) by (apply Rmult_le_pos; unfold S1; lra).
    assert (DA := acc_dens F e 17 S1 v (norm_pdf (B2R mu) (B2R sigma) l0) (fun lf => exp_if (N:=NB) v (negb lf)) X V ltac:(lra) EP eq_refl eq_refl).
    destruct DA as [_ DA]. specialize (DA ltac:(lra) K2). cbv beta in DA. cbn [exp_if negb] in DA. change (Num.exp v) with (t_exp F v) in DA.
    assert (I : tiny / B2R x <= / 1000). { apply Rle_trans with (tiny * huge); [|apply tiny_huge]. apply Rmult_le_compat_l; [apply Rlt_le, tiny_pos|]. rewrite <- (Rinv_inv huge). apply Rinv_le_contravar; auto. apply Rinv_0_lt_compat. lra. }
    assert (PX : 0 < lnorm_pdf (B2R mu) (B2R sigma) (B2R x)) by (rewrite ED; apply Rmult_lt_0_compat; auto; now apply Rinv_0_lt_compat).
    eapply near_le; [apply (near_div _ tiny 0 (2 * (tiny / B2R x)) _ _ _ _ DA (near_exact _ Fx))| |]; try lra.
    + rewrite <- ED, Rabs_pos_eq; lra.
    + rewrite Rabs_pos_eq by lra. unfold Rdiv. lra.
Qed.
End D.
