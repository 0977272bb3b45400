(** Round trips that fail in binary64, for every accurate library. *)
From Coq Require Import ZArith QArith Reals Bool Lra Lia.
From Verif Require Import RealElem RealAcc RealAccQ RealTrip RealTrip2 Erf GammaFn GammaBd BetaFn BoundR NormR Spec SpecSF FamR.
From Verif Require Import Num Sanity Prob Dens Quant B64 B64R B64Ord SpecB64 SpecAcc SpecAccQ SpecTrip B64Cdf B64Cdf2 B64Cdf3 B64Unif B64Quant B64Quant2 B64Acc B64AccCdf B64AccCdf2 B64AccCdf3 B64AccQ B64AccQ2 B64AccQ3 B64AccQ4 B64Trip B64Trip2.
From Flocq Require Import Core Sterbenz IEEE754.BinarySingleNaN.
Local Open Scope R_scope.
Notation exp := Rtrigo_def.exp. Notation PI := Rtrigo1.PI. Notation tan := Rtrigo1.tan.

Definition small : b64 := blit (1 # 1024).
Definition far : b64 := bofZ 1152921504606846976.
Lemma small_R : B2R small = / 1024 /\ bfin small. Proof. split; [vm_compute; lra|reflexivity]. Qed.
Lemma far_R : B2R far = 1152921504606846976 /\ bfin far. Proof. split; [vm_compute; lra|reflexivity]. Qed.
Lemma half_R : B2R (blit (1#2)) = / 2 /\ bfin (blit (1#2)). Proof. split; [vm_compute; lra|reflexivity]. Qed.
Lemma q34_R : B2R (blit (3#4)) = 3 / 4 /\ bfin (blit (3#4)). Proof. split; [vm_compute; lra|reflexivity]. Qed.
Lemma half_prob : prob (blit (1#2)). Proof. destruct half_R as [A B]. split; auto. rewrite A. lra. Qed.
Lemma q34_prob : prob (blit (3#4)). Proof. destruct q34_R as [A B]. split; auto. rewrite A. lra. Qed.
Lemma small_pos : bpos small. Proof. destruct small_R as [A B]. split; auto. rewrite A. lra. Qed.
Lemma one_pos : bpos (bofZ 1). Proof. destruct (bofZ_R 1 ltac:(sm)) as [A B]. split; auto. rewrite A. lra. Qed.
Lemma one_eps : big_eps (bofZ 1). Proof. destruct (bofZ_R 1 ltac:(sm)) as [A B]. apply is_big; auto. rewrite A, ulp1_val. lra. Qed.
Lemma small_eps : big_eps small. Proof. destruct small_R as [A B]. apply is_big; auto. rewrite A, ulp1_val. lra. Qed.
(** a number between 0 and 16 added to 2^60 disappears *)
Lemma far_add d : bfin d -> 0 <= B2R d <= 16 -> bfin (badd far d) /\ B2R (badd far d) = B2R far.
Proof.
  intros Fd Hd. destruct far_R as [A Fa]. pose proof huge_1. destruct (badd_R far d Fa Fd) as [E G]; [apply rnd_bound; rewrite A; apply Rabs_le; assert (1152921504606846976 <= huge) by (unfold huge; change 1152921504606846976 with (bpow radix2 60); apply bpow_le; lia); lra|].
  split; auto. rewrite E. unfold rnd.
  assert (Ff : generic_format radix2 fexp64 (B2R far)) by apply generic_format_B2R.
  apply Rle_antisym.
  - apply round_N_le_midp; auto with typeclass_instances. rewrite succ_eq_pos by lra. assert (U : ulp radix2 fexp64 (B2R far) = 256). { rewrite A. change 1152921504606846976 with (bpow radix2 60). rewrite ulp_bpow. unfold fexp64. cbn. lra. } lra.
  - apply round_ge_generic; auto with typeclass_instances. lra.
Qed.

Section Bad.
Variable F : TF.
Notation NB := (B64_Num F).
Variable e : R.
Hypothesis He : unit_ok e.
Local Notation e_pos := (e_pos e He).
Ltac setup0 := pose proof e_pos as (E1 & E2 & E3); pose proof He as [_ Hb]; pose proof ulp1_val as U1; pose proof big_pos as Bp; pose proof big_1 as B1; pose proof tiny_pos as T0; pose proof (tiny_mul 1 ltac:(lra)) as T1; pose proof tiny_big as TB; pose proof huge_1 as H1; pose proof huge_inv as HI; pose proof big_huge as BH;
  revert B1; change (IZR (2 ^ 100)) with 1267650600228229401496703205376; intros B1; assert (Ib : 0 < / big) by (apply Rinv_0_lt_compat; lra).

Lemma usual_far : usual far (bofZ 1).
Proof.
  destruct far_R as [A Fa], (bofZ_R 1 ltac:(sm)) as [A1 F1]. pose proof big_pos. assert (/ big <= 1) by (rewrite <- Rinv_1; apply Rinv_le_contravar; lra).
  assert (1152921504606846976 <= big) by (unfold big; change 1152921504606846976 with (bpow radix2 60); apply bpow_le; lia). unfold usual, positive, finite. rewrite A, A1, Rabs_pos_eq by lra. repeat split; auto; lra.
Qed.
(** the location is lost when it is far larger than the scale: the round trip returns about a half *)
Lemma norm_lost : const_acc e (t_SQRT_2 F) (R_sqrt.sqrt 2) -> erf_acc F e -> erf_inv_acc F e ->
  within (6 * e) (pnorm (N:=NB) (qnorm (N:=NB) (blit (3#4)) far (bofZ 1)) far (bofZ 1) false) (1 / 2).
Proof.
  intros C E EI. setup0. destruct far_R as [A Fa], (bofZ_R 1 ltac:(sm)) as [A1 F1], q34_R as [A3 F3].
  rewrite (qnorm_fin F (blit (3#4)) far (bofZ 1) q34_prob Fa one_pos). destruct (erfarg_exact (blit (3#4)) q34_prob ltac:(lra)) as [Fx Rx]. rewrite A3 in Rx. set (x := bsub _ _) in *.
  destruct (erfR_surj (1 / 2)) as (y & Hy); [lra|]. pose proof (cond_erf 0 0 y) as Cy. rewrite Rmult_0_l, Rplus_0_l, erfR_0, Hy, Rabs_R0, Rminus_0_r, (Rabs_pos_eq (1 / 2)) in Cy by lra.
  assert (Y0 : 5 / 12 <= y). { destruct (Rle_lt_dec 0 y) as [N|N]; [rewrite (Rabs_pos_eq y) in Cy by auto; lra|]. apply erfR_slt in N. rewrite erfR_0 in N. lra. }
  pose proof (erf_size y (1 / 2) Hy ltac:(lra)) as Y1.
  assert (Rx' : erfR y = B2R x) by (rewrite Hy, Rx; lra). destruct (near_within _ _ _ _ (EI x y Fx Rx') ltac:(lra)) as [Fi Di]. set (v := t_erf_inv F x) in *. rewrite (Rabs_pos_eq y) in Di by lra. apply Rabs_le_inv in Di.
  assert (Ey : e * y <= / 1000000 * (63 / 10)) by (apply Rmult_le_compat; lra). assert (Ey0 : 0 <= e * y) by (apply Rmult_le_pos; lra).
  destruct (near_within _ _ _ _ C ltac:(lra)) as [Fc Dc]. assert (S2 : 1 <= R_sqrt.sqrt 2 <= 3 / 2). { split; [rewrite <- sqrt_1; apply sqrt_le_1; lra|]. apply Rsqr_incr_0_var; [|lra]. rewrite Rsqr_sqrt by lra. unfold Rsqr. lra. }
  rewrite (Rabs_pos_eq (R_sqrt.sqrt 2)) in Dc by lra. apply Rabs_le_inv in Dc. assert (e * R_sqrt.sqrt 2 <= / 1000000 * (3 / 2)) by (apply Rmult_le_compat; lra).
  assert (Z2 : rnd 2 = 2). { destruct (bofZ_R 2 ltac:(sm)) as [A2 F2]. rewrite <- A2. apply rnd_fmt, generic_format_B2R. }
  assert (Z16 : rnd 16 = 16). { destruct (bofZ_R 16 ltac:(sm)) as [A2 F2]. rewrite <- A2. apply rnd_fmt, generic_format_B2R. }
  assert (Z0 : rnd 0 = 0) by (unfold rnd; apply round_0; auto with typeclass_instances).
  destruct (bmul_R (t_SQRT_2 F) (bofZ 1) Fc F1) as [Em Fm]; [apply rnd_bound; rewrite A1; apply Rabs_le; lra|].
  assert (Cb : 0 <= B2R (bmul (t_SQRT_2 F) (bofZ 1)) <= 2). { rewrite Em, A1, Rmult_1_r. split; [rewrite <- Z0|rewrite <- Z2]; apply rnd_le; lra. }
  set (c := bmul (t_SQRT_2 F) (bofZ 1)) in *. assert (P : 0 <= B2R c * B2R v <= 16) by (split; [apply Rmult_le_pos; lra|apply Rle_trans with (2 * 8); [apply Rmult_le_compat; lra|lra]]).
  destruct (bmul_R c v Fm Fi) as [Ep Fp]; [apply rnd_bound; apply Rabs_le; lra|].
  destruct (far_add (bmul c v) Fp) as [Fq Rq]; [rewrite Ep; split; [rewrite <- Z0|rewrite <- Z16]; apply rnd_le; lra|].
  set (q := badd far (bmul c v)) in *. assert (Q0 : B2R q - B2R far = 0) by lra.
  pose proof (pnorm_acc F e He q far (bofZ 1) C E Fq Fa one_pos) as W. rewrite Q0 in W. unfold Rdiv in W. rewrite Rmult_0_l, Rabs_R0 in W. specialize (W ltac:(lra) ltac:(lra)).
  unfold norm_cdf in W. rewrite Q0 in W. unfold Rdiv in W. rewrite Rmult_0_l, erfR_0 in W. eapply within_le; [|apply Rle_refl]. replace (1 / 2) with (1 * / 2 * (1 + 0)) by lra. exact W.
Qed.
(** a quantile below the machine epsilon: the distribution function returns zero there *)
Lemma below_eps_gamma x shape scale : bfin x -> B2R x < ulp1 -> bpos shape -> big_eps scale -> pgamma (N:=NB) x shape scale false = bofZ 0.
Proof.
  intros Fx Lx Psh Bsc. destruct (big_eps_pos _ Bsc) as (Psc & Psc' & Esc). destruct eps_R as [Ee Fe]. destruct Psh as [Fsh Psh].
  unfold pgamma, gamma_sanity3, gamma_sanity2, any_nan2. rewrite (nan_nn F x), (nan_nn F shape), (nan_nn F scale) by (auto; apply nn_fin; auto; apply Psc').
  cbn [orb negb andb]. change (ltb shape (ofZ 0)) with (Bltb shape (bofZ 0)). rewrite lt0_f by (auto; lra).
  rewrite (proj2 (eps_lt_f F scale (nn_fin _ (proj1 Psc'))) Esc). cbn [orb negb andb].
  unfold all_posinf2. rewrite (posinf_fin F scale) by apply Psc'. rewrite andb_false_r.
  rewrite (proj2 (eps_lt F x (nn_fin _ Fx))); [reflexivity|]. rewrite !ev_fin by auto. lra.
Qed.
Lemma below_eps_weibull x shape scale : bfin x -> B2R x < ulp1 -> big_eps shape -> big_eps scale -> pweibull (N:=NB) x shape scale false = bofZ 0.
Proof.
  intros Fx Lx Bsh Bsc. destruct (big_eps_pos _ Bsc) as (Psc & Psc' & Esc), (big_eps_pos _ Bsh) as (Psh & Psh' & Esh). destruct eps_R as [Ee Fe].
  unfold pweibull, weibull_sanity3, weibull_sanity2, any_nan2. rewrite (nan_nn F x), (nan_nn F shape), (nan_nn F scale) by (auto; apply nn_fin; auto; apply Psh' || apply Psc').
  cbn [orb negb andb]. rewrite (proj2 (eps_lt_f F shape (nn_fin _ (proj1 Psh'))) Esh), (proj2 (eps_lt_f F scale (nn_fin _ (proj1 Psc'))) Esc).
  cbn [orb negb andb]. rewrite (proj2 (eps_lt F x (nn_fin _ Fx))); [reflexivity|]. rewrite !ev_fin by auto. lra.
Qed.
Lemma ln2_59 : / 2 <= ln 2 <= 9 / 10.
Proof.
  split; [|apply GammaBd.ln2_le]. pose proof (exp_ineq1_le (- ln 2)) as Q. rewrite exp_Ropp, exp_ln in Q; lra.
Qed.
Lemma exp_102 : exp (-100) <= ulp1 / 100.
Proof.
  pose proof (exp_ineq1_le 1) as A. assert (B : forall n, 2 ^ n <= exp (INR n)). { induction n as [|n IH]; [cbn; rewrite exp_0; lra|]. rewrite S_INR, exp_plus. cbn [Rpow_def.pow]. pose proof (exp_pos (INR n)). nra. }
  specialize (B 100%nat). replace (INR 100) with 100 in B by (cbn; lra). change (-100) with (Ropp 100). rewrite exp_Ropp, ulp1_val.
  apply Rle_trans with (/ 2 ^ 100); [apply Rinv_le_contravar; [|auto]|]; cbn [Rpow_def.pow]; lra.
Qed.
Lemma weibull_lost : log1p_acc F e -> pow_acc F e -> pweibull (N:=NB) (qweibull (N:=NB) (blit (1#2)) small (bofZ 1)) small (bofZ 1) false = bofZ 0.
Proof.
  intros HL HP. setup0. destruct small_R as [As Fs], (bofZ_R 1 ltac:(sm)) as [A1 F1], half_R as [Ah Fh].
  set (q := weibull_qf (/ 1024) 1 (/ 2)). assert (Eq : weibull_cdf (/ 1024) 1 q = / 2) by (apply weibull_cdf_qf; lra). assert (Q0 : 0 < q) by (apply weibull_qf_pos; lra).
  pose proof (weibull_log (/ 1024) 1 q (/ 2) ltac:(lra) ltac:(lra) Q0 Eq) as L. replace (1 - / 2) with (/ 2) in L by lra. rewrite ln_Rinv, Ropp_involutive in L by lra.
  assert (L2 : / 2 <= ln 2 <= 9 / 10) by exact ln2_59.
  assert (LL : - ln 2 <= ln (ln 2) <= - / 10). { split; [rewrite <- ln_Rinv by lra; apply ln_mono'; lra|]. pose proof (exp_ineq1_le (ln (ln 2))) as Q. rewrite exp_ln in Q; lra. }
  assert (Lq : -1000 <= ln (q / 1) <= -100) by lra. replace (q / 1) with q in Lq by field.
  assert (Qs : q <= ulp1 / 100). { rewrite <- (exp_ln q Q0). eapply Rle_trans; [|apply exp_102]. destruct (Req_dec (ln q) (-100)) as [->|]; [lra|left; apply exp_increasing; lra]. }
  pose proof (qweibull_acc F e He (blit (1#2)) small (bofZ 1) q HL HP half_prob) as N. rewrite As, A1, Ah in N. replace (q / 1) with q in N by field.
  assert (AL : Rabs (ln q) <= 1000) by (apply Rabs_le; lra). pose proof (Rabs_pos (ln q)).
  assert (UL : ulp1 * Rabs (ln q) <= ulp1 * 1000) by (apply Rmult_le_compat_l; lra). assert (UL0 : 0 <= ulp1 * Rabs (ln q)) by (apply Rmult_le_pos; lra).
  specialize (N ltac:(lra) small_eps one_eps ltac:(lra) Eq Q0 ltac:(lra) ltac:(lra) ltac:(lra) ltac:(lra)).
  destruct (near_within _ _ _ _ N ltac:(lra)) as [Fx Dx]. rewrite (Rabs_pos_eq q) in Dx by lra. apply Rabs_le_inv in Dx. set (K := 3 * e + 3 * e / / 1024 + 3 * ulp1 * Rabs (ln q)) in *.
  assert (KK : 0 <= K <= / 200) by (unfold K; lra). assert (K * q <= / 200 * q) by (apply Rmult_le_compat_r; lra).
  apply below_eps_weibull; auto using small_eps, one_eps. lra.
Qed.
Lemma pow_small : 9 / 10 <= Rpower (bpow radix2 (-60)) (/ 1024).
Proof.
  assert (L2 : / 2 <= ln 2 <= 9 / 10) by exact ln2_59. unfold Rpower. rewrite bpow_exp. cbn [radix_val radix2]. rewrite ln_exp. eapply Rle_trans; [|apply exp_ineq1_le]. lra.
Qed.
Lemma gamma_lost : incgamma_inv_acc F e -> pgamma (N:=NB) (qgamma (N:=NB) (blit (1#2)) small (bofZ 1)) small (bofZ 1) false = bofZ 0.
Proof.
  intros HG. setup0. destruct small_R as [As Fs], (bofZ_R 1 ltac:(sm)) as [A1 F1], half_R as [Ah Fh].
  set (a := / 1024). assert (Pa : 0 < a) by (unfold a; lra). pose proof (Gam_pos a Pa) as G. set (x := bpow radix2 (-60)). assert (X : 0 < x <= ulp1 / 100) by (split; [apply bpow_gt_0|rewrite U1; unfold x; cbn; lra]).
  assert (GU : a * Gam a <= 1 + a).
  { pose proof (Gam_upper a Pa) as Q. assert (gam_C (a + 1) <= 1). { unfold gam_C. apply exp_np. assert (ln (a + 1) <= a) by (pose proof (exp_ineq1_le (ln (a + 1))) as Z; rewrite exp_ln in Z by lra; lra). unfold a in *. nra. }
    apply Rle_trans with (a * (/ a + 1)); [apply Rmult_le_compat_l; lra|]. replace (a * (/ a + 1)) with (1 + a) by (field; lra). lra. }
  assert (PX : / 2 < PG a x).
  { eapply Rlt_le_trans; [|apply PG_low; auto; apply X]. assert (AG : 0 < a * Gam a) by now apply Rmult_lt_0_compat. pose proof pow_small as PS. fold a x in PS.
    pose proof (exp_ineq1_le (- x)) as EX. assert (9 / 10 * (99 / 100) <= Rpower x a * exp (- x)) by (apply Rmult_le_compat; lra).
    apply (Rmult_lt_reg_r (a * Gam a)); auto. unfold Rdiv. rewrite Rmult_assoc, Rinv_l by lra. unfold a in *. lra. }
  destruct (PG_surj a (/ 2) Pa ltac:(lra)) as (q & Q0 & Eq).
  assert (Qx : q < x). { destruct (Rlt_le_dec q x) as [|N]; auto. apply (PG_le a) in N; [|lra..]. lra. }
  pose proof (qgamma_acc F e He (blit (1#2)) small (bofZ 1) q HG half_prob small_pos one_eps) as N. rewrite As, A1, Ah in N. unfold gamma_cdf in N. replace (q / 1) with q in N by field.
  specialize (N ltac:(lra) ltac:(lra) ltac:(lra) Eq). destruct (near_within _ _ _ _ N ltac:(lra)) as [Fx Dx]. rewrite (Rabs_pos_eq q) in Dx by lra. apply Rabs_le_inv in Dx.
  assert ((e + ulp1) * q <= 1 * q) by (apply Rmult_le_compat_r; lra). apply below_eps_gamma; auto using small_pos, one_eps. lra.
Qed.
(** no double is a median of the beta distribution with shapes 1 and 1/1024 *)
Lemma beta_none x : incbeta_acc F e -> bfin x -> ~ within (/ 4) (pbeta (N:=NB) x (bofZ 1) small false) (/ 2).
Proof.
  intros HB Fx [Fw D]. setup0. destruct small_R as [As Fs], (bofZ_R 1 ltac:(sm)) as [A1 F1], (bofZ_R 0 ltac:(sm)) as [A0 F0]. apply Rabs_le_inv in D.
  assert (S : B2R x <= 0 \/ 1 <= B2R x -> pbeta (N:=NB) x (bofZ 1) small false = bofZ 0 \/ pbeta (N:=NB) x (bofZ 1) small false = bofZ 1).
  { intros Q. unfold pbeta, beta_sanity3. rewrite (nan_nn F x) by now apply nn_fin. change (beta_sanity2 (N:=NB) (bofZ 1) small) with true. cbn [negb andb].
    change (leb x (ofZ 0)) with (Bleb x (bofZ 0)). change (leb (ofZ 1) x) with (Bleb (bofZ 1) x). destruct Q as [Q|Q].
    - rewrite (proj2 (bleb_R x (bofZ 0) Fx F0)) by lra. now left.
    - rewrite (proj2 (bleb_R_f x (bofZ 0) Fx F0)), (proj2 (bleb_R (bofZ 1) x F1 Fx)) by lra. now right. }
  destruct (Rle_dec (B2R x) 0) as [C|C]; [destruct S as [-> | ->] in D; try tauto; lra|]. destruct (Rle_dec 1 (B2R x)) as [C2|C2]; [destruct S as [-> | ->] in D; try tauto; lra|].
  pose proof (pbeta_acc F e x (bofZ 1) small HB Fx ltac:(lra) one_pos small_pos) as N. destruct (near_within _ _ _ _ N ltac:(lra)) as [_ D2]. rewrite A1, As in D2. unfold beta_cdf in D2. rewrite IB_sym in D2 by lra.
  set (b := / 1024) in *. pose proof (below_1 x Fx ltac:(lra)) as LX. set (y := 1 - B2R x) in *. assert (Y : bpow radix2 (-60) <= y < 1). { split; [|unfold y; lra]. apply Rle_trans with (bpow radix2 (-53)); [apply bpow_le; lia|unfold y; lra]. }
  pose proof (bpow_gt_0 radix2 (-60)) as P60. pose proof (IB_lowbound b 1 y ltac:(unfold b; lra) ltac:(lra) ltac:(lra)) as LB.
  replace (1 - 1) with 0 in LB by ring. rewrite Rpower_O, Beta_sym, Beta_1, Rinv_r, Rmult_1_r in LB by (unfold b; lra).
  assert (LP : 9 / 10 <= Rpower y b). { eapply Rle_trans; [apply pow_small|]. apply Rle_Rpower_l; unfold b; lra. }
  pose proof (IB_range b 1 y ltac:(unfold b; lra) ltac:(lra) ltac:(lra)) as R1. replace (Rpower y b / 1) with (Rpower y b) in LB by field.
  set (I := IB b 1 y) in *. rewrite (Rabs_pos_eq (1 - I)) in D2 by lra. apply Rabs_le_inv in D2. assert (e * (1 - I) <= 1 * (1 - I)) by (apply Rmult_le_compat_r; lra). assert (1 - I <= / 10) by lra. assert (e * (1 - I) <= 1 * / 10) by (apply Rmult_le_compat; lra). lra.
Qed.
End Bad.
