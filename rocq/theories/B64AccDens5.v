(** Accuracy of the densities in double precision: binomial, Bernoulli, Student, Weibull, inverse Gaussian. *)
From Coq Require Import ZArith QArith Reals Bool Lra Lia.
From Verif Require Import Erf GammaFn BetaFn NormR Discrete Spec SpecSF.
From Verif Require Import Num Sanity Prob Dens B64 SpecB64 SpecB64D SpecAcc SpecAccD B64R B64Ord B64Cdf B64Cdf2 B64Cdf3 B64Mag B64Dens B64Dens2 B64Dens3 B64Dens4 B64Dens5 B64CR B64Acc B64AccCdf B64AccCdf3 B64AccW B64AccLog B64AccDens B64AccDens2 B64AccDens3 B64AccDens4.
From Flocq Require Import Core IEEE754.BinarySingleNaN.
Local Open Scope R_scope.
Notation exp := Rtrigo_def.exp.
Lemma choose_0 n : Binomial.C n 0 = 1.
Proof. unfold Binomial.C. rewrite Nat.sub_0_r. cbn [fact]. pose proof (INR_fact_lt_0 n). change (INR 1) with 1. field. lra. Qed.
Lemma choose_n n : Binomial.C n n = 1.
Proof. unfold Binomial.C. rewrite Nat.sub_diag. cbn [fact]. pose proof (INR_fact_lt_0 n). change (INR 1) with 1. field. lra. Qed.
Lemma bpow_small k : (k <= 900)%Z -> bpow radix2 k <= huge / 4.
Proof. intros. unfold huge. apply Rle_trans with (bpow radix2 998); [apply bpow_le; lia|]. replace 1000%Z with (998 + 2)%Z by lia. rewrite bpow_plus. right. change (bpow radix2 2) with 4. lra. Qed.
Section D.
Variable F : TF.
Notation NB := (B64_Num F).
Variable e : R.
Hypothesis He : unit_ok e.
Notation acc := (acc e).
Lemma gt1_f p : finite p -> B2R p < 1 -> Bltb (bofZ 1) p = false.
Proof. intros Fp H. destruct (ev_Z 1 ltac:(sm)) as [N1 E1]. apply (proj2 (ltb_ev_f (bofZ 1) p N1 (nn_fin _ Fp))). rewrite E1, ev_fin by auto. lra. Qed.
(** *** Bernoulli and Rademacher *)
Lemma bern_ok p : finite p -> 0 < B2R p < 1 -> bern_sanity (N:=NB) p = true.
Proof. intros Fp H. unfold bern_sanity. rewrite (nan_nn F p) by now apply nn_fin. rewrite inf_fin by auto. change (ltb p (ofZ 0)) with (Bltb p (bofZ 0)). rewrite lt0_f by (auto; lra). change (ltb (ofZ 1) p) with (Bltb (bofZ 1) p). now rewrite gt1_f. Qed.
Lemma pmf2_acc (v : b64) r : log_acc F e -> near (1 * e) 0 v r -> 0 < r -> Rabs (ln r) <= 1101 -> within (4 * e * (1 + Rabs (ln r))) (log_if (N:=NB) v true) (ln r) /\ near (1 * e) 0 (log_if (N:=NB) v false) r.
Proof.
  intros L N P B. split; [|exact N]. pose proof huge_2. pose proof (Rabs_pos (ln r)). destruct (acc_log F e He 1 (1 + Rabs (ln r)) v r L N ltac:(lra) P ltac:(lra) ltac:(lra)) as (A1 & A2 & _).
  split; [exact A1|]. eapply Rle_trans; [exact A2|]. right. ring.
Qed.
Lemma pmf2_p p : finite p -> 0 < B2R p < 1 -> near (1 * e) 0 p (B2R p) /\ Rabs (ln (B2R p)) <= 1101.
Proof. intros Fp H. split; [apply (near_s e He 0); [now apply near0|lra]|]. pose proof (ln_any p Fp ltac:(lra)). lra. Qed.
Lemma dbern_acc p x : log_acc F e -> finite p -> 0 < B2R p < 1 -> (x = 0 \/ x = 1)%Z ->
  within (4 * e * (1 + Rabs (ln (bern_pmf (B2R p) x)))) (dbern (N:=NB) x p true) (ln (bern_pmf (B2R p) x)) /\ near (1 * e) 0 (dbern (N:=NB) x p false) (bern_pmf (B2R p) x).
Proof.
  intros L Fp H Hx. unfold dbern. rewrite bern_ok by auto. cbn [negb]. destruct (one_minus_near e He p Fp H) as (N1 & _ & B1). destruct (pmf2_p p Fp H) as [N2 B2].
  destruct Hx as [-> | ->]; unfold dbern_compute, bern_pmf; cbn [Z.eqb Pos.eqb]; apply pmf2_acc; auto; lra.
Qed.
Lemma dradem_acc p x : log_acc F e -> finite p -> 0 < B2R p < 1 -> (x = -1 \/ x = 1)%Z ->
  within (4 * e * (1 + Rabs (ln (radem_pmf (B2R p) x)))) (dradem (N:=NB) x p true) (ln (radem_pmf (B2R p) x)) /\ near (1 * e) 0 (dradem (N:=NB) x p false) (radem_pmf (B2R p) x).
Proof.
  intros L Fp H Hx. unfold dradem. change (radem_sanity (N:=NB) p) with (bern_sanity (N:=NB) p). rewrite bern_ok by auto. cbn [negb]. destruct (one_minus_near e He p Fp H) as (N1 & _ & B1). destruct (pmf2_p p Fp H) as [N2 B2].
  destruct Hx as [-> | ->]; unfold dradem_compute, radem_pmf; cbn [Z.eqb Pos.eqb]; apply pmf2_acc; auto; lra.
Qed.
(** *** binomial *)
Lemma ln_binom_pmf n k p : (k <= n)%nat -> 0 < p < 1 -> ln (binom_pmf n p k) = ln (Binomial.C n k) + INR k * ln p + INR (n - k) * ln (1 - p) /\ 0 < binom_pmf n p k.
Proof.
  intros Hk Hp. unfold binom_pmf. rewrite (proj2 (Nat.leb_le k n) Hk). pose proof (C_pos n k). assert (0 < p ^ k) by (apply pow_lt; lra). assert (0 < (1 - p) ^ (n - k)) by (apply pow_lt; lra).
  assert (0 < Binomial.C n k * p ^ k) by now apply Rmult_lt_0_compat. split; [|now apply Rmult_lt_0_compat]. rewrite !ln_mult by auto. rewrite !ln_pow by lra. reflexivity.
Qed.
Lemma dbinom_acc n x p : log_binom_acc F e -> log_acc F e -> exp_up_acc F e -> (2 <= n <= 2 ^ 53)%Z -> (0 <= x <= n)%Z -> finite p -> 0 < B2R p < 1 ->
  let S := 3 + Rabs (ln (Binomial.C (Z.to_nat n) (Z.to_nat x))) + IZR x * (1 + Rabs (ln (B2R p))) + IZR (n - x) * (1 + Rabs (ln (1 - B2R p))) in
  S <= huge / 4 -> density_acc e 9 S (dbinom (N:=NB) x n p) (binom_pmf (Z.to_nat n) (B2R p) (Z.to_nat x)).
Proof.
  intros LB L X Hn Hx Fp Hp S HS. pose proof huge_2 as H2.
  assert (D : forall lf, dbinom (N:=NB) x n p lf = exp_if (N:=NB) (dbinom_log_compute (N:=NB) x n p) (negb lf)).
  { intros lf. unfold dbinom, binom_sanity. rewrite (nan_nn F p) by now apply nn_fin. rewrite inf_fin by auto. rewrite (proj2 (Z.ltb_ge n 0)) by lia. change (ltb p (ofZ 0)) with (Bltb p (bofZ 0)). rewrite lt0_f by (auto; lra).
    change (ltb (ofZ 1) p) with (Bltb (bofZ 1) p). rewrite gt1_f by (auto; lra). cbn [negb]. rewrite (proj2 (Z.ltb_ge x 0)), (proj2 (Z.ltb_ge n x)) by lia. cbn [orb].
    rewrite (proj2 (Z.eqb_neq n 0)), (proj2 (Z.eqb_neq n 1)) by lia. reflexivity. }
  destruct (ln_binom_pmf (Z.to_nat n) (Z.to_nat x) (B2R p) ltac:(lia) Hp) as [EL EP]. rewrite <- Z2Nat.inj_sub in EL by lia. rewrite !INR_IZR_INZ, !Z2Nat.id in EL by lia.
  eapply acc_dens; [exact X| |lra|exact EP|rewrite D; cbn [exp_if negb]; reflexivity|now rewrite D]. rewrite EL. clear EL EP D.
  set (c0 := ln (Binomial.C (Z.to_nat n) (Z.to_nat x))) in *. pose proof (Rabs_pos c0) as Q0. pose proof (Rabs_pos (ln (B2R p))) as Q1. pose proof (Rabs_pos (ln (1 - B2R p))) as Q2.
  assert (X0 : 0 <= IZR x) by (apply (IZR_le 0); lia). assert (X1 : 0 <= IZR (n - x)) by (apply (IZR_le 0); lia).
  set (a1 := IZR x * (1 + Rabs (ln (B2R p)))) in *. set (a2 := IZR (n - x) * (1 + Rabs (ln (1 - B2R p)))) in *.
  assert (P1 : 0 <= a1) by (unfold a1; apply Rmult_le_pos; lra). assert (P2 : 0 <= a2) by (unfold a2; apply Rmult_le_pos; lra). unfold S in HS. assert (ES : S = ((1 + Rabs c0) + (1 + a1)) + (1 + a2)) by (unfold S; ring).
  assert (A1 : acc 5 (1 + a1) (bmul (bofZ x) (t_log F p)) (IZR x * ln (B2R p))).
  { replace 5 with (2 * 0 + 5) by lra. unfold a1. rewrite <- (Rabs_pos_eq (IZR x)) at 1 by lra. apply (acc_clog F e He); auto; try lra; [apply near0Z; lia|split; auto; lra|]. rewrite Rabs_pos_eq by lra. fold a1. lra. }
  assert (A2 : acc 7 (1 + a2) (bmul (bofZ (n - x)) (t_log F (bsub (bofZ 1) p))) (IZR (n - x) * ln (1 - B2R p))).
  { apply (acc_le e He (2 * 0 + 6) (1 + a2)); try lra. unfold a2. rewrite <- (Rabs_pos_eq (IZR (n - x))) at 1 by lra. apply (acc_clog1 F e He); auto; try lra; [apply near0Z; lia|]. rewrite Rabs_pos_eq by lra. fold a2. lra. }
  unfold dbinom_log_compute. destruct (Z.eqb_spec x 0) as [E|E].
  - assert (Z0 : c0 = 0). { unfold c0. rewrite E. cbn [Z.to_nat]. rewrite choose_0. apply ln_1. }
    replace (c0 + IZR x * ln (B2R p) + IZR (n - x) * ln (1 - B2R p)) with (IZR (n - x) * ln (1 - B2R p)) by (rewrite Z0, E; ring). replace n with (n - x)%Z at 1 by lia. rewrite ES. apply (acc_le e He 7 (1 + a2)); auto; lra.
  - destruct (Z.eqb_spec x n) as [E'|E'].
    + assert (Z0 : c0 = 0). { unfold c0. rewrite E', choose_n. apply ln_1. }
      replace (c0 + IZR x * ln (B2R p) + IZR (n - x) * ln (1 - B2R p)) with (IZR x * ln (B2R p)) by (rewrite Z0, E', Z.sub_diag; ring). rewrite ES. apply (acc_le e He 5 (1 + a1)); auto; lra.
    + assert (A0 : acc 5 (1 + Rabs c0) (t_log_binom F n x) c0).
      { apply (acc_le e He (1 + 1) (1 + Rabs c0)); try lra. apply (acc_near e He 1); try lra. rewrite Rmult_1_l. apply LB; lia. }
      rewrite ES. replace 9 with (7 + 2) by lra. apply (acc_add e He 7); auto; try lra. replace 7 with (5 + 2) by lra. apply (acc_add e He 5); auto; lra.
Qed.
(** *** Student *)
Lemma ln_t_pdf n x : 0 < n -> ln (t_pdf n x) = ln (Gam ((n + 1) / 2)) - / 2 * (ln n + ln Rtrigo1.PI) - ln (Gam (n / 2)) + - ((n + 1) / 2) * ln (1 + x / n * x) /\ 0 < t_pdf n x.
Proof.
  intros Hn. pose proof (Gam_pos ((n + 1) / 2) ltac:(lra)) as G1. pose proof (Gam_pos (n / 2) ltac:(lra)) as G2. pose proof PI_RGT_0 as P. assert (NP : 0 < n * Rtrigo1.PI) by now apply Rmult_lt_0_compat.
  assert (SQ : R_sqrt.sqrt (n * Rtrigo1.PI) = exp (/ 2 * (ln n + ln Rtrigo1.PI))). { rewrite <- ln_mult by auto. rewrite <- Rpower_sqrt by auto. reflexivity. }
  assert (E : t_pdf n x = exp (ln (Gam ((n + 1) / 2)) - / 2 * (ln n + ln Rtrigo1.PI) - ln (Gam (n / 2)) + - ((n + 1) / 2) * ln (1 + x / n * x))).
  { unfold t_pdf, Rpower. rewrite SQ. replace (1 + x ^ 2 / n) with (1 + x / n * x) by (field; lra). rewrite exp_plus. f_equal. unfold Rminus. rewrite !exp_plus, !exp_Ropp, !exp_ln by auto. field. split; [lra|]. pose proof (exp_pos (/ 2 * (ln n + ln Rtrigo1.PI))). lra. }
  rewrite E. split; [apply ln_exp|apply exp_pos].
Qed.
Lemma zdz_acc x d : finite x -> finite d -> ulp1 <= B2R d -> Rabs (B2R x) <= bpow radix2 400 ->
  acc 3 (1 + B2R x / B2R d * B2R x) (bmul (bdiv x d) x) (B2R x / B2R d * B2R x) /\ 0 <= B2R x / B2R d * B2R x <= bpow radix2 852.
Proof.
  intros Fx Fd Hd Hx. destruct (e_r e He) as (U1 & U2 & U3 & U4). pose proof huge_2 as H2. pose proof ulp1_val as UV.
  assert (Q : Rabs (B2R x / B2R d) <= bpow radix2 452).
  { unfold Rdiv. rewrite Rabs_mult, Rabs_inv, (Rabs_pos_eq (B2R d)) by lra. change 452%Z with (400 + 52)%Z. rewrite bpow_plus. apply Rmult_le_compat; auto; try apply Rabs_pos; [left; apply Rinv_0_lt_compat; lra|].
    replace (bpow radix2 52) with (/ ulp1) by (unfold ulp1; rewrite <- bpow_opp; reflexivity). apply Rinv_le_contravar; lra. }
  pose proof (bpow_small 452 ltac:(lia)) as B4. pose proof (bpow_small 852 ltac:(lia)) as B8. pose proof (bpow_small 400 ltac:(lia)) as B40.
  assert (R0 : 0 <= B2R x / B2R d * B2R x). { replace (B2R x / B2R d * B2R x) with (Rsqr (B2R x) / B2R d) by (unfold Rsqr; field; lra). apply Rmult_le_pos; [apply Rle_0_sqr|left; apply Rinv_0_lt_compat; lra]. }
  assert (R1 : Rabs (B2R x / B2R d * B2R x) <= bpow radix2 852). { change 852%Z with (452 + 400)%Z. rewrite bpow_plus. now apply abs_prod. }
  rewrite Rabs_pos_eq in R1 by auto. split; [|split; [exact R0|exact R1]].
  pose proof (near_div0 x d Fx ltac:(lra) ltac:(lra)) as N1. set (q0 := B2R x / B2R d) in *.
  assert (T : 2 * tiny * Rabs (B2R x) <= tiny * bpow radix2 401). { change 401%Z with (400 + 1)%Z. rewrite bpow_plus. change (bpow radix2 1) with 2. pose proof tiny_pos. nra. }
  assert (T' : tiny * bpow radix2 401 <= ulp1 / 1000000). { unfold tiny, ulp1. rewrite <- bpow_plus. apply Rle_trans with (bpow radix2 (-52 + -20)); [apply bpow_le; lia|]. rewrite bpow_plus. apply Rmult_le_compat_l; [apply bpow_ge_0|]. cbn. lra. }
  assert (N2 := near_mul ulp1 tiny 0 (tiny * bpow radix2 401) _ _ _ _ N1 (near_exact x Fx) ltac:(lra) ltac:(rewrite Rabs_pos_eq by exact R0; lra) T ltac:(lra)).
  split; [apply N2|]. destruct (near_within _ _ _ _ N2 ltac:(lra)) as [_ W]. rewrite (Rabs_pos_eq (q0 * B2R x)) in * by exact R0. split; [|split; lra].
  eapply Rle_trans; [exact W|]. assert (ulp1 * (q0 * B2R x) <= e * (q0 * B2R x)) by (apply Rmult_le_compat_r; auto). assert (0 <= e * (q0 * B2R x)) by (apply Rmult_le_pos; lra). lra.
Qed.
Lemma dt_fin x dof lf : finite x -> finite dof -> Bleb beps dof = true -> dt (N:=NB) x dof lf =
  exp_if (N:=NB) (badd (bsub (bsub (t_lgamma F (badd (bdiv dof (bofZ 2)) (blit (1#2)))) (bmul (blit (1#2)) (badd (t_log F dof) (t_LOG_PI F)))) (t_lgamma F (bdiv dof (bofZ 2))))
     (bmul (Bopp (badd (bdiv dof (bofZ 2)) (blit (1#2)))) (t_log F (badd (bofZ 1) (bmul (bdiv x dof) x))))) (negb lf).
Proof.
  intros Fx Fd H. unfold dt, t_sanity2, t_sanity1. rewrite (nan_nn F x), (nan_nn F dof) by now apply nn_fin. cbn [negb andb]. change (ltb dof epsilon) with (Bltb dof beps).
  assert (E : Bltb dof beps = false) by (apply leb_ev in H; apply ltb_ev_f; tauto). rewrite E. cbn [negb]. rewrite inf_fin, posinf_fin by auto. reflexivity.
Qed.
Lemma dt_acc x dof : const_acc e (t_LOG_PI F) (ln Rtrigo1.PI) -> lgamma_acc F e -> log_acc F e -> exp_up_acc F e -> finite x -> finite dof -> Bleb beps dof = true -> B2R dof <= bpow radix2 900 ->
  Rabs (B2R x) <= bpow radix2 400 -> B2R (badd (bdiv dof (bofZ 2)) (blit (1#2))) = (B2R dof + 1) / 2 ->
  let S := 5 + Rabs (ln (Gam ((B2R dof + 1) / 2))) + Rabs (ln (Gam (B2R dof / 2))) + Rabs (ln (B2R dof)) + (B2R dof + 1) / 2 * (1 + ln (1 + B2R x / B2R dof * B2R x)) in
  S <= huge / 4 -> density_acc e 27 S (dt (N:=NB) x dof) (t_pdf (B2R dof) (B2R x)).
Proof.
  intros C LG L X Fx Fd Hb B9 Hx EX S HS. pose proof huge_2 as H2. destruct eps_R as [Eb Fb]. pose proof ulp1_val as UV. pose proof (bpow_small 900 ltac:(lia)) as B9'.
  assert (Hd : ulp1 <= B2R dof) by (apply leb_ev in Hb; destruct Hb as (_ & _ & Hb); rewrite !ev_fin in Hb by auto; lra).
  assert (Pd : bpos dof) by (split; [exact Fd|lra]). destruct (zdz_acc x dof Fx Fd Hd Hx) as [AZ RZ]. pose proof (bpow_small 852 ltac:(lia)) as B85.
  assert (HI : / huge <= ulp1) by (rewrite UV; apply Rinv_le_contravar; [lra|]; unfold huge; apply Rle_trans with (bpow radix2 52); [cbn; lra|apply bpow_le; lia]).
  destruct (half_div dof Fd ltac:(lra)) as [Fh Eh]. set (h := bdiv dof (bofZ 2)) in *. destruct half_R as [Hf Hr].
  assert (Fa : finite (badd h (blit (1#2)))) by (apply (near_add h (blit (1#2)) Fh Hf); rewrite Eh, Hr, Rabs_pos_eq; lra). set (a := badd h (blit (1#2))) in *.
  destruct (ln_t_pdf (B2R dof) (B2R x) ltac:(lra)) as [EL EP].
  eapply acc_dens; [exact X| |lra|exact EP|rewrite dt_fin by auto; cbn [exp_if negb]; reflexivity|now rewrite dt_fin by auto]. fold h. fold a. rewrite EL. clear EL EP.
  set (r := B2R x / B2R dof * B2R x) in *. assert (L0 : 0 <= ln (1 + r)) by (rewrite <- ln_1; apply ln_mono; lra).
  set (A0 := (B2R dof + 1) / 2) in *. assert (HA : 0 < A0) by (unfold A0; lra).
  pose proof (Rabs_pos (ln (Gam A0))) as Q1. pose proof (Rabs_pos (ln (Gam (B2R dof / 2)))) as Q2. pose proof (Rabs_pos (ln (B2R dof))) as Q3.
  set (g1 := Rabs (ln (Gam A0))) in *. set (g2 := Rabs (ln (Gam (B2R dof / 2)))) in *. set (g3 := Rabs (ln (B2R dof))) in *.
  set (m := A0 * (1 + ln (1 + r))) in *. assert (P4 : 0 <= m) by (unfold m; apply Rmult_le_pos; lra). unfold S in HS.
  assert (A1 : acc 7 (1 + g1) (t_lgamma F a) (ln (Gam A0))).
  { apply (acc_le e He 2 (1 + g1)); try lra. unfold g1. rewrite <- EX. apply (acc_lgam F e He); auto; [split; [exact Fa|lra]|rewrite EX; unfold A0; pose proof (bpow_ge_0 radix2 900); assert (1 <= bpow radix2 900) by (apply (bpow_le radix2 0); lia); lra|rewrite EX; fold g1; lra]. }
  assert (A2 : acc 7 (2 + g3) (bmul (blit (1#2)) (badd (t_log F dof) (t_LOG_PI F))) (/ 2 * (ln (B2R dof) + ln Rtrigo1.PI))).
  { assert (LP : Rabs (ln Rtrigo1.PI) <= 2). { pose proof PI_RGT_0. pose proof PI2_1. pose proof PI_4. rewrite Rabs_pos_eq by (rewrite <- ln_1; apply ln_mono; lra). apply Rle_trans with (ln (exp 2)); [apply ln_mono; auto|rewrite ln_exp; lra]. pose proof (exp_ineq1_le 1). replace 2 with (1 + 1) by lra. rewrite exp_plus. nra. }
    replace 7 with ((3 + 2) + 2 * 0 + 2) by lra. apply (acc_mul e He (3 + 2) 0 ((1 + g3) + 2) _ _ _ _ _ (near0h e)); try lra; [|rewrite Rabs_pos_eq; lra].
    apply (acc_add e He 3); try lra; [unfold g3; now apply (acc_lg F e He)|]. apply (acc_le e He 2 2); try lra. apply acc_const; auto; lra. }
  assert (A3 : acc 9 (1 + g2) (t_lgamma F h) (ln (Gam (B2R dof / 2)))).
  { apply (acc_le e He 2 (1 + g2)); try lra. unfold g2. rewrite <- Eh. apply (acc_lgam F e He); auto; [split; [exact Fh|lra]|lra|rewrite Eh; fold g2; lra]. }
  assert (N1 : near (20 * e) 0 (badd (bofZ 1) (bmul (bdiv x dof) x)) (1 + r)).
  { destruct (bofZ_R 1 ltac:(sm)) as [B1 F1]. assert (AO : acc 3 1 (bofZ 1) 1). { apply (acc_le e He 1 1); try lra. rewrite <- B1 at 3. apply acc_exact; auto; try lra. rewrite B1, Rabs_pos_eq; lra. }
    replace (20 * e) with (2 * 2 * 5 * e) by ring. apply (near_of_acc e He 5 2 (1 + (1 + r))); try lra. replace 5 with (3 + 2) by lra. apply (acc_add e He 3); auto; lra. }
  assert (A4 : acc 25 (1 + m) (bmul (Bopp a) (t_log F (badd (bofZ 1) (bmul (bdiv x dof) x)))) (- A0 * ln (1 + r))).
  { replace 25 with ((20 + 3) + 2 * 0 + 2) by lra. assert (LB : ln (1 + r) <= huge / 2 - 1). { apply Rle_trans with r; [|lra]. destruct (Req_dec r 0) as [-> | NZ]; [rewrite Rplus_0_r, ln_1; lra|]. left. apply exp_lt_inv. rewrite exp_ln by lra. apply exp_ineq1. auto. }
    apply (acc_mul e He (20 + 3) 0 (1 + ln (1 + r)) (1 + m) (Bopp a)); try lra; [| |rewrite Rabs_Ropp, Rabs_pos_eq; unfold m; lra].
    - rewrite <- EX. rewrite <- B2R_Bopp. apply near0. unfold finite. now rewrite is_finite_Bopp.
    - apply (acc_log F e He 20 (1 + ln (1 + r)) _ _ L N1); try lra. rewrite Rabs_pos_eq; lra. }
  replace 27 with (25 + 2) by lra. replace S with ((((1 + g1) + (2 + g3)) + (1 + g2)) + (1 + m)) by (unfold S; ring).
  apply (acc_add e He 25); auto; try lra. apply (acc_le e He (9 + 2) (((1 + g1) + (2 + g3)) + (1 + g2))); try lra. apply (acc_sub e He 9); auto; try lra. replace 9 with (7 + 2) by lra. apply (acc_sub e He 7); auto; lra.
Qed.
End D.
