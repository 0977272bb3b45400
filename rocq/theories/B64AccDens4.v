(** Accuracy of the densities in double precision: chi-squared, beta, Student, and the mass functions. *)
From Coq Require Import ZArith QArith Reals Bool Lra Lia.
From Verif Require Import Erf GammaFn BetaFn NormR Spec SpecSF.
From Verif Require Import Num Sanity Prob Dens B64 SpecB64 SpecB64D SpecAcc SpecAccD B64R B64Ord B64Cdf B64Cdf2 B64Cdf3 B64Mag B64Dens B64Dens2 B64Dens3 B64Dens4 B64Dens5 B64CR B64Acc B64AccCdf B64AccW B64AccLog B64AccDens B64AccDens2 B64AccDens3.
From Flocq Require Import Core Mult_error IEEE754.BinarySingleNaN.
Local Open Scope R_scope.
Notation exp := Rtrigo_def.exp.
(** halving is exact above the smallest numbers *)
Lemma half_round x : finite x -> / huge <= B2R x <= huge -> rnd (B2R x / 2) = B2R x / 2 /\ Rabs (rnd (B2R x / 2)) < maxR.
Proof.
  intros Fx [H1 H2]. pose proof huge_pos. pose proof huge_max. assert (0 < / huge) by now apply Rinv_0_lt_compat.
  assert (E : rnd (B2R x / 2) = B2R x / 2).
  { apply round_generic; [apply valid_rnd_N|]. replace (B2R x / 2) with (B2R x * bpow radix2 (-1)) by (cbn; lra). apply (mult_bpow_exact_FLT radix2 (-1074) 53); [apply generic_format_B2R|].
    assert (-999 <= mag radix2 (B2R x))%Z; [|lia]. apply mag_ge_bpow. rewrite Rabs_pos_eq by lra. replace (-999 - 1)%Z with (- (1000))%Z by lia. rewrite bpow_opp. exact H1. }
  split; auto. rewrite E, Rabs_pos_eq; lra.
Qed.
Lemma half_mul x : finite x -> / huge <= B2R x <= huge -> finite (bmul (blit (1#2)) x) /\ B2R (bmul (blit (1#2)) x) = B2R x / 2.
Proof.
  intros Fx H. destruct (half_round x Fx H) as [E L]. destruct half_R as [Hf Hr]. replace (B2R x / 2) with (B2R (blit (1#2)) * B2R x) in E, L by (rewrite Hr; lra). destruct (bmul_R _ _ Hf Fx L) as [A B]. split; auto. rewrite A, E, Hr. lra.
Qed.
Lemma half_div x : finite x -> / huge <= B2R x <= huge -> finite (bdiv x (bofZ 2)) /\ B2R (bdiv x (bofZ 2)) = B2R x / 2.
Proof.
  intros Fx H. destruct (half_round x Fx H) as [E L]. destruct (bofZ_R 2 ltac:(sm)) as [A2 F2]. rewrite <- A2 in E, L. destruct (bdiv_R x (bofZ 2) Fx ltac:(rewrite A2; lra) L) as [A B]. split; auto. rewrite A, E, A2. lra.
Qed.
Section D.
Variable F : TF.
Notation NB := (B64_Num F).
Variable e : R.
Hypothesis He : unit_ok e.
Notation acc := (acc e).
Lemma acc_const c r S : const_acc e c r -> Rabs r <= S -> 1 <= S <= huge -> acc 2 S c r.
Proof. intros C H HS. replace 2 with (1 + 1) by lra. apply (acc_near e He 1); auto; try lra. rewrite Rmult_1_l. eapply near_le; [exact C|lra|apply Rlt_le, tiny_pos]. Qed.
Lemma acc_exact x S : finite x -> Rabs (B2R x) <= S -> 1 <= S <= huge -> acc 1 S x (B2R x).
Proof. intros Fx H HS. replace 1 with (0 + 1) by lra. apply (acc_near e He 0); auto; try lra. apply near_t. now apply near0. Qed.
(** *** chi-squared *)
Lemma chisq_gamma_pdf n x : chisq_pdf n x = gamma_pdf (n / 2) 2 x. Proof. reflexivity. Qed.
Lemma dchisq_fin x dof lf : bpos x -> bpos dof -> dchisq (N:=NB) x dof lf =
  exp_if (N:=NB) (bsub (badd (bsub (Bopp (t_lgamma F (bmul (blit (1#2)) dof))) (bmul (bmul (blit (1#2)) dof) (t_LOG_2 F))) (bmul (bsub (bmul (blit (1#2)) dof) (bofZ 1)) (t_log F x))) (bdiv x (bofZ 2))) (negb lf).
Proof.
  intros Px Pd. pose proof Px as [Fx Px']. pose proof Pd as [Fd Pd'].
  unfold dchisq, chisq_sanity2, chisq_sanity1. rewrite (nan_nn F x), (nan_nn F dof) by now apply nn_fin. cbn [negb andb].
  change (ltb dof (ofZ 0)) with (Bltb dof (bofZ 0)). rewrite lt0_f by (auto; lra). cbn [negb].
  change (ltb x (ofZ 0)) with (Bltb x (bofZ 0)). change (eqb x (ofZ 0)) with (Beqb x (bofZ 0)). unfold any_posinf2. rewrite lt0_f by (auto; lra). rewrite eq0_f by auto.
  rewrite (bpos_not_inf dof F Pd), (bpos_not_inf x F Px). reflexivity.
Qed.
Lemma dchisq_acc x dof : const_acc e (t_LOG_2 F) (ln 2) -> lgamma_acc F e -> log_acc F e -> exp_up_acc F e -> bpos x -> bpos dof -> / huge <= B2R dof <= bpow radix2 900 ->
  let S := 4 + Rabs (ln (Gam (B2R dof / 2))) + B2R dof / 2 + Rabs (B2R dof / 2 - 1) * (1 + Rabs (ln (B2R x))) + B2R x / 2 in
  S <= huge / 4 -> density_acc e 11 S (dchisq (N:=NB) x dof) (chisq_pdf (B2R dof) (B2R x)).
Proof.
  intros C LG L X Px Pd Bd S HS. pose proof huge_2 as H2. pose proof Px as [Fx Px']. pose proof Pd as [Fd Pd']. assert (B9 : bpow radix2 900 <= huge) by (apply bpow_le; lia).
  destruct (half_mul dof Fd ltac:(lra)) as [Fh Eh]. assert (Ph : bpos (bmul (blit (1#2)) dof)) by (split; [exact Fh|lra]).
  rewrite chisq_gamma_pdf. destruct (ln_gamma_pdf (B2R dof / 2) 2 (B2R x) ltac:(lra) ltac:(lra) Px') as [EL EP].
  eapply acc_dens; [exact X| |lra|exact EP|rewrite dchisq_fin by auto; cbn [exp_if negb]; reflexivity|now rewrite dchisq_fin by auto].
  rewrite EL. clear EL EP. set (h := bmul (blit (1#2)) dof) in *.
  assert (ES : S = 4 + Rabs (ln (Gam (B2R h))) + B2R h + Rabs (B2R h - 1) * (1 + Rabs (ln (B2R x))) + B2R x / 2) by (unfold S; rewrite Eh; reflexivity). clearbody S. rewrite <- Eh.
  pose proof (Rabs_pos (ln (Gam (B2R h)))) as Q1. pose proof (Rabs_pos (B2R h - 1)) as Q2. pose proof (Rabs_pos (ln (B2R x))) as Q3. destruct (bofZ_R 2 ltac:(sm)) as [A2' F2].
  set (a1 := Rabs (ln (Gam (B2R h)))) in *. set (a3 := Rabs (B2R h - 1) * (1 + Rabs (ln (B2R x)))) in *. set (a4 := B2R x / 2) in *.
  rewrite ES in HS.
  assert (P3 : 0 <= a3) by (unfold a3; apply Rmult_le_pos; lra). assert (P4 : 0 <= a4) by (unfold a4; lra). assert (P2 : 0 < B2R h) by lra.
  assert (M1 : Rabs (B2R h - 1) <= a3). { unfold a3. rewrite <- (Rmult_1_r (Rabs (B2R h - 1))) at 1. apply Rmult_le_compat_l; lra. }
  assert (A1 : acc 4 (1 + a1) (Bopp (t_lgamma F h)) (- ln (Gam (B2R h)))) by (apply acc_opp; apply (acc_le e He 2 (1 + a1)); try lra; apply (acc_lgam F e He); auto; try lra; fold a1; lra).
  assert (A2 : acc 4 (1 + B2R h) (bmul h (t_LOG_2 F)) (B2R h * ln 2)).
  { replace 4 with (2 + 2 * 0 + 2) by lra. pose proof ln2_01. apply (acc_mul e He 2 0 1 _ _ _ _ _ (near0 e h Fh)); try lra; try lra; [apply acc_const; auto; try lra; rewrite Rabs_pos_eq; lra|rewrite Rabs_pos_eq; lra]. }
  assert (A3 : acc 7 (1 + a3) (bmul (bsub h (bofZ 1)) (t_log F x)) ((B2R h - 1) * ln (B2R x))).
  { replace 7 with (2 * 1 + 5) by lra. apply (acc_clog F e He); auto; try lra; [|fold a3; lra]. apply (near_m1 e He); auto. apply Rabs_le; lra. }
  assert (A4 : acc 9 (1 + a4) (bdiv x (bofZ 2)) a4).
  { apply (acc_le e He 2 (1 + a4)); try lra. assert (X0 : 0 <= B2R x) by lra. assert (P0 : bpos (bofZ 2)) by (split; [exact F2|rewrite A2'; lra]). assert (D0 : B2R x / B2R (bofZ 2) <= huge / 4) by (rewrite A2'; fold a4; lra).
    pose proof (acc_quot e He x (bofZ 2) Fx X0 P0 D0) as Q. rewrite A2' in Q. exact Q. }
  replace 11 with (9 + 2) by lra. rewrite ES. replace (4 + a1 + B2R h + a3 + a4) with ((((1 + a1) + (1 + B2R h)) + (1 + a3)) + (1 + a4)) by ring.
  apply (acc_sub e He 9); auto; try lra. replace 9 with (7 + 2) by lra. apply (acc_add e He 7); auto; try lra. apply (acc_le e He (4 + 2) ((1 + a1) + (1 + B2R h))); try lra. apply (acc_sub e He 4); auto; lra.
Qed.
(** *** beta *)
Lemma ln_beta_pdf a b x : 0 < a -> 0 < b -> 0 < x < 1 -> ln (beta_pdf a b x) = - (ln (Gam a) + ln (Gam b) - ln (Gam (a + b))) + (a - 1) * ln x + (b - 1) * ln (1 - x) /\ 0 < beta_pdf a b x.
Proof.
  intros Ha Hb Hx. pose proof (Gam_pos a Ha) as Ga. pose proof (Gam_pos b Hb) as Gb. pose proof (Gam_pos (a + b) ltac:(lra)) as Gab.
  assert (EB : Beta a b = Gam a * Gam b / Gam (a + b)) by (rewrite <- Beta_Gam by auto; field; lra).
  assert (E : beta_pdf a b x = exp (- (ln (Gam a) + ln (Gam b) - ln (Gam (a + b))) + (a - 1) * ln x + (b - 1) * ln (1 - x))).
  { rewrite !exp_plus. unfold beta_pdf, Rpower. f_equal. f_equal. rewrite EB, exp_Ropp. replace (ln (Gam a) + ln (Gam b) - ln (Gam (a + b))) with (ln (Gam a) + ln (Gam b) + - ln (Gam (a + b))) by ring.
    rewrite !exp_plus, exp_Ropp, !exp_ln by auto. field. repeat split; lra. }
  rewrite E. split; [apply ln_exp|apply exp_pos].
Qed.
Lemma one_minus_near p : finite p -> 0 < B2R p < 1 -> near (1 * e) 0 (bsub (bofZ 1) p) (1 - B2R p) /\ acc 4 (1 + Rabs (ln (1 - B2R p))) (bsub (bofZ 1) p) (1 - B2R p) /\ Rabs (ln (1 - B2R p)) <= 1101.
Proof.
  intros Fp Hp. destruct (bofZ_R 1 ltac:(sm)) as [B1 F1]. pose proof huge_2 as H2. destruct (e_r e He) as (U1 & U2 & U3 & U4). pose proof ulp1_val.
  assert (N : near ulp1 0 (bsub (bofZ 1) p) (1 - B2R p)) by (replace (1 - B2R p) with (B2R (bofZ 1) - B2R p) by lra; apply near_sub; auto; rewrite B1, Rabs_pos_eq; lra).
  assert (LB : Rabs (ln (1 - B2R p)) <= 1101).
  { destruct N as (Fy & t & s & T & Hs & E). apply abs_le0 in Hs. subst s. rewrite Rplus_0_r in E. assert (Py : 0 < B2R (bsub (bofZ 1) p)) by (rewrite E; apply Rmult_lt_0_compat; [lra|apply exp_pos]).
    pose proof (ln_any _ Fy Py) as Q. rewrite E, ln_mult, ln_exp in Q by (try apply exp_pos; lra). replace (ln (1 - B2R p)) with ((ln (1 - B2R p) + t) + - t) by ring. eapply Rle_trans; [apply Rabs_triang|]. rewrite Rabs_Ropp. lra. }
  pose proof (Rabs_pos (ln (1 - B2R p))). split; [now apply (near1 e He)|]. split; [|auto]. apply (acc_le e He 2 (1 + Rabs (ln (1 - B2R p)))); try lra. replace 2 with (1 + 1) by lra. apply (acc_near e He 1); try lra; [apply near_t; now apply (near1 e He)|rewrite Rabs_pos_eq; lra].
Qed.
Lemma acc_clog1 kc c c0 p : log_acc F e -> near (kc * e) 0 c c0 -> 0 <= kc <= 10 -> finite p -> 0 < B2R p < 1 -> 1 + Rabs c0 * (1 + Rabs (ln (1 - B2R p))) <= huge ->
  acc (2 * kc + 6) (1 + Rabs c0 * (1 + Rabs (ln (1 - B2R p)))) (bmul c (t_log F (bsub (bofZ 1) p))) (c0 * ln (1 - B2R p)).
Proof.
  intros L N K Fp Hp H. destruct (one_minus_near p Fp Hp) as (N1 & _ & LB). pose proof huge_2 as H2. pose proof (Rabs_pos c0). pose proof (Rabs_pos (ln (1 - B2R p))). assert (0 <= Rabs c0 * (1 + Rabs (ln (1 - B2R p)))) by (apply Rmult_le_pos; lra).
  pose proof (acc_log F e He 1 (1 + Rabs (ln (1 - B2R p))) _ _ L N1 ltac:(lra) ltac:(lra) ltac:(lra) ltac:(lra)) as A.
  replace (2 * kc + 6) with ((1 + 3) + 2 * kc + 2) by ring. apply (acc_mul e He (1 + 3) kc (1 + Rabs (ln (1 - B2R p))) _ _ _ _ _ N A); lra.
Qed.
Lemma dbeta_fin x a b lf : bpos x -> B2R x < 1 -> bpos a -> bpos b -> dbeta (N:=NB) x a b lf =
  exp_if (N:=NB) (badd (badd (Bopp (bsub (badd (t_lgamma F a) (t_lgamma F b)) (t_lgamma F (badd a b)))) (bmul (bsub a (bofZ 1)) (t_log F x))) (bmul (bsub b (bofZ 1)) (t_log F (bsub (bofZ 1) x)))) (negb lf).
Proof.
  intros Px H1 Pa Pb. pose proof Px as [Fx Px']. pose proof Pa as [Fa Pa']. pose proof Pb as [Fb Pb'].
  unfold dbeta, beta_sanity3, beta_sanity2, any_nan2. rewrite (nan_nn F x), (nan_nn F a), (nan_nn F b) by now apply nn_fin. cbn [negb andb orb].
  change (ltb a (ofZ 0)) with (Bltb a (bofZ 0)). change (ltb b (ofZ 0)) with (Bltb b (bofZ 0)). rewrite !lt0_f by (auto; lra). cbn [negb].
  change (ltb x (ofZ 0)) with (Bltb x (bofZ 0)). change (eqb x (ofZ 0)) with (Beqb x (bofZ 0)). change (eqb a (ofZ 0)) with (Beqb a (bofZ 0)). change (eqb b (ofZ 0)) with (Beqb b (bofZ 0)).
  change (ltb (ofZ 1) x) with (Bltb (bofZ 1) x). change (eqb x (ofZ 1)) with (Beqb x (bofZ 1)). rewrite lt0_f by (auto; lra). rewrite !eq0_f by auto.
  destruct (ev_Z 1 ltac:(sm)) as [N1 E1]. destruct (bofZ_R 1 ltac:(sm)) as [B1 F1]. rewrite (proj2 (ltb_ev_f (bofZ 1) x N1 (nn_fin _ Fx))) by (rewrite E1, ev_fin by auto; lra). cbn [orb].
  unfold any_posinf2. rewrite (bpos_not_inf a F Pa), (bpos_not_inf b F Pb). cbn [orb].
  assert (Q : Beqb x (bofZ 1) = false). { destruct (Beqb x (bofZ 1)) eqn:Q; auto. exfalso. apply beqb_R in Q; auto. lra. }
  rewrite Q. reflexivity.
Qed.
Lemma dbeta_acc x a b : lgamma_acc F e -> log_acc F e -> exp_up_acc F e -> bpos x -> B2R x < 1 -> bpos a -> bpos b -> B2R (badd a b) = B2R a + B2R b -> B2R a + B2R b <= bpow radix2 900 ->
  let S := 5 + Rabs (ln (Gam (B2R a))) + Rabs (ln (Gam (B2R b))) + Rabs (ln (Gam (B2R a + B2R b))) + Rabs (B2R a - 1) * (1 + Rabs (ln (B2R x))) + Rabs (B2R b - 1) * (1 + Rabs (ln (1 - B2R x))) in
  S <= huge / 4 -> density_acc e 11 S (dbeta (N:=NB) x a b) (beta_pdf (B2R a) (B2R b) (B2R x)).
Proof.
  intros LG L X Px Hx Pa Pb EX Bs S HS. pose proof huge_2 as H2. pose proof Px as [Fx Px']. pose proof Pa as [Fa Pa']. pose proof Pb as [Fb Pb'].
  assert (B9 : bpow radix2 900 <= huge / 4). { unfold huge. apply Rle_trans with (bpow radix2 998); [apply bpow_le; lia|]. replace 1000%Z with (998 + 2)%Z by lia. rewrite bpow_plus. right. cbn [bpow]. cbn. lra. }
  assert (Ps : bpos (badd a b)). { split; [|lra]. apply (near_add a b Fa Fb). rewrite Rabs_pos_eq; lra. }
  destruct (ln_beta_pdf (B2R a) (B2R b) (B2R x) Pa' Pb' ltac:(lra)) as [EL EP].
  eapply acc_dens; [exact X| |lra|exact EP|rewrite dbeta_fin by auto; cbn [exp_if negb]; reflexivity|now rewrite dbeta_fin by auto].
  rewrite EL. clear EL EP. pose proof (Rabs_pos (ln (Gam (B2R a)))) as Q1. pose proof (Rabs_pos (ln (Gam (B2R b)))) as Q2. pose proof (Rabs_pos (ln (Gam (B2R a + B2R b)))) as Q3.
  pose proof (Rabs_pos (B2R a - 1)) as Q4. pose proof (Rabs_pos (B2R b - 1)) as Q5. pose proof (Rabs_pos (ln (B2R x))) as Q6. pose proof (Rabs_pos (ln (1 - B2R x))) as Q7.
  set (a1 := Rabs (ln (Gam (B2R a)))) in *. set (a2 := Rabs (ln (Gam (B2R b)))) in *. set (a3 := Rabs (ln (Gam (B2R a + B2R b)))) in *.
  set (a4 := Rabs (B2R a - 1) * (1 + Rabs (ln (B2R x)))) in *. set (a5 := Rabs (B2R b - 1) * (1 + Rabs (ln (1 - B2R x)))) in *.
  assert (P4 : 0 <= a4) by (unfold a4; apply Rmult_le_pos; lra). assert (P5 : 0 <= a5) by (unfold a5; apply Rmult_le_pos; lra). unfold S in HS.
  assert (A1 : acc 2 (1 + a1) (t_lgamma F a) (ln (Gam (B2R a)))) by (apply (acc_lgam F e He); auto; try lra; fold a1; lra).
  assert (A2 : acc 2 (1 + a2) (t_lgamma F b) (ln (Gam (B2R b)))) by (apply (acc_lgam F e He); auto; try lra; fold a2; lra).
  assert (A3 : acc 4 (1 + a3) (t_lgamma F (badd a b)) (ln (Gam (B2R a + B2R b)))).
  { apply (acc_le e He 2 (1 + a3)); try lra. unfold a3. rewrite <- EX. apply (acc_lgam F e He); auto; try lra. rewrite EX. fold a3. lra. }
  assert (A4 : acc 7 (1 + a4) (bmul (bsub a (bofZ 1)) (t_log F x)) ((B2R a - 1) * ln (B2R x))).
  { replace 7 with (2 * 1 + 5) by lra. apply (acc_clog F e He); auto; try lra; [|fold a4; lra]. apply (near_m1 e He); auto. apply Rabs_le. lra. }
  assert (A5 : acc 8 (1 + a5) (bmul (bsub b (bofZ 1)) (t_log F (bsub (bofZ 1) x))) ((B2R b - 1) * ln (1 - B2R x))).
  { replace 8 with (2 * 1 + 6) by lra. apply acc_clog1; auto; try lra; [|fold a5; lra]. apply (near_m1 e He); auto. apply Rabs_le. lra. }
  replace 11 with (9 + 2) by lra. replace S with (((((1 + a1) + (1 + a2)) + (1 + a3)) + (1 + a4)) + (1 + a5)) by (unfold S; ring).
  apply (acc_add e He 9); try lra; [|apply (acc_le e He 8 (1 + a5)); auto; lra]. replace 9 with (7 + 2) by lra. apply (acc_add e He 7); auto; try lra. apply acc_opp.
  apply (acc_le e He (4 + 2) (((1 + a1) + (1 + a2)) + (1 + a3))); try lra. apply (acc_sub e He 4); auto; try lra. replace 4 with (2 + 2) by lra. apply (acc_add e He 2); auto; lra.
Qed.
(** *** Poisson *)
Lemma ln_pois_pmf r k : 0 < r -> ln (pois_pmf r k) = INR k * ln r - r - ln (Gam (INR k + 1)) /\ 0 < pois_pmf r k.
Proof.
  intros Hr. pose proof (INR_fact_lt_0 k) as Fk. unfold pois_pmf. rewrite Gam_fact. assert (0 < r ^ k) by now apply pow_lt. pose proof (exp_pos (- r)).
  assert (0 < r ^ k * exp (- r)) by now apply Rmult_lt_0_compat. split; [|apply Rmult_lt_0_compat; auto; now apply Rinv_0_lt_compat].
  unfold Rdiv. rewrite !ln_mult, ln_Rinv, ln_exp by (auto; now apply Rinv_0_lt_compat). rewrite ln_pow by auto. ring.
Qed.
Lemma dpois_acc x rate : lgamma_acc F e -> log_acc F e -> exp_up_acc F e -> (0 <= x < 2 ^ 53)%Z -> bpos rate ->
  let S := 3 + IZR x * (1 + Rabs (ln (B2R rate))) + B2R rate + Rabs (ln (Gam (IZR x + 1))) in
  S <= huge / 4 -> density_acc e 9 S (dpois (N:=NB) x rate) (pois_pmf (B2R rate) (Z.to_nat x)).
Proof.
  intros LG L X Hx Pr S HS. pose proof huge_2 as H2. pose proof Pr as [Fr Pr'].
  assert (D : forall lf, dpois (N:=NB) x rate lf = exp_if (N:=NB) (bsub (bsub (bmul (bofZ x) (t_log F rate)) rate) (t_lgamma F (bofZ (x + 1)))) (negb lf)).
  { intros lf. unfold dpois, pois_sanity. rewrite (nan_nn F rate) by now apply nn_fin. change (ltb rate (ofZ 0)) with (Bltb rate (bofZ 0)). rewrite lt0_f by (auto; lra). cbn [negb].
    rewrite (proj2 (Z.ltb_ge x 0)) by lia. change (eqb rate (ofZ 0)) with (Beqb rate (bofZ 0)). rewrite eq0_f by auto. rewrite (bpos_not_inf rate F Pr). reflexivity. }
  destruct (ln_pois_pmf (B2R rate) (Z.to_nat x) Pr') as [EL EP]. rewrite INR_IZR_INZ, Z2Nat.id in EL by lia.
  eapply acc_dens; [exact X| |lra|exact EP|rewrite D; cbn [exp_if negb]; reflexivity|now rewrite D]. rewrite EL.
  pose proof (Rabs_pos (ln (B2R rate))) as Q1. pose proof (Rabs_pos (ln (Gam (IZR x + 1)))) as Q2. assert (X0 : 0 <= IZR x) by (apply (IZR_le 0); lia).
  destruct (bofZ_R x ltac:(lia)) as [Ex Fx]. destruct (bofZ_R (x + 1) ltac:(lia)) as [Ex1 Fx1]. rewrite plus_IZR in Ex1.
  set (a1 := IZR x * (1 + Rabs (ln (B2R rate)))) in *. set (a3 := Rabs (ln (Gam (IZR x + 1)))) in *. assert (P1 : 0 <= a1) by (unfold a1; apply Rmult_le_pos; lra). unfold S in HS.
  assert (A1 : acc 5 (1 + a1) (bmul (bofZ x) (t_log F rate)) (IZR x * ln (B2R rate))).
  { replace 5 with (2 * 0 + 5) by lra. unfold a1. rewrite <- (Rabs_pos_eq (IZR x)) at 1 by lra. apply (acc_clog F e He); auto; try lra; [apply near0Z; lia|]. rewrite Rabs_pos_eq by lra. fold a1. lra. }
  assert (A2 : acc 5 (1 + B2R rate) rate (B2R rate)) by (apply (acc_le e He 1 (1 + B2R rate)); try lra; apply acc_exact; auto; try lra; rewrite Rabs_pos_eq; lra).
  assert (A3 : acc 7 (1 + a3) (t_lgamma F (bofZ (x + 1))) (ln (Gam (IZR x + 1)))).
  { apply (acc_le e He 2 (1 + a3)); try lra. unfold a3. rewrite <- Ex1. apply (acc_lgam F e He); auto; [split; auto; lra| |rewrite Ex1; fold a3; lra]. rewrite Ex1.
    apply Rle_trans with (bpow radix2 53); [|apply bpow_le; lia]. rewrite <- (plus_IZR x 1). change (bpow radix2 53) with (IZR (2 ^ 53)). apply IZR_le. lia. }
  replace 9 with (7 + 2) by lra. replace S with (((1 + a1) + (1 + B2R rate)) + (1 + a3)) by (unfold S; ring).
  apply (acc_sub e He 7); auto; try lra. replace 7 with (5 + 2) by lra. apply (acc_sub e He 5); auto; lra.
Qed.
End D.
