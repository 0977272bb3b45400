(** Accuracy of the densities in double precision: location-scale families, exponential, uniform. *)
From Coq Require Import ZArith QArith Reals Lra Lia.
From Verif Require Import Erf GammaFn BetaFn NormR Spec SpecSF.
From Verif Require Import Num Sanity Prob Dens B64 SpecB64 SpecB64D SpecAcc SpecAccD B64R B64Ord B64Cdf B64Cdf2 B64Cdf3 B64Mag B64Dens B64Dens2 B64Dens3 B64Dens4 B64CR B64Acc B64AccCdf B64AccW B64AccLog.
From Flocq Require Import Core IEEE754.BinarySingleNaN.
Local Open Scope R_scope.
Notation exp := Rtrigo_def.exp.
Lemma ln_mono a b : 0 < a -> a <= b -> ln a <= ln b.
Proof. intros H [L| ->]; [left; now apply ln_increasing|lra]. Qed.
Lemma ln_2PI : 0 <= ln (2 * Rtrigo1.PI) <= 2.
Proof.
  pose proof PI_lo as P. pose proof PI_4 as Q. rewrite <- ln_1 at 1. split; [left; apply ln_increasing; lra|].
  apply Rle_trans with (ln (exp 2)); [|rewrite ln_exp; lra]. left. apply ln_increasing; [lra|]. pose proof (PI_ineq 3%nat) as [_ A]. revert A. unfold tg_alt, PI_tg. cbn [sum_f_R0 Rpow_def.pow INR Nat.mul Nat.add]. intros A.
  pose proof (exp_ineq1_le (/ 4)) as B. assert (C : exp 2 = exp (/ 4) ^ 8). { cbn [Rpow_def.pow]. rewrite Rmult_1_r, <- !exp_plus. f_equal. lra. }
  assert (D : (1 + / 4 + / 32) <= exp (/ 4)).
  { pose proof (exp_ineq1_le (/ 64)) as B2. assert (C2 : exp (/ 4) = exp (/ 64) ^ 16). { cbn [Rpow_def.pow]. rewrite Rmult_1_r, <- !exp_plus. f_equal. lra. }
    rewrite C2. apply Rle_trans with ((1 + / 64) ^ 16); [cbn; lra|]. apply pow_incr. lra. }
  rewrite C. apply Rlt_le_trans with ((1 + / 4 + / 32) ^ 8); [|apply pow_incr; lra]. cbn. lra.
Qed.
Section D.
Variable F : TF.
Notation NB := (B64_Num F).
Variable e : R.
Hypothesis He : unit_ok e.
Notation acc := (acc e).
Lemma near0 x : finite x -> near (0 * e) 0 x (B2R x). Proof. intros. rewrite Rmult_0_l. now apply near_exact. Qed.
Lemma near0Z k : (Z.abs k <= 2 ^ 53)%Z -> near (0 * e) 0 (bofZ k) (IZR k). Proof. intros. rewrite Rmult_0_l. now apply near_Z. Qed.
Lemma near0h : near (0 * e) 0 (blit (1#2)) (/ 2). Proof. rewrite Rmult_0_l. apply blit_half_near. Qed.
Lemma near0mh : near (0 * e) 0 (Bopp (blit (1#2))) (- / 2). Proof. rewrite Rmult_0_l. apply near_opp, blit_half_near. Qed.
Lemma near1 h y r : near ulp1 h y r -> near (1 * e) h y r.
Proof. intros H. eapply near_le; [exact H| |lra]. destruct (e_r e He) as (_ & A & _). lra. Qed.
Lemma near_s k k' y r : near (k * e) 0 y r -> k <= k' -> near (k' * e) 0 y r.
Proof. intros H K. eapply near_le; [exact H| |lra]. destruct (e_r e He) as (A & B & C & _). apply Rmult_le_compat_r; lra. Qed.
Lemma near_t k y r : near (k * e) 0 y r -> near (k * e) tiny y r.
Proof. intros H. eapply near_le; [exact H|lra|]. apply Rlt_le, tiny_pos. Qed.
Lemma acc_lg x : log_acc F e -> bpos x -> acc 3 (1 + Rabs (ln (B2R x))) (t_log F x) (ln (B2R x)).
Proof.
  intros L [Fx Px]. pose proof (ln_any x Fx Px). pose proof (Rabs_pos (ln (B2R x))). pose proof huge_2.
  replace 3 with (0 + 3) by lra. apply (acc_log F e He); auto; try lra. now apply near0.
Qed.
Lemma half_LOG_2PI : const_acc e (t_LOG_2PI F) (ln (2 * Rtrigo1.PI)) -> acc 4 1 (bmul (Bopp (blit (1#2))) (t_LOG_2PI F)) (- / 2 * ln (2 * Rtrigo1.PI)).
Proof.
  intros C. pose proof ln_2PI as P. pose proof huge_1. assert (A : acc 2 2 (t_LOG_2PI F) (ln (2 * Rtrigo1.PI))).
  { replace 2 with (1 + 1) at 1 by lra. apply (acc_near e He 1); try lra; [|rewrite Rabs_pos_eq; lra]. rewrite Rmult_1_l. eapply near_le; [exact C|lra|apply Rlt_le, tiny_pos]. }
  replace 4 with (2 + 2 * 0 + 2) by lra. apply (acc_mul e He 2 0 2 1 _ _ _ _ near0mh A); try lra. rewrite Rabs_left; lra.
Qed.
Lemma ln_norm_pdf mu s x : 0 < s -> ln (norm_pdf mu s x) = - / 2 * ln (2 * Rtrigo1.PI) - ln s - ((x - mu) / s) * ((x - mu) / s) / 2 /\ 0 < norm_pdf mu s x.
Proof.
  intros P. pose proof PI_RGT_0. assert (Q : 0 < R_sqrt.sqrt (2 * Rtrigo1.PI)) by (apply sqrt_lt_R0; lra). unfold norm_pdf.
  assert (I : 0 < / (R_sqrt.sqrt (2 * Rtrigo1.PI) * s)) by (apply Rinv_0_lt_compat; now apply Rmult_lt_0_compat).
  split; [|apply Rmult_lt_0_compat; [lra|apply exp_pos]].
  rewrite ln_mult by (try apply exp_pos; lra). rewrite ln_exp. unfold Rdiv at 1. rewrite Rmult_1_l, ln_Rinv by now apply Rmult_lt_0_compat. rewrite ln_mult by auto.
  replace (ln (R_sqrt.sqrt (2 * Rtrigo1.PI))) with (/ 2 * ln (2 * Rtrigo1.PI)); [field; lra|].
  rewrite <- (sqrt_sqrt (2 * Rtrigo1.PI)) at 1 by lra. rewrite ln_mult by auto. lra.
Qed.
Lemma acc_z x mu sigma : bfin x -> bfin mu -> bpos sigma -> reach (B2R mu) (B2R sigma) (B2R x) -> near (2 * e) tiny (bdiv (bsub x mu) sigma) ((B2R x - B2R mu) / B2R sigma).
Proof. intros Fx Fm P [A B]. eapply near_le; [apply z_near; auto| |lra]. destruct (e_r e He) as (_ & U & _). lra. Qed.
Lemma sq_acc z z0 : near (2 * e) tiny z z0 -> z0 * z0 / 2 <= huge / 4 -> acc 13 (1 + z0 * z0 / 2) (bdiv (bmul z z) (bofZ 2)) (z0 * z0 / 2).
Proof.
  intros N H. pose proof huge_2 as H2. assert (A : acc 11 (2 + z0 * z0) (bmul z z) (z0 * z0)).
  { replace 11 with (2 * 2 + 2 * 2 + 3) by lra. apply (acc_nn e He 2 2); auto; try lra; try nra; try (apply Rabs_le; nra). }
  replace 13 with (11 + 2 * 0 + 2) by lra. apply (acc_div e He 11 0 (2 + z0 * z0) _ _ _ _ _ (near0Z 2 ltac:(sm)) ltac:(lra) A); try lra; try nra. rewrite Rabs_pos_eq by lra. lra.
Qed.
Lemma reach_big mu s x : reach mu s x -> Rabs ((x - mu) / s) <= huge. Proof. now intros []. Qed.
Lemma dnorm_v x mu sigma : const_acc e (t_LOG_2PI F) (ln (2 * Rtrigo1.PI)) -> log_acc F e -> bfin x -> bfin mu -> bpos sigma ->
  reach (B2R mu) (B2R sigma) (B2R x) -> ((B2R x - B2R mu) / B2R sigma) * ((B2R x - B2R mu) / B2R sigma) / 2 <= huge / 4 ->
  acc 15 (3 + Rabs (ln (B2R sigma)) + (B2R x - B2R mu) / B2R sigma * ((B2R x - B2R mu) / B2R sigma) / 2) (dnorm_log_compute (N:=NB) (bdiv (bsub x mu) sigma) sigma) (ln (norm_pdf (B2R mu) (B2R sigma) (B2R x))).
Proof.
  intros C L Fx Fm P Hr H. rewrite (proj1 (ln_norm_pdf _ _ _ (proj2 P))). pose proof huge_2 as H2.
  pose proof (ln_any sigma (proj1 P) (proj2 P)). pose proof (Rabs_pos (ln (B2R sigma))).
  assert (A1 : acc 6 (2 + Rabs (ln (B2R sigma))) (bsub (bmul (Bopp (blit (1#2))) (t_LOG_2PI F)) (t_log F sigma)) (- / 2 * ln (2 * Rtrigo1.PI) - ln (B2R sigma))).
  { replace 6 with (4 + 2) by lra. replace (2 + Rabs (ln (B2R sigma))) with (1 + (1 + Rabs (ln (B2R sigma)))) by ring. apply (acc_sub e He 4); try lra; [now apply half_LOG_2PI|]. eapply acc_le; [exact He|now apply acc_lg|lra|lra]. }
  pose proof (sq_acc _ _ (acc_z _ _ _ Fx Fm P Hr) H) as A2. set (z0 := (B2R x - B2R mu) / B2R sigma) in *.
  replace 15 with (13 + 2) by lra. replace (3 + Rabs (ln (B2R sigma)) + z0 * z0 / 2) with ((2 + Rabs (ln (B2R sigma))) + (1 + z0 * z0 / 2)) by ring.
  apply (acc_sub e He 13); try lra; [|exact A2]. eapply acc_le; [exact He|exact A1|lra|lra].
Qed.
Lemma dnorm_acc x mu sigma : const_acc e (t_LOG_2PI F) (ln (2 * Rtrigo1.PI)) -> log_acc F e -> exp_up_acc F e -> bfin x -> bfin mu -> bpos sigma ->
  reach (B2R mu) (B2R sigma) (B2R x) -> ((B2R x - B2R mu) / B2R sigma) * ((B2R x - B2R mu) / B2R sigma) / 2 <= huge / 4 ->
  density_acc e 15 (3 + Rabs (ln (B2R sigma)) + (B2R x - B2R mu) / B2R sigma * ((B2R x - B2R mu) / B2R sigma) / 2) (dnorm (N:=NB) x mu sigma) (norm_pdf (B2R mu) (B2R sigma) (B2R x)).
Proof.
  intros C L X Fx Fm P Hr H. apply (acc_dens F e 15 _ (dnorm_log_compute (N:=NB) (bdiv (bsub x mu) sigma) sigma)); auto; try lra.
  - now apply dnorm_v.
  - apply ln_norm_pdf, P.
  - now rewrite dnorm_fin.
  - now rewrite dnorm_fin.
Qed.
(** *** exponential *)
Lemma dexp_acc x rate : log_acc F e -> exp_up_acc F e -> bfin x -> 0 <= B2R x -> bpos rate -> B2R rate * B2R x <= huge / 4 ->
  density_acc e 5 (2 + Rabs (ln (B2R rate)) + B2R rate * B2R x) (dexp (N:=NB) x rate) (exp_pdf (B2R rate) (B2R x)).
Proof.
  intros L X Fx Px P H. pose proof huge_2 as H2. pose proof P as [Fr Pr].
  pose proof (ln_any rate Fr Pr). pose proof (Rabs_pos (ln (B2R rate))). assert (0 <= B2R rate * B2R x) by (apply Rmult_le_pos; lra).
  assert (D : forall lf, dexp (N:=NB) x rate lf = exp_if (N:=NB) (bsub (t_log F rate) (bmul rate x)) (negb lf)).
  { intros lf. rewrite dexp_cases by (auto; now apply nn_fin). rewrite lt0_f by (auto; lra). assert (I := posinf_fin F x Fx). cbn in I. now rewrite I. }
  assert (EL : ln (exp_pdf (B2R rate) (B2R x)) = ln (B2R rate) - B2R rate * B2R x /\ 0 < exp_pdf (B2R rate) (B2R x)).
  { unfold exp_pdf. pose proof (exp_pos (- B2R rate * B2R x)). split; [|now apply Rmult_lt_0_compat]. rewrite ln_mult by auto. rewrite ln_exp. ring. }
  destruct EL as [EL EP]. apply (acc_dens F e 5 _ (bsub (t_log F rate) (bmul rate x))); auto; try lra; try (now rewrite D).
  rewrite EL. replace 5 with (3 + 2) by lra. replace (2 + Rabs (ln (B2R rate)) + B2R rate * B2R x) with ((1 + Rabs (ln (B2R rate))) + (1 + B2R rate * B2R x)) by ring.
  apply (acc_sub e He 3); try lra; [now apply acc_lg|]. apply (acc_le e He (1 + 1) (1 + B2R rate * B2R x)); try lra. apply (acc_near e He 1); try lra; [apply near1; apply near_mul0; auto; rewrite Rabs_pos_eq; lra|rewrite Rabs_pos_eq; lra].
Qed.
(** *** Laplace *)
Lemma dlaplace_acc x mu sigma : log_acc F e -> exp_up_acc F e -> bfin x -> bfin mu -> bpos sigma -> B2R sigma <= huge / 4 ->
  reach (B2R mu) (B2R sigma) (B2R x) -> Rabs ((B2R x - B2R mu) / B2R sigma) <= huge / 4 ->
  density_acc e 5 (2 + Rabs (ln (2 * B2R sigma)) + Rabs ((B2R x - B2R mu) / B2R sigma)) (dlaplace (N:=NB) x mu sigma) (laplace_pdf (B2R mu) (B2R sigma) (B2R x)).
Proof.
  intros L X Fx Fm P Hs [R1 R2] H. pose proof huge_2 as H2. pose proof P as [Fs Ps].
  destruct (dbl_exact sigma Fs ltac:(rewrite Rabs_pos_eq; lra)) as [Fd Ed].
  assert (Pd : bpos (bmul (bofZ 2) sigma)) by (split; [exact Fd|lra]). pose proof (ln_any _ (proj1 Pd) (proj2 Pd)) as LB. rewrite Ed in LB. pose proof (Rabs_pos (ln (2 * B2R sigma))). pose proof (Rabs_pos ((B2R x - B2R mu) / B2R sigma)).
  assert (EA : Rabs (B2R x - B2R mu) / B2R sigma = Rabs ((B2R x - B2R mu) / B2R sigma)) by (unfold Rdiv; rewrite Rabs_mult, Rabs_inv, (Rabs_pos_eq (B2R sigma)) by lra; auto).
  assert (EL : ln (laplace_pdf (B2R mu) (B2R sigma) (B2R x)) = - ln (2 * B2R sigma) - Rabs ((B2R x - B2R mu) / B2R sigma) /\ 0 < laplace_pdf (B2R mu) (B2R sigma) (B2R x)).
  { assert (0 < / (2 * B2R sigma)) by (apply Rinv_0_lt_compat; lra).
    replace (laplace_pdf (B2R mu) (B2R sigma) (B2R x)) with (/ (2 * B2R sigma) * exp (- Rabs (B2R x - B2R mu) / B2R sigma)) by (unfold laplace_pdf; f_equal; lra). pose proof (exp_pos (- Rabs (B2R x - B2R mu) / B2R sigma)). split; [|now apply Rmult_lt_0_compat].
    rewrite ln_mult, ln_exp, ln_Rinv by (auto; lra). rewrite <- EA. unfold Rdiv. ring. }
  destruct EL as [EL EP]. apply (acc_dens F e 5 _ (bsub (dl_c F sigma) (dl_y x mu sigma))); auto; try lra; try (now rewrite dlaplace_fin).
  rewrite EL. replace 5 with (3 + 2) by lra. replace (2 + Rabs (ln (2 * B2R sigma)) + Rabs ((B2R x - B2R mu) / B2R sigma)) with ((1 + Rabs (ln (2 * B2R sigma))) + (1 + Rabs ((B2R x - B2R mu) / B2R sigma))) by ring.
  apply (acc_sub e He 3); try lra.
  - unfold dl_c. apply acc_opp. rewrite <- Ed. now apply acc_lg.
  - unfold dl_y. replace 3 with (2 + 1) by lra. apply (acc_near e He 2); try lra; [|rewrite Rabs_Rabsolu; lra]. rewrite <- EA.
    destruct (near_sub x mu Fx Fm ltac:(lra)) as (Fq & t & s & T & Hs' & E). apply abs_le0 in Hs'. subst s.
    assert (N : near ulp1 0 (Babs (bsub x mu)) (Rabs (B2R x - B2R mu))).
    { split; [unfold finite; now rewrite is_finite_Babs|]. exists t, 0. rewrite Rabs_R0, B2R_Babs, E, !Rplus_0_r, Rabs_mult, (Rabs_pos_eq (exp t)) by (left; apply exp_pos). repeat split; auto; lra. }
    destruct (e_r e He) as (U1 & U2 & U3 & U4). pose proof ulp1_val. pose proof tiny_pos.
    eapply near_le; [apply (near_div ulp1 0 0 0 _ _ _ _ N (near_exact _ Fs)); try lra| |]; try lra; try (rewrite EA, Rabs_Rabsolu; lra); unfold Rdiv; lra.
Qed.
(** *** uniform *)
Lemma dunif_fin x a b lf : bfin x -> bfin a -> bfin b -> B2R a < B2R b -> B2R a <= B2R x <= B2R b -> dunif (N:=NB) x a b lf = if lf then Bopp (t_log F (bsub b a)) else bdiv (bofZ 1) (bsub b a).
Proof.
  intros Fx Fa Fb H Hx. unfold dunif, unif_sanity3, unif_sanity2, any_nan2. rewrite (nan_nn F x), (nan_nn F a), (nan_nn F b) by (auto; now apply nn_fin). cbn [negb andb orb].
  change (leb b a) with (Bleb b a). rewrite (proj2 (bleb_R_f b a Fb Fa) H). cbn [negb]. unfold any_inf2. rewrite !inf_fin by auto. cbn [orb].
  change (ltb x a) with (Bltb x a). change (ltb b x) with (Bltb b x). rewrite (proj2 (ltb_ev_f x a (nn_fin _ Fx) (nn_fin _ Fa))), (proj2 (ltb_ev_f b x (nn_fin _ Fb) (nn_fin _ Fx))) by (rewrite !ev_fin by auto; lra). reflexivity.
Qed.
Lemma dunif_acc x a b : log_acc F e -> bfin x -> bfin a -> bfin b -> B2R a < B2R b -> B2R a <= B2R x <= B2R b -> / huge <= B2R b - B2R a <= huge ->
  within (4 * e * (1 + Rabs (ln (B2R b - B2R a)))) (dunif (N:=NB) x a b true) (ln (unif_pdf (B2R a) (B2R b))) /\ near (2 * e) tiny (dunif (N:=NB) x a b false) (unif_pdf (B2R a) (B2R b)).
Proof.
  intros L Fx Fa Fb H Hx [H1 H3]. rewrite !dunif_fin by auto. unfold unif_pdf. pose proof huge_2 as H2. destruct (e_r e He) as (U1 & U2 & U3 & U4). pose proof ulp1_val. pose proof tiny_pos.
  pose proof (near_sub b a Fb Fa ltac:(rewrite Rabs_pos_eq; lra)) as N.
  assert (LB : Rabs (ln (B2R b - B2R a)) <= 1000).
  { assert (K : ln huge <= 1000). { unfold huge. rewrite ln_bpow. pose proof ln2_01. lra. }
    apply Rabs_le. split; [|eapply Rle_trans; [apply ln_mono; [lra|exact H3]|auto]]. assert (Q : ln (/ huge) <= ln (B2R b - B2R a)) by (apply ln_mono; [apply Rinv_0_lt_compat; lra|auto]). rewrite ln_Rinv in Q by lra. lra. }
  pose proof (Rabs_pos (ln (B2R b - B2R a))). split.
  - destruct (acc_opp e _ _ _ _ (acc_log F e He 1 (1 + Rabs (ln (B2R b - B2R a))) _ _ L (near1 _ _ _ N) ltac:(lra) ltac:(lra) ltac:(lra) ltac:(lra))) as (A & B & _).
    split; auto. unfold Rdiv. rewrite Rmult_1_l, ln_Rinv by lra. eapply Rle_trans; [exact B|]. right. ring.
  - assert (I : / (B2R b - B2R a) <= huge) by (rewrite <- (Rinv_inv huge); apply Rinv_le_contravar; auto; apply Rinv_0_lt_compat; lra). assert (0 < / (B2R b - B2R a)) by (apply Rinv_0_lt_compat; lra).
    eapply near_le; [apply (near_div 0 0 ulp1 0 _ _ _ _ (near_Z 1 ltac:(sm)) N); try lra| |]; try lra; unfold Rdiv; try lra; rewrite Rmult_1_l, Rabs_pos_eq; lra.
Qed.
End D.
