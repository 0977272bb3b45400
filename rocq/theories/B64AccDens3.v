(** Accuracy of the densities in double precision: the families whose constants use the logarithm of the gamma function. *)
From Coq Require Import ZArith QArith Reals Lra Lia.
From Verif Require Import Erf GammaFn BetaFn NormR Spec SpecSF.
From Verif Require Import Num Sanity Prob Dens B64 SpecB64 SpecB64D SpecAcc SpecAccD B64R B64Ord B64Cdf B64Cdf2 B64Cdf3 B64Mag B64Dens B64Dens2 B64Dens3 B64Dens4 B64CR B64Acc B64AccCdf B64AccW B64AccLog B64AccDens B64AccDens2.
From Flocq Require Import Core IEEE754.BinarySingleNaN.
Local Open Scope R_scope.
Notation exp := Rtrigo_def.exp.
Section D.
Variable F : TF.
Notation NB := (B64_Num F).
Variable e : R.
Hypothesis He : unit_ok e.
Notation acc := (acc e).
Lemma acc_lgam x : lgamma_acc F e -> bpos x -> B2R x <= bpow radix2 900 -> Rabs (ln (Gam (B2R x))) <= huge / 4 -> acc 2 (1 + Rabs (ln (Gam (B2R x)))) (t_lgamma F x) (ln (Gam (B2R x))).
Proof.
  intros L [Fx Px] B H. pose proof huge_2. pose proof (Rabs_pos (ln (Gam (B2R x)))). replace 2 with (1 + 1) by lra. apply (acc_near e He 1); try lra. rewrite Rmult_1_l. apply L; auto.
Qed.
(** a coefficient times a logarithm *)
Lemma acc_clog kc c c0 x : log_acc F e -> near (kc * e) 0 c c0 -> 0 <= kc <= 10 -> bpos x -> 1 + Rabs c0 * (1 + Rabs (ln (B2R x))) <= huge ->
  acc (2 * kc + 5) (1 + Rabs c0 * (1 + Rabs (ln (B2R x)))) (bmul c (t_log F x)) (c0 * ln (B2R x)).
Proof.
  intros L N K P H. pose proof (acc_lg F e He x L P) as A. pose proof (Rabs_pos c0). pose proof (Rabs_pos (ln (B2R x))). assert (0 <= Rabs c0 * (1 + Rabs (ln (B2R x)))) by (apply Rmult_le_pos; lra).
  replace (2 * kc + 5) with (3 + 2 * kc + 2) by ring. apply (acc_mul e He 3 kc (1 + Rabs (ln (B2R x))) _ _ _ _ _ N A); lra.
Qed.
Lemma acc_quot x c : bfin x -> 0 <= B2R x -> bpos c -> B2R x / B2R c <= huge / 4 -> acc 2 (1 + B2R x / B2R c) (bdiv x c) (B2R x / B2R c).
Proof.
  intros Fx Px [Fc Pc] H. pose proof huge_2. assert (0 <= B2R x / B2R c) by (apply Rmult_le_pos; auto; left; now apply Rinv_0_lt_compat).
  replace 2 with (1 + 1) by lra. apply (acc_near e He 1); try lra; [|rewrite Rabs_pos_eq; lra]. apply (near1 e He). apply near_div0; auto; try lra. rewrite Rabs_pos_eq; lra.
Qed.
Lemma near_m1 s : bfin s -> Rabs (B2R s - 1) <= 4 * huge -> near (1 * e) 0 (bsub s (bofZ 1)) (B2R s - 1).
Proof. intros Fs H. destruct (bofZ_R 1 ltac:(sm)) as [B1 F1]. apply (near1 e He). replace (B2R s - 1) with (B2R s - B2R (bofZ 1)) in * by lra. apply near_sub; auto. Qed.
Lemma sum_abs a b c : Rabs a <= b -> b + c <= huge -> 0 <= c -> Rabs a <= huge. Proof. lra. Qed.
(** *** gamma *)
Lemma ln_gamma_pdf k th x : 0 < k -> 0 < th -> 0 < x -> ln (gamma_pdf k th x) = - ln (Gam k) - k * ln th + (k - 1) * ln x - x / th /\ 0 < gamma_pdf k th x.
Proof.
  intros Hk Ht Hx. pose proof (Gam_pos k Hk) as G. assert (E : gamma_pdf k th x = exp (- ln (Gam k) - k * ln th + (k - 1) * ln x - x / th)).
  { unfold gamma_pdf, Rpower, Rdiv. rewrite <- (exp_ln (Gam k)) at 1 by auto. rewrite <- !exp_plus, <- exp_Ropp, <- exp_plus. f_equal. ring. }
  rewrite E. split; [apply ln_exp|apply exp_pos].
Qed.
Lemma dgamma_fin x shape scale lf : bpos x -> bpos shape -> bpos scale -> Bleb beps scale = true -> dgamma (N:=NB) x shape scale lf =
  exp_if (N:=NB) (bsub (badd (bsub (Bopp (t_lgamma F shape)) (bmul shape (t_log F scale))) (bmul (bsub shape (bofZ 1)) (t_log F x))) (bdiv x scale)) (negb lf).
Proof.
  intros Px Ps Pc H3. pose proof Px as [Fx Px']. pose proof Ps as [Fs Ps']. pose proof Pc as [Fc Pc'].
  unfold dgamma, gamma_sanity3, gamma_sanity2, any_nan2. rewrite (nan_nn F x), (nan_nn F shape), (nan_nn F scale) by now apply nn_fin. cbn [negb andb orb].
  change (ltb shape (ofZ 0)) with (Bltb shape (bofZ 0)). rewrite lt0_f by (auto; lra). change (ltb scale epsilon) with (Bltb scale beps).
  assert (E3 : Bltb scale beps = false). { apply leb_ev in H3. apply ltb_ev_f; tauto. }
  rewrite E3. cbn [negb]. change (ltb x (ofZ 0)) with (Bltb x (bofZ 0)). change (eqb x (ofZ 0)) with (Beqb x (bofZ 0)). change (eqb shape (ofZ 0)) with (Beqb shape (bofZ 0)).
  rewrite lt0_f by (auto; lra). rewrite !eq0_f by auto. cbn [orb]. unfold any_posinf3. rewrite (bpos_not_inf x F Px), (bpos_not_inf shape F Ps), (bpos_not_inf scale F Pc). reflexivity.
Qed.
Lemma dgamma_acc x shape scale : lgamma_acc F e -> log_acc F e -> exp_up_acc F e -> bpos x -> bpos shape -> B2R shape <= bpow radix2 900 -> bpos scale -> Bleb beps scale = true ->
  let S := 4 + Rabs (ln (Gam (B2R shape))) + B2R shape * (1 + Rabs (ln (B2R scale))) + Rabs (B2R shape - 1) * (1 + Rabs (ln (B2R x))) + B2R x / B2R scale in
  S <= huge / 4 -> density_acc e 11 S (dgamma (N:=NB) x shape scale) (gamma_pdf (B2R shape) (B2R scale) (B2R x)).
Proof.
  intros LG L X Px Ps Bs Pc HE S HS. pose proof huge_2 as H2. pose proof Px as [Fx Px']. pose proof Ps as [Fs Ps']. pose proof Pc as [Fc Pc'].
  destruct (ln_gamma_pdf (B2R shape) (B2R scale) (B2R x) Ps' Pc' Px') as [EL EP].
  eapply acc_dens; [exact X| |lra|exact EP|rewrite dgamma_fin by auto; cbn [exp_if negb]; reflexivity|now rewrite dgamma_fin by auto].
  rewrite EL. clear EL EP. pose proof (Rabs_pos (ln (Gam (B2R shape)))) as Q1. pose proof (Rabs_pos (B2R shape - 1)) as Q2. pose proof (Rabs_pos (ln (B2R x))) as Q3. pose proof (Rabs_pos (ln (B2R scale))) as Q4.
  set (a1 := Rabs (ln (Gam (B2R shape)))) in *. set (a2 := B2R shape * (1 + Rabs (ln (B2R scale)))) in *. set (a3 := Rabs (B2R shape - 1) * (1 + Rabs (ln (B2R x)))) in *. set (a4 := B2R x / B2R scale) in *.
  assert (P2 : 0 <= a2) by (unfold a2; apply Rmult_le_pos; lra). assert (P3 : 0 <= a3) by (unfold a3; apply Rmult_le_pos; lra). assert (P4 : 0 <= a4) by (unfold a4; apply Rmult_le_pos; [lra|left; now apply Rinv_0_lt_compat]).
  assert (M1 : Rabs (B2R shape - 1) <= a3). { unfold a3. rewrite <- (Rmult_1_r (Rabs (B2R shape - 1))) at 1. apply Rmult_le_compat_l; lra. }
  assert (A1 : acc 5 (1 + a1) (Bopp (t_lgamma F shape)) (- ln (Gam (B2R shape)))) by (apply acc_opp; apply (acc_le e He 2 (1 + a1)); try (unfold S in HS; lra); apply acc_lgam; auto; fold a1; unfold S in HS; lra).
  assert (A2 : acc 5 (1 + a2) (bmul shape (t_log F scale)) (B2R shape * ln (B2R scale))).
  { replace 5 with (2 * 0 + 5) by lra. unfold a2. rewrite <- (Rabs_pos_eq (B2R shape)) at 1 by lra. apply acc_clog; auto; try lra; [now apply near0|]. rewrite Rabs_pos_eq by lra. fold a2. unfold S in HS. lra. }
  assert (A3 : acc 7 (1 + a3) (bmul (bsub shape (bofZ 1)) (t_log F x)) ((B2R shape - 1) * ln (B2R x))).
  { replace 7 with (2 * 1 + 5) by lra. apply acc_clog; auto; try lra; [|fold a3; unfold S in HS; lra]. apply near_m1; auto. unfold S in HS. lra. }
  assert (A4 : acc 9 (1 + a4) (bdiv x scale) a4) by (apply (acc_le e He 2 (1 + a4)); try (unfold S in HS; lra); apply acc_quot; auto; fold a4; unfold S in HS; lra).
  replace 11 with (9 + 2) by lra. replace S with ((((1 + a1) + (1 + a2)) + (1 + a3)) + (1 + a4)) by (unfold S; ring). unfold S in HS.
  apply (acc_sub e He 9); auto; try lra. replace 9 with (7 + 2) by lra. apply (acc_add e He 7); auto; try lra. replace 7 with (5 + 2) by lra. apply (acc_sub e He 5); auto; lra.
Qed.
(** *** inverse gamma *)
Lemma ln_invgamma_pdf a b x : 0 < a -> 0 < b -> 0 < x -> ln (invgamma_pdf a b x) = - ln (Gam a) + a * ln b + (- a - 1) * ln x - b / x /\ 0 < invgamma_pdf a b x.
Proof.
  intros Hk Ht Hx. pose proof (Gam_pos a Hk) as G. assert (E : invgamma_pdf a b x = exp (- ln (Gam a) + a * ln b + (- a - 1) * ln x - b / x)).
  { unfold invgamma_pdf, Rpower, Rdiv. rewrite <- (exp_ln (Gam a)) at 1 by auto. rewrite <- exp_Ropp, <- !exp_plus. f_equal. ring. }
  rewrite E. split; [apply ln_exp|apply exp_pos].
Qed.
Lemma dinvgamma_fin x shape rate lf : bpos x -> bpos shape -> bpos rate -> dinvgamma (N:=NB) x shape rate lf =
  exp_if (N:=NB) (bsub (badd (badd (Bopp (t_lgamma F shape)) (bmul shape (t_log F rate))) (bmul (bsub (Bopp shape) (bofZ 1)) (t_log F x))) (bdiv rate x)) (negb lf).
Proof.
  intros Px Ps Pc. pose proof Px as [Fx Px']. pose proof Ps as [Fs Ps']. pose proof Pc as [Fc Pc'].
  unfold dinvgamma, invgamma_sanity3, invgamma_sanity2, any_nan2. rewrite (nan_nn F x), (nan_nn F shape), (nan_nn F rate) by now apply nn_fin. cbn [negb andb orb].
  change (ltb shape (ofZ 0)) with (Bltb shape (bofZ 0)). change (ltb rate (ofZ 0)) with (Bltb rate (bofZ 0)). rewrite !lt0_f by (auto; lra). cbn [negb].
  change (ltb x (ofZ 0)) with (Bltb x (bofZ 0)). change (eqb x (ofZ 0)) with (Beqb x (bofZ 0)). change (eqb shape (ofZ 0)) with (Beqb shape (bofZ 0)). change (eqb rate (ofZ 0)) with (Beqb rate (bofZ 0)).
  rewrite lt0_f by (auto; lra). rewrite !eq0_f by auto. cbn [orb]. unfold any_posinf3. rewrite (bpos_not_inf x F Px), (bpos_not_inf shape F Ps), (bpos_not_inf rate F Pc). reflexivity.
Qed.
Lemma dinvgamma_acc x shape rate : lgamma_acc F e -> log_acc F e -> exp_up_acc F e -> bpos x -> bpos shape -> B2R shape <= bpow radix2 900 -> bpos rate ->
  let S := 4 + Rabs (ln (Gam (B2R shape))) + B2R shape * (1 + Rabs (ln (B2R rate))) + (B2R shape + 1) * (1 + Rabs (ln (B2R x))) + B2R rate / B2R x in
  S <= huge / 4 -> density_acc e 11 S (dinvgamma (N:=NB) x shape rate) (invgamma_pdf (B2R shape) (B2R rate) (B2R x)).
Proof.
  intros LG L X Px Ps Bs Pc S HS. pose proof huge_2 as H2. pose proof Px as [Fx Px']. pose proof Ps as [Fs Ps']. pose proof Pc as [Fc Pc'].
  destruct (ln_invgamma_pdf (B2R shape) (B2R rate) (B2R x) Ps' Pc' Px') as [EL EP].
  eapply acc_dens; [exact X| |lra|exact EP|rewrite dinvgamma_fin by auto; cbn [exp_if negb]; reflexivity|now rewrite dinvgamma_fin by auto].
  rewrite EL. clear EL EP. pose proof (Rabs_pos (ln (Gam (B2R shape)))) as Q1. pose proof (Rabs_pos (ln (B2R x))) as Q3. pose proof (Rabs_pos (ln (B2R rate))) as Q4.
  set (a1 := Rabs (ln (Gam (B2R shape)))) in *. set (a2 := B2R shape * (1 + Rabs (ln (B2R rate)))) in *. set (a3 := (B2R shape + 1) * (1 + Rabs (ln (B2R x)))) in *. set (a4 := B2R rate / B2R x) in *.
  assert (P2 : 0 <= a2) by (unfold a2; apply Rmult_le_pos; lra). assert (P3 : 0 <= a3) by (unfold a3; apply Rmult_le_pos; lra). assert (P4 : 0 <= a4) by (unfold a4; apply Rmult_le_pos; [lra|left; now apply Rinv_0_lt_compat]).
  assert (EA : Rabs (- B2R shape - 1) = B2R shape + 1) by (rewrite Rabs_left; lra).
  assert (M1 : B2R shape + 1 <= a3). { unfold a3. rewrite <- (Rmult_1_r (B2R shape + 1)) at 1. apply Rmult_le_compat_l; lra. }
  assert (A1 : acc 5 (1 + a1) (Bopp (t_lgamma F shape)) (- ln (Gam (B2R shape)))) by (apply acc_opp; apply (acc_le e He 2 (1 + a1)); try (unfold S in HS; lra); apply acc_lgam; auto; fold a1; unfold S in HS; lra).
  assert (A2 : acc 5 (1 + a2) (bmul shape (t_log F rate)) (B2R shape * ln (B2R rate))).
  { replace 5 with (2 * 0 + 5) by lra. unfold a2. rewrite <- (Rabs_pos_eq (B2R shape)) at 1 by lra. apply acc_clog; auto; try lra; [now apply near0|]. rewrite Rabs_pos_eq by lra. fold a2. unfold S in HS. lra. }
  assert (A3 : acc 7 (1 + a3) (bmul (bsub (Bopp shape) (bofZ 1)) (t_log F x)) ((- B2R shape - 1) * ln (B2R x))).
  { replace 7 with (2 * 1 + 5) by lra. unfold a3. rewrite <- EA. apply acc_clog; auto; try lra; [|rewrite EA; fold a3; unfold S in HS; lra]. rewrite <- B2R_Bopp. apply near_m1; [unfold finite; now rewrite is_finite_Bopp|]. rewrite B2R_Bopp, EA. unfold S in HS. lra. }
  assert (A4 : acc 9 (1 + a4) (bdiv rate x) a4) by (apply (acc_le e He 2 (1 + a4)); try (unfold S in HS; lra); apply acc_quot; auto; try lra; fold a4; unfold S in HS; lra).
  replace 11 with (9 + 2) by lra. replace S with ((((1 + a1) + (1 + a2)) + (1 + a3)) + (1 + a4)) by (unfold S; ring). unfold S in HS.
  apply (acc_sub e He 9); auto; try lra. replace 9 with (7 + 2) by lra. apply (acc_add e He 7); auto; try lra. replace 7 with (5 + 2) by lra. apply (acc_add e He 5); auto; lra.
Qed.
End D.
