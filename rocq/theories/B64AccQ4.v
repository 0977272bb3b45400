(** Accuracy of the quantile functions in binary64: gamma, chi-squared, inverse gamma, beta, F,
    Student with one, two and infinitely many degrees of freedom, Bernoulli, Rademacher. *)
From Coq Require Import ZArith QArith Reals Bool Lra Lia.
From Verif Require Import RealElem RealAcc RealAccQ Erf GammaFn BetaFn NormR Spec SpecSF.
From Verif Require FamR FamB.
From Verif Require Import Num Sanity Prob Dens Quant B64 B64R B64Ord SpecB64 SpecAcc SpecAccQ B64Cdf B64Cdf2 B64Cdf3 B64Unif B64Quant B64Quant2 B64Acc B64AccCdf B64AccCdf2 B64AccCdf3 B64AccQ B64AccQ2 B64AccQ3.
From Flocq Require Import Core Sterbenz IEEE754.BinarySingleNaN.
Local Open Scope R_scope.
Notation exp := Rtrigo_def.exp.

Lemma bpos_b64 x : bpos x -> b64_pos x.
Proof.
  intros [Fx Px]. destruct z0 as [Z0 E0]. pose proof (fin_lt _ Fx) as M. split; apply ltb_ev; auto; try (now apply nn_fin); try reflexivity.
  - rewrite E0, ev_fin by auto. lra.
  - unfold plus_inf. rewrite ev_p. lra.
Qed.
Section Q4.
Context (F : TF) (e : R) (He : unit_ok e).
Notation NB := (B64_Num F).
Let e_pos := e_pos e He.
Ltac eqs := change (eqb ?p (ofZ 0)) with (Beqb p (bofZ 0)); change (eqb ?p (ofZ 1)) with (Beqb p (bofZ 1)).
Ltac neq p O := rewrite (proj1 (neq01 p O)), (proj2 (neq01 p O)).
Ltac facts := pose proof e_pos as (E1 & E2 & E3); pose proof He as [_ Hb]; pose proof ulp1_val as U; pose proof tiny_pos; pose proof tiny_small; pose proof huge_1; pose proof huge_inv; pose proof tiny_huge as TH.

(** a scaled value *)
Lemma scaled_acc v s q : near e tiny v (q / B2R s) -> bpos s -> 0 < q <= huge -> B2R s <= huge / 4 -> near (e + ulp1) ((1 + 4 * B2R s) * tiny) (bmul s v) q.
Proof.
  intros N [Fs Ps] Hq Hs. facts. rewrite bmul_comm. assert (Eq : q / B2R s * B2R s = q) by (field; lra).
  assert (St : tiny * B2R s <= / 1000) by (apply Rle_trans with (tiny * huge); [apply Rmult_le_compat_l; lra|exact B64Acc.tiny_huge]).
  rewrite <- Eq. eapply near_le; [apply (near_mul e tiny 0 (2 * tiny * B2R s)); [exact N|now apply near_exact|lra| |rewrite Rabs_pos_eq; lra|lra]| |]; try lra.
  rewrite Eq, Rabs_pos_eq; lra.
Qed.
Lemma qgamma_fin p shape scale : prob p -> bpos shape -> big_eps scale -> qgamma (N:=NB) p shape scale = bmul scale (t_incgamma_inv F shape p).
Proof.
  intros O Psh' Bsc. apply prob_o in O. destruct (big_eps_pos _ Bsc) as (Psc & Psc' & Esc). pose proof (bpos_b64 _ Psh') as Psh.
  unfold qgamma, gamma_sanity2, any_nan2. rewrite pvc, (nan_nn F shape), (nan_nn F scale) by (try (now apply o_in); apply nn_fin; apply Psh' || apply Psc').
  cbn [orb]. change (ltb shape (ofZ 0)) with (Bltb shape (bofZ 0)). rewrite lt0_f by (try apply Psh'; left; apply Psh').
  rewrite (proj2 (eps_lt_f F scale (nn_fin _ (proj1 Psc'))) Esc). cbn [negb]. eqs. rewrite (eq0_f shape) by auto. unfold any_posinf2. rewrite !posinf_fin by (apply Psh' || apply Psc'). neq p O. reflexivity.
Qed.
Lemma qgamma_acc p shape scale q : incgamma_inv_acc F e -> prob p -> bpos shape -> big_eps scale -> B2R scale <= huge / 4 -> 0 < q <= huge -> q / B2R scale <= huge ->
  gamma_cdf (B2R shape) (B2R scale) q = B2R p -> near (e + ulp1) ((1 + 4 * B2R scale) * tiny) (qgamma (N:=NB) p shape scale) q.
Proof.
  intros HF O Psh Bsc Hs Hq Hqs Hc. rewrite qgamma_fin by auto. destruct (big_eps_pos _ Bsc) as (_ & [Fs Ps] & _).
  apply scaled_acc; auto; [|split; auto]. apply HF; auto; [apply O|]. split; auto. apply Rmult_lt_0_compat; [lra|now apply Rinv_0_lt_compat].
Qed.
Lemma qchisq_fin p dof : prob p -> bpos dof -> qchisq (N:=NB) p dof = bmul (bofZ 2) (t_incgamma_inv F (bdiv dof (bofZ 2)) p).
Proof.
  intros O Pd'. apply prob_o in O. unfold qchisq, chisq_sanity1. rewrite pvc, (nan_nn F dof) by (try (now apply o_in); apply nn_fin; apply Pd'). change (ltb dof (ofZ 0)) with (Bltb dof (bofZ 0)). rewrite lt0_f by (try apply Pd'; left; apply Pd').
  cbn [negb]. eqs. neq p O. reflexivity.
Qed.
Lemma qchisq_acc p dof q : incgamma_inv_acc F e -> prob p -> bfin dof -> / huge <= B2R dof <= huge -> 0 < q <= huge ->
  chisq_cdf (B2R dof) q = B2R p -> near (e + ulp1) (9 * tiny) (qchisq (N:=NB) p dof) q.
Proof.
  intros HF O Fd Hd Hq Hc. facts. rewrite qchisq_fin by (auto; split; auto; lra). destruct (half_dof dof Fd Hd) as [Fh Rh]. destruct (bofZ_R 2 ltac:(sm)) as [A2 F2].
  replace (9 * tiny) with ((1 + 4 * B2R (bofZ 2)) * tiny) by (rewrite A2; ring). apply scaled_acc; try apply bpos2; auto; rewrite A2; [|lra].
  apply HF; try (split; [auto|]; rewrite ?Rh; lra); [apply O|]. rewrite Rh. exact Hc.
Qed.
Lemma qbeta_fin p a b : prob p -> bpos a -> bpos b -> qbeta (N:=NB) p a b = t_incbeta_inv F a b p.
Proof.
  intros O Pa' Pb'. apply prob_o in O. pose proof (bpos_b64 _ Pa') as Pa. pose proof (bpos_b64 _ Pb') as Pb.
  unfold qbeta, beta_sanity2, any_nan2. rewrite pvc, (nan_nn F a), (nan_nn F b) by (try (now apply o_in); apply nn_fin; apply Pa' || apply Pb'). cbn [orb].
  change (ltb a (ofZ 0)) with (Bltb a (bofZ 0)). change (ltb b (ofZ 0)) with (Bltb b (bofZ 0)). rewrite !lt0_f by (try apply Pa'; try apply Pb'; left; apply Pa' || apply Pb'). cbn [negb]. eqs.
  rewrite !(eq0_f a), !(eq0_f b) by auto. unfold any_posinf2. rewrite !posinf_fin by (apply Pa' || apply Pb'). neq p O. reflexivity.
Qed.
Lemma qbeta_acc p a b q : incbeta_inv_acc F e -> prob p -> bpos a -> bpos b -> 0 < q < 1 -> beta_cdf (B2R a) (B2R b) q = B2R p -> near e tiny (qbeta (N:=NB) p a b) q.
Proof. intros HF O Pa Pb Hq Hc. rewrite qbeta_fin by auto. apply HF; auto. apply O. Qed.

(** *** inverse gamma: 1 - p is exact for p at least 1/2 *)
Lemma qinvgamma_fin p shape rate : prob p -> bpos shape -> bpos rate -> qinvgamma (N:=NB) p shape rate = bdiv rate (t_incgamma_inv F shape (bsub (bofZ 1) p)).
Proof.
  intros O Psh' Prt'. apply prob_o in O. pose proof (bpos_b64 _ Psh') as Psh. pose proof (bpos_b64 _ Prt') as Prt.
  unfold qinvgamma, invgamma_sanity2, any_nan2. rewrite pvc, (nan_nn F shape), (nan_nn F rate) by (try (now apply o_in); apply nn_fin; apply Psh' || apply Prt'). cbn [orb].
  change (ltb shape (ofZ 0)) with (Bltb shape (bofZ 0)). change (ltb rate (ofZ 0)) with (Bltb rate (bofZ 0)). rewrite !lt0_f by (try apply Psh'; try apply Prt'; left; apply Psh' || apply Prt'). cbn [negb]. eqs.
  rewrite (eq0_f shape), (eq0_f rate) by auto. unfold any_posinf2. rewrite !posinf_fin by (apply Psh' || apply Prt'). neq p O. reflexivity.
Qed.
Lemma qinvgamma_acc p shape rate q : incgamma_inv_acc F e -> prob p -> / 2 <= B2R p -> bpos shape -> bpos rate -> 0 < q <= huge -> / huge <= B2R rate / q <= huge ->
  invgamma_cdf (B2R shape) (B2R rate) q = B2R p -> near (e + 2 * ulp1) tiny (qinvgamma (N:=NB) p shape rate) q.
Proof.
  intros HF O Hp Psh Prt Hq Hr Hc. facts. rewrite qinvgamma_fin by auto. destruct O as [Fp Rp]. destruct (one_minus_exact p Fp ltac:(lra)) as [F1 R1]. destruct Prt as [Fr Pr].
  assert (N : near (e + ulp1) 0 (t_incgamma_inv F shape (bsub (bofZ 1) p)) (B2R rate / q)).
  { apply near_rel with (h := tiny); [|lra|rewrite Rabs_pos_eq by lra; apply Rle_trans with (ulp1 * / huge); [lra|apply Rmult_le_compat_l; lra]].
    apply HF; auto; [lra|]. rewrite R1, <- Hc. unfold invgamma_cdf. ring. }
  assert (Eq : B2R rate / (B2R rate / q) = q) by (field; lra).
  rewrite <- Eq. eapply near_le; [apply (near_div 0 0 (e + ulp1) 0); [now apply near_exact|exact N|lra|lra| |unfold Rdiv; rewrite Rmult_0_r, Rmult_0_l; lra|lra]| |]; try lra.
  rewrite Eq, Rabs_pos_eq; lra.
Qed.

(** *** F *)
Lemma qf_fin p df1 df2 : prob p -> big_eps df1 -> big_eps df2 -> let v := t_incbeta_inv F (bdiv df1 (bofZ 2)) (bdiv df2 (bofZ 2)) p in
  qf (N:=NB) p df1 df2 = bdiv v (bmul (bdiv (bdiv df1 (bofZ 2)) (bdiv df2 (bofZ 2))) (bsub (bofZ 1) v)).
Proof.
  intros O B1 B2 v. apply prob_o in O. destruct (big_eps_pos _ B1) as (_ & Pd1 & Ed1), (big_eps_pos _ B2) as (_ & Pd2 & Ed2).
  unfold qf, f_sanity2, any_nan2. rewrite pvc, (nan_nn F df1), (nan_nn F df2) by (try (now apply o_in); apply nn_fin; apply Pd1 || apply Pd2). cbn [orb].
  rewrite (proj2 (eps_lt_f F df1 (nn_fin _ (proj1 Pd1))) Ed1), (proj2 (eps_lt_f F df2 (nn_fin _ (proj1 Pd2))) Ed2). cbn [negb]. eqs.
  unfold any_posinf2. rewrite !posinf_fin by (apply Pd1 || apply Pd2). neq p O. reflexivity.
Qed.
(** one minus a value known to a relative accuracy k *)
Lemma comp_near k v y z : near k 0 v y -> 0 < y -> z = y / (1 - y) -> y < 1 -> 0 <= k <= / 200 -> 202 / 100 * k * z <= / 200 -> near (203 / 100 * k * z + ulp1) 0 (bsub (bofZ 1) v) (1 - y).
Proof.
  intros (Fv & t & u & T & Su & Ev) Y0 Ez Y1 K S. apply abs_le0 in Su. subst u. rewrite Rplus_0_r in Ev. facts. destruct (bofZ_R 1 ltac:(sm)) as [A1 F1].
  pose proof (exp_abs' t k T ltac:(lra)) as X. assert (Z0 : 0 < z) by (rewrite Ez; apply Rmult_lt_0_compat; [lra|apply Rinv_0_lt_compat; lra]).
  set (d := - (z * (exp t - 1))). assert (Ed : 1 - B2R v = (1 - y) * (1 + d)) by (rewrite Ev; unfold d; rewrite Ez; field; lra).
  assert (Dd : Rabs d <= 101 / 100 * k * z) by (unfold d; rewrite Rabs_Ropp, Rabs_mult, (Rabs_pos_eq z) by lra; pose proof (Rmult_le_compat_l z _ _ ltac:(lra) X); lra).
  pose proof (ln_abs d ltac:(lra)) as L. assert (P : 0 < 1 + d) by (apply Rabs_le_inv in Dd; lra).
  assert (N : near ulp1 0 (bsub (bofZ 1) v) (1 - B2R v)).
  { rewrite <- A1. apply near_sub; auto. rewrite A1, Ed. apply Rabs_le_inv in Dd. rewrite Rabs_pos_eq by (apply Rmult_le_pos; lra). apply Rle_trans with (1 * 2); [apply Rmult_le_compat|]; lra. }
  destruct N as (Fw & t2 & s2 & T2 & S2 & W2). split; auto. exists (ln (1 + d) + t2), s2. split; [|split; auto].
  - eapply Rle_trans; [apply Rabs_triang|]. assert (0 <= k * z) by (apply Rmult_le_pos; lra). lra.
  - rewrite W2, Ed, exp_plus, exp_ln by auto. ring.
Qed.
Lemma qf_acc p df1 df2 q : incbeta_inv_acc F e -> prob p -> big_eps df1 -> big_eps df2 -> let d1 := B2R df1 in let d2 := B2R df2 in let z := d1 * q / d2 in
  d1 <= huge -> d2 <= huge -> 0 < q <= huge -> / huge <= d1 / d2 <= huge -> / huge <= z / (1 + z) -> / huge <= d1 / d2 / (1 + z) -> 10 * e * (1 + z) <= / 200 ->
  f_cdf d1 d2 q = B2R p -> near (10 * e * (1 + z)) tiny (qf (N:=NB) p df1 df2) q.
Proof.
  intros HF O B1 B2 d1 d2 z H1 H2 Hq Hd Hy Hdz Hk Hc. facts. rewrite qf_fin by auto. destruct (big_eps_R _ B1) as [Fd1 L1], (big_eps_R _ B2) as [Fd2 L2]. fold d1 in L1. fold d2 in L2.
  assert (UH : / huge <= ulp1) by (unfold huge, ulp1; rewrite <- bpow_opp; apply bpow_le; lia).
  destruct (half_dof df1 Fd1) as [Fa Ra]; [fold d1; lra|]. destruct (half_dof df2 Fd2) as [Fb Rb]; [fold d2; lra|]. fold d1 in Ra. fold d2 in Rb.
  set (a := bdiv df1 (bofZ 2)) in *. set (b := bdiv df2 (bofZ 2)) in *. set (v := t_incbeta_inv F a b p).
  assert (Dp : 0 < d1 /\ 0 < d2) by lra. assert (I2 : 0 < / d2) by (apply Rinv_0_lt_compat; lra).
  assert (Z0 : 0 < z) by (unfold z, Rdiv; apply Rmult_lt_0_compat; [apply Rmult_lt_0_compat; lra|auto]).
  set (y := z / (1 + z)) in *. assert (I1 : 0 < / (1 + z)) by (apply Rinv_0_lt_compat; lra).
  assert (Ey : 1 - y = / (1 + z)) by (unfold y; field; lra). assert (Y0 : 0 < y) by (unfold y, Rdiv; apply Rmult_lt_0_compat; lra).
  assert (Ey2 : d1 * q / (d2 + d1 * q) = y) by (unfold y, z; field; split; nra).
  assert (Nv : near (e + ulp1) 0 v y).
  { apply near_rel with (h := tiny); [|lra|rewrite Rabs_pos_eq by lra; apply Rle_trans with (ulp1 * / huge); [lra|apply Rmult_le_compat_l; lra]].
    apply HF; try (split; [auto|]; rewrite ?Ra, ?Rb; lra); [apply O|]. rewrite Ra, Rb, <- Ey2. exact Hc. }
  assert (Ez : z = y / (1 - y)) by (rewrite Ey; unfold y; field; lra).
  assert (ez : 0 <= e * z) by (apply Rmult_le_pos; lra). assert (uz : ulp1 * z <= e * z) by (apply Rmult_le_compat_r; lra).
  pose proof (comp_near _ v y z Nv Y0 Ez ltac:(lra) ltac:(lra) ltac:(lra)) as Nc.
  assert (Rab : B2R a / B2R b = d1 / d2) by (rewrite Ra, Rb; field; lra).
  assert (Pb : bpos b) by (split; [exact Fb|rewrite Rb; lra]).
  destruct (quot_near a b Fa Pb) as [Nr _]; [rewrite Rab; auto|]. rewrite Rab in Nr.
  set (k1 := 203 / 100 * (e + ulp1) * z + ulp1) in *. assert (K1 : 0 <= k1 <= 41 / 10 * (e * z) + ulp1) by (unfold k1; assert (0 <= ulp1 * z) by (apply Rmult_le_pos; lra); lra).
  assert (Nm : near (2 * ulp1 + k1 + ulp1 + ulp1) 0 (bmul (bdiv a b) (bsub (bofZ 1) v)) (d1 / d2 * (1 - y))).
  { assert (P : / huge <= d1 / d2 * (1 - y)) by (rewrite Ey; exact Hdz).
    apply near_rel with (h := 2 * 0 + tiny); [|lra|rewrite Rabs_pos_eq by lra; apply Rle_trans with (ulp1 * / huge); [lra|apply Rmult_le_compat_l; lra]].
    apply (near_mul (2 * ulp1) 0 k1 0); auto; try lra. rewrite Rabs_pos_eq by lra. rewrite Ey. assert (/ (1 + z) <= 1) by (rewrite <- Rinv_1; apply Rinv_le_contravar; lra). nra. }
  assert (Eq : y / (d1 / d2 * (1 - y)) = q) by (rewrite Ey; unfold y, z; field; repeat split; nra).
  rewrite <- Eq. eapply near_le; [apply (near_div (e + ulp1) 0 (2 * ulp1 + k1 + ulp1 + ulp1) 0); [exact Nv|exact Nm| |lra| |unfold Rdiv; rewrite Rmult_0_r, Rmult_0_l; lra|lra]| |]; try lra.
  - rewrite Ey. apply Rgt_not_eq, Rlt_gt. apply Rmult_lt_0_compat; lra.
  - rewrite Eq, Rabs_pos_eq; lra.
Qed.

(** *** Student with one, two and infinitely many degrees of freedom *)
Lemma qt1_acc p q : tan_acc F e -> const_acc e (t_PI F) PI -> prob p -> t_cdf 1 q = B2R p -> 28 * e * Rabs q <= 1 -> within (13 * e * (1 + q ^ 2)) (qt (N:=NB) p (bofZ 1)) q.
Proof.
  intros HF C O Hc Hq. pose proof (prob_o p O) as O'.
  assert (Eq : q = tan (PI * (B2R p - / 2))).
  { rewrite <- FamR.t_cdf_1 in Hc. rewrite <- (cauchy_qf_cdf 0 1 q), Hc by lra. unfold cauchy_qf. rewrite Rplus_0_l, Rmult_1_l. do 2 f_equal. lra. }
  assert (E : qt (N:=NB) p (bofZ 1) = t_tan F (bmul (t_PI F) (bsub p (blit (1#2))))).
  { unfold qt. rewrite pvc by now apply o_in. change (t_sanity1 (N:=NB) (bofZ 1)) with true. cbn [negb]. eqs. change (Beqb (bofZ 1) (bofZ 1)) with true. neq p O'. reflexivity. }
  rewrite E, Eq. apply tan_within; auto. now rewrite <- Eq.
Qed.
Lemma qtinf_acc p q : const_acc e (t_SQRT_2 F) (R_sqrt.sqrt 2) -> erf_inv_acc F e -> prob p -> B2R (bsub (bmul (bofZ 2) p) (bofZ 1)) = 2 * B2R p - 1 -> norm_cdf 0 1 q = B2R p -> Rabs q <= huge / 8 ->
  within (8 * e * Rabs q + 4 * tiny) (qt (N:=NB) p (B754_infinity false)) q.
Proof.
  intros C HF O Hp Hc Hq. facts. pose proof (prob_o p O) as O'. destruct (bofZ_R 0 ltac:(sm)) as [A0 F0], (bofZ_R 1 ltac:(sm)) as [A1 F1].
  assert (E : qt (N:=NB) p (B754_infinity false) = qnorm (N:=NB) p (bofZ 0) (bofZ 1)).
  { unfold qt. rewrite pvc by now apply o_in. change (t_sanity1 (N:=NB) (B754_infinity false)) with true. cbn [negb]. eqs. neq p O'. reflexivity. }
  rewrite E. assert (P1 : bpos (bofZ 1)) by (split; [auto|lra]).
  pose proof (qnorm_acc F e He p (bofZ 0) (bofZ 1) q C HF O Hp F0 P1) as Q. rewrite A0, A1, Rabs_R0, Rminus_0_r in Q. eapply within_le; [apply Q; auto; lra|]. lra.
Qed.
Lemma sqrt_near k x r : near k 0 x r -> 0 <= k <= / 200 -> / huge <= r <= huge -> near (k / 2 + 2 * ulp1) 0 (Bsqrt mode_NE x) (R_sqrt.sqrt r).
Proof.
  intros (Fx & t & u & T & Su & Ev) K Hr. apply abs_le0 in Su. subst u. rewrite Rplus_0_r in Ev. facts.
  assert (Px : 0 < B2R x) by (rewrite Ev; apply Rmult_lt_0_compat; [lra|apply exp_pos]).
  assert (Es : R_sqrt.sqrt (B2R x) = R_sqrt.sqrt r * exp (t / 2)).
  { rewrite Ev, sqrt_mult by (try lra; left; apply exp_pos). f_equal. replace t with (t / 2 + t / 2) at 1 by field. rewrite exp_plus. apply sqrt_square. left. apply exp_pos. }
  assert (Sr : / huge <= R_sqrt.sqrt r).
  { pose proof (sqrt_sqrt r ltac:(lra)). pose proof (sqrt_lt_R0 r ltac:(lra)). destruct (Rle_dec (R_sqrt.sqrt r) 1); nra. }
  pose proof (Bsqrt_correct 53 1024 b64_prec_gt_0 b64_prec_lt_emax mode_NE x) as (B1 & B2 & _).
  assert (Fs : finite (Bsqrt mode_NE x)).
  { unfold finite. rewrite B2. destruct x as [s|s| |s m ex Hx]; auto; try discriminate Fx. destruct s; auto. exfalso.
    pose proof (F2R_lt_0 radix2 (Float radix2 (Z.neg m) ex) ltac:(cbn; lia)) as Q. unfold B2R in Px. cbn [cond_Zopp] in Px. change (- Z.pos m)%Z with (Z.neg m) in Px. lra. }
  replace (k / 2 + 2 * ulp1) with (k / 2 + ulp1 + ulp1) by ring. apply near_rel with (h := tiny); [|lra|rewrite Rabs_pos_eq by lra; apply Rle_trans with (ulp1 * / huge); [lra|apply Rmult_le_compat_l; lra]].
  split; auto. destruct (rnd_near (R_sqrt.sqrt (B2R x))) as (t2 & s2 & T2 & S2 & W2).
  exists (t / 2 + t2), s2. split; [apply abs_sum; auto; unfold Rdiv; rewrite Rabs_mult, (Rabs_pos_eq (/ 2)) by lra; lra|split; auto].
  transitivity (rnd (R_sqrt.sqrt (B2R x))); [exact B1|]. rewrite W2, Es, exp_plus. ring.
Qed.
Lemma qt2_acc p q : prob p -> / huge <= B2R p -> t_cdf 2 q = B2R p -> Rabs q <= huge -> near (8 * ulp1) tiny (qt (N:=NB) p (bofZ 2)) q.
Proof.
  intros O Hp Hc Hq. facts. pose proof (prob_o p O) as O'. pose proof O as [Fp Rp]. destruct (bofZ_R 1 ltac:(sm)) as [A1 F1].
  assert (Eq : q = (2 * B2R p - 1) / R_sqrt.sqrt (2 * B2R p * (1 - B2R p))) by (apply (FamB.t_cdf_inj 2); [lra|]; rewrite Hc; symmetry; now apply FamB.t2_qf_cdf).
  assert (E : qt (N:=NB) p (bofZ 2) = bdiv (bsub (bmul (bofZ 2) p) (bofZ 1)) (Bsqrt mode_NE (bmul (bmul (bofZ 2) p) (bsub (bofZ 1) p)))).
  { unfold qt. rewrite pvc by now apply o_in. change (t_sanity1 (N:=NB) (bofZ 2)) with true. cbn [negb]. eqs. change (Beqb (bofZ 2) (bofZ 1)) with false. change (eqb (bofZ 2) (ofZ 2)) with true. neq p O'. reflexivity. }
  rewrite E. destruct (dbl_exact p Fp) as [F2 R2]; [rewrite Rabs_pos_eq; lra|].
  assert (N1 : near ulp1 0 (bsub (bmul (bofZ 2) p) (bofZ 1)) (2 * B2R p - 1)) by (rewrite <- R2, <- A1; apply near_sub; auto; rewrite R2, A1; apply Rabs_le; lra).
  pose proof (one_minus_near p O) as N2.
  assert (L : / huge <= 2 * B2R p * (1 - B2R p) <= 1).
  { split; [|nra]. destruct (Rle_dec (B2R p) (/ 2)); [nra|]. pose proof (below_1 p Fp ltac:(lra)) as Q. assert (B1 : bpow radix2 (-53) <= 1 - B2R p) by lra.
    assert (/ huge <= bpow radix2 (-53)) by (unfold huge; rewrite <- bpow_opp; apply bpow_le; lia). nra. }
  assert (N3 : near (0 + ulp1 + ulp1 + ulp1) 0 (bmul (bmul (bofZ 2) p) (bsub (bofZ 1) p)) (2 * B2R p * (1 - B2R p))).
  { apply near_rel with (h := 2 * 0 + tiny); [|lra|rewrite Rabs_pos_eq by lra; apply Rle_trans with (ulp1 * / huge); [lra|apply Rmult_le_compat_l; lra]].
    apply (near_mul 0 0 ulp1 0); auto; try lra. - rewrite <- R2. now apply near_exact. - rewrite Rabs_pos_eq; lra. }
  pose proof (sqrt_near _ _ _ N3 ltac:(lra) ltac:(lra)) as N4. pose proof (sqrt_lt_R0 (2 * B2R p * (1 - B2R p)) ltac:(lra)) as S0.
  rewrite Eq. eapply near_le; [apply (near_div ulp1 0 ((0 + ulp1 + ulp1 + ulp1) / 2 + 2 * ulp1) 0); [exact N1|exact N4|lra|lra|now rewrite <- Eq|unfold Rdiv; rewrite Rmult_0_r, Rmult_0_l; lra|lra]| |]; lra.
Qed.

(** *** Bernoulli, Rademacher: exact unless p is within two units in the last place of 1 - b *)
Lemma thr_acc b p : prob p -> Bleb (bofZ 0) b = true -> Bleb b (bofZ 1) = true -> 2 * ulp1 * (1 - B2R b) < Rabs (B2R p - (1 - B2R b)) ->
  Bltb (bsub (bofZ 1) b) p = true <-> 1 - B2R b < B2R p.
Proof.
  intros [Fp Rp] A B H. facts. destruct (prob_range b A B) as [Fb Rb]. destruct (B64AccCdf3.one_minus_near b Fb Rb) as (Fs & t & u & T & Su & Ev). apply abs_le0 in Su. subst u. rewrite Rplus_0_r in Ev.
  pose proof (exp_abs' t _ T ltac:(lra)) as X. apply Rabs_le_inv in X. set (w := bsub (bofZ 1) b) in *. set (c := 1 - B2R b) in *. assert (C0 : 0 <= c) by (unfold c; lra).
  assert (W : Rabs (B2R w - c) <= 101 / 100 * ulp1 * c). { rewrite Ev. apply Rabs_le. nra. }
  assert (UC : 0 <= ulp1 * c) by (apply Rmult_le_pos; lra). apply Rabs_le_inv in W. unfold Rabs in H. split.
  - intros L. apply (bltb_R w p Fs Fp) in L. destruct (Rcase_abs (B2R p - c)); lra.
  - intros L. apply (bltb_R w p Fs Fp). destruct (Rcase_abs (B2R p - c)); lra.
Qed.
Lemma qbern_acc p b : prob p -> Bleb (bofZ 0) b = true -> Bleb b (bofZ 1) = true -> 2 * ulp1 * (1 - B2R b) < Rabs (B2R p - (1 - B2R b)) ->
  (1 - B2R b < B2R p -> qbern (N:=NB) p b = bofZ 1) /\ (B2R p <= 1 - B2R b -> qbern (N:=NB) p b = bofZ 0).
Proof.
  intros O A B H. pose proof (thr_acc b p O A B H) as T. pose proof (prob_o p O) as O'. unfold qbern. rewrite bern_ok, pvc by (auto; now apply o_in). cbn [negb].
  split; intros L.
  - change ((if Bltb (bsub (bofZ 1) b) p then bofZ 1 else bofZ 0) = bofZ 1). rewrite (proj2 T L). reflexivity.
  - change ((if Bltb (bsub (bofZ 1) b) p then bofZ 1 else bofZ 0) = bofZ 0). destruct (Bltb (bsub (bofZ 1) b) p) ; [exfalso; pose proof (proj1 T eq_refl); lra|]. reflexivity.
Qed.
Lemma qradem_acc p b : prob p -> Bleb (bofZ 0) b = true -> Bleb b (bofZ 1) = true -> 2 * ulp1 * (1 - B2R b) < Rabs (B2R p - (1 - B2R b)) ->
  (1 - B2R b < B2R p -> qradem (N:=NB) p b = bofZ 1) /\ (B2R p <= 1 - B2R b -> qradem (N:=NB) p b = bofZ (-1)).
Proof.
  intros O A B H. pose proof (thr_acc b p O A B H) as T. pose proof (prob_o p O) as O'. unfold qradem. change (radem_sanity (N:=NB) b) with (bern_sanity (N:=NB) b). rewrite bern_ok, pvc by (auto; now apply o_in). cbn [negb].
  split; intros L.
  - change ((if Bltb (bsub (bofZ 1) b) p then bofZ 1 else bofZ (-1)) = bofZ 1). rewrite (proj2 T L). reflexivity.
  - change ((if Bltb (bsub (bofZ 1) b) p then bofZ 1 else bofZ (-1)) = bofZ (-1)). destruct (Bltb (bsub (bofZ 1) b) p) ; [exfalso; pose proof (proj1 T eq_refl); lra|]. reflexivity.
Qed.
End Q4.
