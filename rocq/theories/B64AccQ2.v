(** Accuracy of the quantile functions in binary64: uniform, Cauchy, Laplace, normal, log-normal. *)
From Coq Require Import ZArith QArith Reals Bool Lra Lia.
From Verif Require Import RealElem RealAcc RealAccQ Erf GammaFn BetaFn NormR Spec SpecSF.
From Verif Require Import Num Sanity Prob Dens Quant B64 B64R B64Ord SpecB64 SpecAcc SpecAccQ B64Cdf B64Cdf2 B64Cdf3 B64Unif B64Quant B64Quant2 B64Acc B64AccCdf B64AccCdf2 B64AccCdf3 B64AccQ.
From Flocq Require Import Core Sterbenz IEEE754.BinarySingleNaN.
Local Open Scope R_scope.
Notation exp := Rtrigo_def.exp. Notation PI := Rtrigo1.PI. Notation tan := Rtrigo1.tan.

Section Q2.
Variable F : TF.
Notation NB := (B64_Num F).
Variable e : R.
Hypothesis He : unit_ok e.
Local Notation e_pos := (e_pos e He).
Ltac eqs := change (@eqb b64 NB) with (Beqb (prec:=53) (emax:=1024)); change (@ofZ b64 NB) with bofZ.
Ltac neq p O := rewrite (proj1 (neq01 p O)), (proj2 (neq01 p O)).

(** *** uniform *)
Lemma qunif_acc p a b q : prob p -> bfin a -> bfin b -> B2R a < B2R b -> unif_cdf (B2R a) (B2R b) q = B2R p -> Rabs (B2R a) + (B2R b - B2R a) <= huge / 4 ->
  within (5 * ulp1 * (Rabs (B2R a) + (q - B2R a)) + 2 * tiny) (qunif (N:=NB) p a b) q.
Proof.
  intros O Fa Fb L Hq HB. pose proof (prob_o p O) as O'. destruct O as [Fp Rp]. pose proof ulp1_val as U. pose proof huge_1. pose proof tiny_pos. pose proof (Rabs_pos (B2R a)).
  assert (D : Rabs (B2R b - B2R a) = B2R b - B2R a) by (apply Rabs_pos_eq; lra).
  pose proof (near_within _ _ _ _ (near_sub b a Fb Fa ltac:(rewrite D; lra)) ltac:(lra)) as W. rewrite D in W. rewrite Rplus_0_r in W.
  assert (E : qunif (N:=NB) p a b = badd a (bmul p (bsub b a))).
  { unfold qunif. rewrite pvc by now apply o_in. rewrite unif2_ok by auto. cbn [negb]. unfold any_inf2. rewrite !inf_fin by auto. eqs. neq p O'. reflexivity. }
  assert (Eq : q = B2R a + B2R p * (B2R b - B2R a)) by (rewrite <- (unif_qf_cdf (B2R a) (B2R b) q), Hq by auto; reflexivity).
  pose proof (ls_add _ _ _ a p W Fa Fp) as W2. rewrite D, (Rabs_pos_eq (B2R p)) in W2 by lra. set (w := B2R b - B2R a) in *. set (pp := B2R p) in *.
  rewrite E. assert (X : q - B2R a = pp * w) by (rewrite Eq; ring). rewrite X. rewrite <- Eq in W2.
  assert (P1 : pp * (101 / 100 * ulp1 * w) = 101 / 100 * ulp1 * (pp * w)) by ring. rewrite Rmult_plus_distr_l, P1 in W2.
  assert (w0 : 0 < w) by (unfold w; lra). assert (P0 : 0 <= pp * w) by nra. assert (PL : pp * w <= w) by nra. rewrite U in W2. specialize (W2 ltac:(lra)). eapply within_le; [exact W2|]. rewrite U. lra.
Qed.

(** *** Cauchy *)
Lemma qcauchy_fin p mu sigma : prob p -> bfin mu -> bpos sigma -> qcauchy (N:=NB) p mu sigma = badd mu (bmul sigma (t_tan F (bmul (t_PI F) (bsub p (blit (1#2)))))).
Proof.
  intros O Fm Ps. apply prob_o in O. unfold qcauchy. change (cauchy_sanity2 (N:=NB) mu sigma) with (norm_sanity2 (N:=NB) mu sigma). rewrite ls_sanity, pvc by (auto; now apply o_in). cbn [negb]. eqs. rewrite eq0_f by auto.
  rewrite (posinf_fin F sigma), (posinf_fin F mu), (neginf_fin F mu) by (auto; apply Ps). neq p O. reflexivity.
Qed.
Lemma tan_within p : tan_acc F e -> const_acc e (t_PI F) PI -> prob p -> 28 * e * Rabs (tan (PI * (B2R p - / 2))) <= 1 ->
  within (13 * e * (1 + tan (PI * (B2R p - / 2)) ^ 2)) (t_tan F (bmul (t_PI F) (bsub p (blit (1#2))))) (tan (PI * (B2R p - / 2))).
Proof.
  intros HF C [Fp Rp] Hz. pose proof e_pos as (E1 & E2 & E3). pose proof He as [_ Hb]. pose proof ulp1_val as U. pose proof huge_1. pose proof tiny_pos. pose proof PI_4 as P4. pose proof PI_RGT_0 as P0.
  destruct half_R as [Hf Hr]. assert (Bd : Rabs (B2R p - / 2) <= / 2) by (apply Rabs_le; lra).
  pose proof (near_sub p _ Fp Hf ltac:(rewrite Hr; lra)) as N1. rewrite Hr in N1. set (a := PI * (B2R p - / 2)) in *.
  assert (Aa : Rabs a <= 2) by (unfold a; rewrite Rabs_mult, (Rabs_pos_eq PI) by lra; pose proof (Rabs_pos (B2R p - / 2)); nra).
  pose proof (near_mul e 0 ulp1 0 _ _ _ _ C N1 ltac:(lra) ltac:(fold a; lra) ltac:(lra) ltac:(lra)) as N2. fold a in N2.
  pose proof (near_within _ _ _ _ N2 ltac:(lra)) as W. set (x := bmul (t_PI F) (bsub p (blit (1#2)))) in *. destruct W as [Fx Dx].
  assert (Dl : Rabs (B2R x - a) <= 7 * e) by (pose proof (Rabs_pos a); nra). set (d := B2R x - a) in *. assert (Ex : B2R x = a + d) by (unfold d; ring).
  set (z := tan a) in *. pose proof (Rabs_pos z) as Z0. pose proof (Rabs_pos d) as D0.
  assert (Ra : - (PI / 2) < a < PI / 2) by (unfold a; nra).
  destruct (tan_pert a d Ra ltac:(lra)) as [Rd Td]; [fold z; nra|]. fold z in Td.
  assert (Z2 : 0 <= z ^ 2 /\ 2 * Rabs z <= 1 + z ^ 2). { rewrite <- (pow2_abs z). split; [apply pow2_ge_0|]. pose proof (pow2_ge_0 (Rabs z - 1)). nra. }
  assert (Td' : Rabs (tan (a + d) - z) <= 21 / 2 * e * (1 + z ^ 2)).
  { eapply Rle_trans; [exact Td|]. apply Rmult_le_compat_r; lra. }
  assert (Ez : e * z ^ 2 <= Rabs z / 28). { rewrite <- (pow2_abs z). replace (e * Rabs z ^ 2) with (Rabs z * (e * Rabs z)) by ring. nra. }
  assert (Tb : Rabs (tan (a + d)) <= 2 * Rabs z + 1).
  { replace (tan (a + d)) with (z + (tan (a + d) - z)) by ring. eapply Rle_trans; [apply Rabs_triang|]. nra. }
  assert (Zh : 2 * Rabs z + 1 <= huge). { assert (28 * ulp1 * Rabs z <= 1) by nra. rewrite U in *. 
    assert (1000000000000000000000 <= huge) by (unfold huge; eapply Rle_trans; [|apply bpow_le with (e1 := 70%Z); lia]; cbn; lra). lra. }
  pose proof (HF x Fx) as N3. rewrite Ex in N3. specialize (N3 (conj Rd (Rle_trans _ _ _ Tb Zh))).
  pose proof (near_within _ _ _ _ N3 ltac:(lra)) as W3. pose proof (within_tri _ _ _ _ _ W3 Td') as W4. eapply within_le; [exact W4|]. nra.
Qed.
Lemma qcauchy_acc p mu sigma q : tan_acc F e -> const_acc e (t_PI F) PI -> prob p -> bfin mu -> bpos sigma -> cauchy_cdf (B2R mu) (B2R sigma) q = B2R p ->
  28 * e * (Rabs (q - B2R mu) / B2R sigma) <= 1 -> Rabs (B2R mu) + 2 * Rabs (q - B2R mu) + B2R sigma <= huge / 2 ->
  within (3 * e * Rabs (B2R mu) + 16 * e * B2R sigma * (1 + ((q - B2R mu) / B2R sigma) ^ 2) + 2 * tiny) (qcauchy (N:=NB) p mu sigma) q.
Proof.
  intros HF C O Fm Ps Hq Hz HB. rewrite qcauchy_fin by auto. pose proof e_pos as (E1 & E2 & E3). pose proof He as [_ Hb]. pose proof ulp1_val as U. pose proof tiny_pos. pose proof huge_1. pose proof Ps as [Fs Ps'].
  assert (Eq : q = B2R mu + B2R sigma * tan (PI * (B2R p - / 2))) by (rewrite <- (cauchy_qf_cdf (B2R mu) (B2R sigma) q), Hq by auto; unfold cauchy_qf; do 4 f_equal; lra).
  set (z := tan (PI * (B2R p - / 2))) in *. set (m := B2R mu) in *. set (s := B2R sigma) in *.
  assert (Ez : (q - m) / s = z) by (rewrite Eq; field; lra). assert (Az : Rabs (q - m) / s = Rabs z).
  { rewrite <- Ez. unfold Rdiv. rewrite Rabs_mult, (Rabs_pos_eq (/ s)); auto. left. now apply Rinv_0_lt_compat. }
  rewrite Az in Hz. rewrite Ez. pose proof (tan_within p HF C O) as W. fold z in W. specialize (W Hz). set (d := 13 * e * (1 + z ^ 2)) in *.
  assert (Dz : Rabs (q - m) = s * Rabs z) by (rewrite <- Az; field; lra). rewrite Dz in HB.
  pose proof (Rabs_pos z) as Z0. pose proof (Rabs_pos m).
  assert (Z2 : 0 <= z ^ 2 /\ 2 * Rabs z <= 1 + z ^ 2). { rewrite <- (pow2_abs z). split; [apply pow2_ge_0|]. pose proof (pow2_ge_0 (Rabs z - 1)). nra. }
  assert (Ez2 : e * z ^ 2 <= Rabs z / 28). { rewrite <- (pow2_abs z). replace (e * Rabs z ^ 2) with (Rabs z * (e * Rabs z)) by ring. nra. }
  assert (D1 : d <= Rabs z / 2 + / 100) by (unfold d; nra). assert (D0 : 0 <= d) by (unfold d; nra).
  pose proof (ls_add d _ z mu sigma W Fm Fs) as W2. fold m s in W2. rewrite (Rabs_pos_eq s) in W2 by lra. rewrite <- Eq in W2.
  assert (K : s * (Rabs z + d) <= s * (3 / 2 * Rabs z + / 100)) by (apply Rmult_le_compat_l; lra).
  specialize (W2 ltac:(nra)). eapply within_le; [exact W2|].
  assert (X1 : ulp1 * Rabs m <= e * Rabs m) by nra.
  assert (X2 : 3 * ulp1 * (s * (Rabs z + d)) <= 3 * e * (s * (3 / 4 * (1 + z ^ 2) + / 100))).
  { apply Rmult_le_compat; try nra. }
  assert (X3 : 0 <= e * s) by nra. assert (X4 : 0 <= e * s * z ^ 2) by nra. unfold d. nra.
Qed.

(** *** Laplace: the argument of the logarithm is exact when p - 1/2 is, in particular for p at least 1/4 *)
Lemma half_exact p : prob p -> / 4 <= B2R p -> finite (bsub p (blit (1#2))) /\ B2R (bsub p (blit (1#2))) = B2R p - / 2.
Proof.
  intros [Fp Rp] H. destruct half_R as [Hf Hr]. pose proof huge_1. destruct (bsub_R p _ Fp Hf) as [E G]; [apply rnd_bound; rewrite Hr; apply Rabs_le; lra|].
  split; auto. rewrite E, Hr. apply rnd_fmt. rewrite <- Hr. apply (sterbenz radix2 (FLT_exp (-1074) 53)); try exact (generic_format_B2R 53 1024 _). rewrite Hr. lra.
Qed.
Lemma one_minus_exact x : finite x -> / 2 <= B2R x <= 1 -> finite (bsub (bofZ 1) x) /\ B2R (bsub (bofZ 1) x) = 1 - B2R x.
Proof.
  intros Fx Rx. destruct (bofZ_R 1 ltac:(sm)) as [A1 F1]. pose proof huge_1. destruct (bsub_R (bofZ 1) x F1 Fx) as [E G]; [apply rnd_bound; rewrite A1; apply Rabs_le; lra|].
  split; auto. rewrite E, A1. apply rnd_fmt. rewrite <- A1. apply (sterbenz radix2 (FLT_exp (-1074) 53)); try exact (generic_format_B2R 53 1024 _). rewrite A1. lra.
Qed.
Lemma fmt_1m x : finite x -> / 2 <= B2R x <= 1 -> generic_format radix2 (SpecFloat.fexp 53 1024) (1 - B2R x).
Proof.
  intros Fx Rx. destruct (bofZ_R 1 ltac:(sm)) as [A1 F1]. rewrite <- A1. apply (sterbenz radix2 (FLT_exp (-1074) 53)); try exact (generic_format_B2R 53 1024 _). rewrite A1. lra.
Qed.
Lemma half_fin p : prob p -> finite (bsub p (blit (1#2))).
Proof. intros [Fp Rp]. destruct half_R as [Hf Hr]. pose proof huge_1. apply (bsub_R p _ Fp Hf). apply rnd_bound. rewrite Hr. apply Rabs_le. lra. Qed.
Lemma tent_exact p : prob p -> B2R (bsub p (blit (1#2))) = B2R p - / 2 -> let w := bsub (bofZ 1) (bmul (bofZ 2) (Babs (bsub p (blit (1#2))))) in
  finite w /\ B2R w = 1 - 2 * Rabs (B2R p - / 2).
Proof.
  intros O Ru w. pose proof (half_fin p O) as Fu. destruct O as [Fp Rp]. pose proof huge_1. destruct (bofZ_R 1 ltac:(sm)) as [A1 F1].
  assert (Fa : finite (Babs (bsub p (blit (1#2))))) by (unfold finite; now rewrite is_finite_Babs).
  assert (Bd : Rabs (B2R p - / 2) <= / 2) by (apply Rabs_le; lra). pose proof (Rabs_pos (B2R p - / 2)).
  destruct (dbl_exact (Babs (bsub p (blit (1#2)))) Fa) as [F2 R2]; [rewrite B2R_Babs, Ru, Rabs_pos_eq; lra|]. rewrite B2R_Babs, Ru in R2.
  destruct (bsub_R (bofZ 1) _ F1 F2) as [E G]; [apply rnd_bound; rewrite A1, R2; apply Rabs_le; lra|].
  split; auto. unfold w. rewrite E, A1, R2. apply rnd_fmt.
  destruct (Rle_lt_dec (/ 2) (B2R p)) as [L|L].
  - rewrite Rabs_pos_eq by lra. replace (1 - 2 * (B2R p - / 2)) with (2 * (1 - B2R p)) by lra. apply fmt2. apply fmt_1m; auto. lra.
  - rewrite Rabs_left by lra. replace (1 - 2 * - (B2R p - / 2)) with (2 * B2R p) by lra. apply fmt2. apply generic_format_B2R.
Qed.
Lemma sgn_val x : bfin x -> IZR (sgn (N:=NB) x) = Rsign (B2R x) /\ (sgn (N:=NB) x = 1 \/ sgn (N:=NB) x = 0 \/ sgn (N:=NB) x = -1)%Z.
Proof.
  intros Fx. destruct (bofZ_R 0 ltac:(sm)) as [A0 F0]. unfold sgn, Rsign.
  change (ltb (ofZ 0) x) with (Bltb (bofZ 0) x). change (ltb x (ofZ 0)) with (Bltb x (bofZ 0)).
  pose proof (bltb_R (bofZ 0) x F0 Fx) as B1. pose proof (bltb_R x (bofZ 0) Fx F0) as B2. rewrite A0 in B1, B2.
  destruct Rlt_dec as [L|L].
  - rewrite (proj2 B1) by auto. destruct (Bltb x (bofZ 0)) eqn:E; [pose proof (proj1 B2 eq_refl); lra|]. cbn. split; [lra|auto].
  - destruct (Bltb (bofZ 0) x) eqn:E; [pose proof (proj1 B1 eq_refl); lra|]. destruct Rlt_dec as [M|M].
    + rewrite (proj2 B2) by auto. cbn. split; [lra|auto].
    + destruct (Bltb x (bofZ 0)) eqn:E'; [pose proof (proj1 B2 eq_refl); lra|]. cbn. split; [lra|auto].
Qed.
Lemma sig_sgn sigma k : bfin sigma -> Rabs (B2R sigma) <= huge -> (k = 1 \/ k = 0 \/ k = -1)%Z -> finite (bmul sigma (bofZ k)) /\ B2R (bmul sigma (bofZ k)) = B2R sigma * IZR k.
Proof.
  intros Fs Hs Hk. destruct (bofZ_R k) as [A Fk]; [destruct Hk as [-> | [-> | ->]]; cbn; lia|]. pose proof huge_pos.
  assert (Bd : Rabs (B2R sigma * IZR k) <= 4 * huge). { rewrite Rabs_mult. pose proof (Rabs_pos (B2R sigma)). assert (Rabs (IZR k) <= 1) by (apply Rabs_le; destruct Hk as [-> | [-> | ->]]; lra). pose proof (Rabs_pos (IZR k)). nra. }
  destruct (bmul_R sigma (bofZ k) Fs Fk) as [E G]; [apply rnd_bound; now rewrite A|]. split; auto. rewrite E, A. apply rnd_fmt.
  destruct Hk as [-> | [-> | ->]].
  - rewrite Rmult_1_r. apply generic_format_B2R.
  - rewrite Rmult_0_r. apply generic_format_0.
  - replace (B2R sigma * -1) with (- B2R sigma) by ring. apply generic_format_opp, generic_format_B2R.
Qed.
Lemma qlaplace_fin p mu sigma : prob p -> bfin mu -> bpos sigma -> qlaplace (N:=NB) p mu sigma =
  bsub mu (bmul (bmul sigma (bofZ (sgn (N:=NB) (bsub p (blit (1#2)))))) (t_log F (bsub (bofZ 1) (bmul (bofZ 2) (Babs (bsub p (blit (1#2)))))))).
Proof.
  intros O Fm Ps. apply prob_o in O. unfold qlaplace. change (laplace_sanity2 (N:=NB) mu sigma) with (norm_sanity2 (N:=NB) mu sigma). rewrite ls_sanity, pvc by (auto; now apply o_in). cbn [negb]. eqs. rewrite eq0_f by auto.
  rewrite (posinf_fin F sigma), (posinf_fin F mu), (neginf_fin F mu) by (auto; apply Ps). neq p O. reflexivity.
Qed.
Lemma qlaplace_acc p mu sigma q : log_acc F e -> prob p -> B2R (bsub p (blit (1#2))) = B2R p - / 2 -> bfin mu -> bpos sigma -> laplace_cdf (B2R mu) (B2R sigma) q = B2R p ->
  Rabs (B2R mu) + Rabs (q - B2R mu) + B2R sigma <= huge / 4 ->
  within (5 * e * (Rabs (B2R mu) + Rabs (q - B2R mu)) + (2 + 2 * B2R sigma) * tiny) (qlaplace (N:=NB) p mu sigma) q.
Proof.
  intros HF O Hp Fm Ps Hq HB. rewrite qlaplace_fin by auto. pose proof e_pos as (E1 & E2 & E3). pose proof He as [_ Hb]. pose proof ulp1_val as U. pose proof tiny_pos. pose proof tiny_small. pose proof huge_1. pose proof Ps as [Fs Ps'].
  destruct (tent_exact p O Hp) as [Fw Rw]. pose proof (half_fin p O) as Fu. pose proof Hp as Ru. destruct (sgn_val _ Fu) as [Sv Sk]. rewrite Ru in Sv.
  set (w := bsub (bofZ 1) (bmul (bofZ 2) (Babs (bsub p (blit (1#2)))))) in *. set (k := sgn (N:=NB) (bsub p (blit (1#2)))) in *.
  assert (Eq : q = B2R mu - B2R sigma * Rsign (B2R p - / 2) * ln (B2R w)).
  { rewrite <- (laplace_qf_cdf (B2R mu) (B2R sigma) q), Hq, Rw by auto. unfold laplace_qf. replace (1 / 2) with (/ 2) by lra. reflexivity. }
  pose proof (Rabs_pos (B2R mu)). pose proof (Rabs_pos (q - B2R mu)).
  destruct (sig_sgn sigma k Fs ltac:(rewrite Rabs_pos_eq; lra) Sk) as [Fc Rc]. rewrite Sv in Rc. set (c := bmul sigma (bofZ k)) in *.
  assert (Pw : 0 < B2R w). { rewrite Rw. destruct O as [_ O]. assert (Rabs (B2R p - / 2) < / 2) by (apply Rabs_def1; lra). lra. }
  pose proof (near_within _ _ _ _ (HF w Fw Pw) ltac:(lra)) as W. set (z := ln (B2R w)) in *. set (d := 101 / 100 * e * Rabs z + tiny) in *.
  pose proof (ls_sub d _ z mu c W Fm Fc) as W2. rewrite Rc, <- Eq in W2.
  assert (Ca : Rabs (B2R c) <= B2R sigma). { rewrite Rc, Rabs_mult, (Rabs_pos_eq (B2R sigma)) by lra. assert (Rabs (Rsign (B2R p - / 2)) <= 1) by (rewrite <- Sv; apply Rabs_le; destruct Sk as [-> | [-> | ->]]; lra). nra. }
  rewrite <- Rc in W2. assert (Dz : Rabs (q - B2R mu) = Rabs (B2R c) * Rabs z) by (rewrite Rc, <- Rabs_mult, <- Rabs_Ropp; f_equal; rewrite Eq; ring).
  set (C := Rabs (B2R c)) in *. assert (C0 : 0 <= C) by apply Rabs_pos. pose proof (Rabs_pos z).
  assert (D1 : C * d = 101 / 100 * e * Rabs (q - B2R mu) + C * tiny) by (unfold d; rewrite Dz; ring).
  rewrite Rmult_plus_distr_l, <- Dz, D1 in W2. set (K := Rabs (q - B2R mu)) in *. set (s := B2R sigma) in *. set (m := Rabs (B2R mu)) in *.
  assert (Ct : 0 <= C * tiny <= s * tiny) by (split; [nra|apply Rmult_le_compat_r; lra]). assert (St : s * tiny <= s / 1000) by nra.
  specialize (W2 ltac:(nra)). eapply within_le; [exact W2|].
  assert (X1 : ulp1 * m <= e * m) by nra. assert (X2 : ulp1 * K <= e * K) by nra. assert (X3 : 3 * ulp1 * (101 / 100 * e * K) <= / 100 * (e * K)). { assert (0 <= e * K) by nra. rewrite U. nra. }
  assert (X4 : 3 * ulp1 * (C * tiny) <= / 100 * (s * tiny)). { rewrite U. nra. } assert (X5 : 0 <= e * K) by nra. assert (X6 : 0 <= e * m) by nra. nra.
Qed.
End Q2.
