(** Accuracy of the quantile functions in binary64: uniform, exponential, logistic, Cauchy, Laplace,
    normal, Weibull. *)
From Coq Require Import ZArith QArith Reals Bool Lra Lia.
From Verif Require Import RealElem RealAcc Erf GammaFn BetaFn NormR Spec SpecSF.
From Verif Require Import Num Sanity Prob Dens Quant B64 B64R B64Ord SpecB64 SpecAcc SpecAccQ B64Cdf B64Cdf2 B64Cdf3 B64Unif B64Quant B64Quant2 B64Acc B64AccCdf B64AccCdf2 B64AccCdf3.
From Flocq Require Import Core IEEE754.BinarySingleNaN.
Local Open Scope R_scope.
Notation exp := Rtrigo_def.exp.

Lemma prob_o p : prob p -> in01o p.
Proof. intros [Fp Rp]. split; [now apply nn_fin|]. now rewrite ev_fin. Qed.
Lemma dist_nn d y r : within d y r -> 0 <= d.
Proof. intros [_ H]. eapply Rle_trans; [apply Rabs_pos|exact H]. Qed.
(** ** absolute errors, without a bound on their size *)
Lemma wdiv d x a r : within d x a -> bpos r -> (Rabs a + d) / B2R r <= huge ->
  within ((d + 101 / 100 * ulp1 * (Rabs a + d)) / B2R r + tiny) (bdiv x r) (a / B2R r).
Proof.
  intros W [Fr Pr] H. pose proof (dist_nn _ _ _ W) as D0. destruct W as [Fx Dx]. pose proof ulp1_val. pose proof huge_1.
  assert (X : Rabs (B2R x) <= Rabs a + d).
  { replace (B2R x) with (a + (B2R x - a)) by ring. eapply Rle_trans; [apply Rabs_triang|lra]. }
  assert (I : 0 < / B2R r) by now apply Rinv_0_lt_compat.
  assert (Q : Rabs (B2R x / B2R r) <= (Rabs a + d) / B2R r).
  { unfold Rdiv. rewrite Rabs_mult, (Rabs_pos_eq (/ _)) by lra. apply Rmult_le_compat_r; lra. }
  pose proof (near_within _ _ _ _ (near_div0 x r Fx ltac:(lra) ltac:(lra)) ltac:(lra)) as W.
  assert (T : Rabs (B2R x / B2R r - a / B2R r) <= d / B2R r).
  { replace (B2R x / B2R r - a / B2R r) with ((B2R x - a) * / B2R r) by (field; lra). rewrite Rabs_mult, (Rabs_pos_eq (/ _)) by lra. apply Rmult_le_compat_r; lra. }
  pose proof (within_tri _ _ _ _ _ W T) as W'. eapply within_le; [exact W'|].
  replace ((d + 101 / 100 * ulp1 * (Rabs a + d)) / B2R r) with (d / B2R r + 101 / 100 * ulp1 * ((Rabs a + d) / B2R r)) by (field; lra). nra.
Qed.
Lemma wmul d c x a : within d x a -> bfin c -> Rabs (B2R c) * (Rabs a + d) <= huge ->
  within (Rabs (B2R c) * (d + 101 / 100 * ulp1 * (Rabs a + d)) + tiny) (bmul c x) (B2R c * a).
Proof.
  intros W Fc H. pose proof (dist_nn _ _ _ W) as D0. destruct W as [Fx Dx]. pose proof ulp1_val. pose proof huge_1. pose proof (Rabs_pos (B2R c)) as C0.
  assert (X : Rabs (B2R x) <= Rabs a + d).
  { replace (B2R x) with (a + (B2R x - a)) by ring. eapply Rle_trans; [apply Rabs_triang|lra]. }
  assert (Q : Rabs (B2R c * B2R x) <= Rabs (B2R c) * (Rabs a + d)) by (rewrite Rabs_mult; apply Rmult_le_compat_l; lra).
  pose proof (near_within _ _ _ _ (near_mul0 c x Fc Fx ltac:(lra)) ltac:(lra)) as W.
  assert (T : Rabs (B2R c * B2R x - B2R c * a) <= Rabs (B2R c) * d).
  { replace (B2R c * B2R x - B2R c * a) with (B2R c * (B2R x - a)) by ring. rewrite Rabs_mult. apply Rmult_le_compat_l; lra. }
  pose proof (within_tri _ _ _ _ _ W T) as W'. eapply within_le; [exact W'|]. nra.
Qed.
Lemma wadd d c x a : within d x a -> bfin c -> Rabs (B2R c) + Rabs a + d <= huge ->
  within (d + 101 / 100 * ulp1 * (Rabs (B2R c) + Rabs a + d)) (badd c x) (B2R c + a).
Proof.
  intros W Fc H. pose proof (dist_nn _ _ _ W) as D0. destruct W as [Fx Dx]. pose proof ulp1_val. pose proof huge_1.
  assert (X : Rabs (B2R x) <= Rabs a + d).
  { replace (B2R x) with (a + (B2R x - a)) by ring. eapply Rle_trans; [apply Rabs_triang|lra]. }
  assert (Q : Rabs (B2R c + B2R x) <= Rabs (B2R c) + Rabs a + d) by (eapply Rle_trans; [apply Rabs_triang|lra]).
  pose proof (near_within _ _ _ _ (near_add c x Fc Fx ltac:(lra)) ltac:(lra)) as W.
  assert (T : Rabs (B2R c + B2R x - (B2R c + a)) <= d) by (replace (B2R c + B2R x - (B2R c + a)) with (B2R x - a) by ring; auto).
  pose proof (within_tri _ _ _ _ _ W T) as W'. eapply within_le; [exact W'|]. nra.
Qed.
Lemma within_opp d x a : within d x a -> within d (Bopp x) (- a).
Proof.
  intros [Fx Dx]. split; [unfold finite; now rewrite is_finite_Bopp|]. rewrite B2R_Bopp. replace (- B2R x - - a) with (- (B2R x - a)) by ring. now rewrite Rabs_Ropp.
Qed.
Lemma wsub d c x a : within d x a -> bfin c -> Rabs (B2R c) + Rabs a + d <= huge ->
  within (d + 101 / 100 * ulp1 * (Rabs (B2R c) + Rabs a + d)) (bsub c x) (B2R c - a).
Proof.
  intros W Fc H. pose proof (dist_nn _ _ _ W) as D0. destruct W as [Fx Dx]. pose proof ulp1_val. pose proof huge_1.
  assert (X : Rabs (B2R x) <= Rabs a + d).
  { replace (B2R x) with (a + (B2R x - a)) by ring. eapply Rle_trans; [apply Rabs_triang|lra]. }
  assert (Q : Rabs (B2R c - B2R x) <= Rabs (B2R c) + Rabs a + d) by (eapply Rle_trans; [apply abs_tri3|lra]).
  pose proof (near_within _ _ _ _ (near_sub c x Fc Fx ltac:(lra)) ltac:(lra)) as W.
  assert (T : Rabs (B2R c - B2R x - (B2R c - a)) <= d) by (replace (B2R c - B2R x - (B2R c - a)) with (- (B2R x - a)) by ring; rewrite Rabs_Ropp; auto).
  pose proof (within_tri _ _ _ _ _ W T) as W'. eapply within_le; [exact W'|]. nra.
Qed.
(** location and scale *)
Lemma ls_sum (op : b64 -> b64 -> b64) (opR : R -> R -> R) d g z mu c :
  (forall d c x a, within d x a -> bfin c -> Rabs (B2R c) + Rabs a + d <= huge -> within (d + 101 / 100 * ulp1 * (Rabs (B2R c) + Rabs a + d)) (op c x) (opR (B2R c) a)) ->
  within d g z -> bfin mu -> bfin c -> Rabs (B2R mu) + Rabs (B2R c) * (Rabs z + d) <= huge / 2 ->
  within (Rabs (B2R c) * d + 3 * ulp1 * (Rabs (B2R mu) + Rabs (B2R c) * (Rabs z + d)) + 2 * tiny) (op mu (bmul c g)) (opR (B2R mu) (B2R c * z)).
Proof.
  intros HO W Fm Fc H. pose proof (dist_nn _ _ _ W) as D0. pose proof ulp1_val as U. pose proof huge_1. pose proof tiny_pos. pose proof tiny_small. pose proof (Rabs_pos (B2R mu)). pose proof (Rabs_pos (B2R c)). pose proof (Rabs_pos z).
  assert (C0 : 0 <= Rabs (B2R c) * (Rabs z + d)) by nra.
  pose proof (wmul d c g z W Fc ltac:(lra)) as W1. set (K := Rabs (B2R c) * (Rabs z + d)) in *.
  assert (E1 : Rabs (B2R c) * (d + 101 / 100 * ulp1 * (Rabs z + d)) = Rabs (B2R c) * d + 101 / 100 * ulp1 * K) by (unfold K; ring). rewrite E1 in W1.
  assert (E2 : Rabs (B2R c * z) + Rabs (B2R c) * d = K) by (unfold K; rewrite Rabs_mult; ring).
  assert (P : 0 <= 101 / 100 * ulp1 * K <= K / 100) by (rewrite U; lra).
  pose proof (HO _ mu _ _ W1 Fm ltac:(lra)) as W2. eapply within_le; [exact W2|].
  assert (L : Rabs (B2R mu) + Rabs (B2R c * z) + (Rabs (B2R c) * d + 101 / 100 * ulp1 * K + tiny) <= 102 / 100 * (Rabs (B2R mu) + K) + tiny) by lra.
  assert (U0 : 0 <= 101 / 100 * ulp1) by lra. pose proof (Rmult_le_compat_l _ _ _ U0 L) as L'.
  assert (V : 101 / 100 * ulp1 * tiny <= tiny / 10) by (rewrite U; lra). assert (X : 0 <= ulp1 * (Rabs (B2R mu) + K)) by (apply Rmult_le_pos; lra). nra.
Qed.
Definition ls_add d g z mu c := ls_sum badd Rplus d g z mu c wadd.
Definition ls_sub d g z mu c := ls_sum bsub Rminus d g z mu c wsub.

Lemma one_minus_near p : prob p -> near ulp1 0 (bsub (bofZ 1) p) (1 - B2R p).
Proof.
  intros [Fp Rp]. destruct (bofZ_R 1 ltac:(sm)) as [A1 F1]. pose proof huge_1. pose proof (near_sub (bofZ 1) p F1 Fp) as N. rewrite A1 in N. apply N. apply Rabs_le. lra.
Qed.
(** a relative error in the argument of the logarithm is an absolute one in the result *)
Lemma log_within F e k x a : unit_ok e -> log_acc F e -> near k 0 x a -> 0 < a -> 0 <= k <= / 200 -> 
  within (101 / 100 * e * (Rabs (ln a) + k) + k + tiny) (t_log F x) (ln a).
Proof.
  intros [He1 He2] HF (Fx & t & s & T & S & E) Pa Hk. apply abs_le0 in S. subst s. rewrite Rplus_0_r in E. pose proof (exp_pos t).
  pose proof ulp1_val as U. assert (Px : 0 < B2R x) by (rewrite E; nra).
  assert (L : ln (B2R x) = ln a + t) by (rewrite E, ln_mult, ln_exp by auto; auto).
  pose proof (near_within _ _ _ _ (HF x Fx Px) ltac:(lra)) as W. rewrite L in W.
  assert (D : Rabs (ln a + t - ln a) <= k) by (replace (ln a + t - ln a) with t by ring; auto).
  pose proof (within_tri _ _ _ _ _ W D) as W'. eapply within_le; [exact W'|].
  assert (Q : Rabs (ln a + t) <= Rabs (ln a) + k) by (eapply Rle_trans; [apply Rabs_triang|lra]). nra.
Qed.

Section Q.
Variable F : TF.
Notation NB := (B64_Num F).
Variable e : R.
Hypothesis He : unit_ok e.
Local Notation e_pos := (e_pos e He).
Ltac eqs := change (@eqb b64 NB) with (Beqb (prec:=53) (emax:=1024)); change (@ofZ b64 NB) with bofZ.
Ltac neq p O := rewrite (proj1 (neq01 p O)), (proj2 (neq01 p O)).

(** *** exponential *)
Lemma qexp_fin p rate : prob p -> bpos rate -> qexp (N:=NB) p rate = bdiv (Bopp (t_log F (bsub (bofZ 1) p))) rate.
Proof.
  intros O Pr. apply prob_o in O. unfold qexp, exp_sanity1. rewrite pvc, (nan_nn F rate) by (try apply nn_fin, Pr; now apply o_in).
  change (ltb rate (ofZ 0)) with (Bltb rate (bofZ 0)). rewrite lt0_f by (try apply Pr; left; apply Pr). cbn [negb]. eqs. neq p O. reflexivity.
Qed.
Lemma qexp_acc p rate q : log_acc F e -> prob p -> bpos rate -> exp_cdf (B2R rate) q = B2R p -> q <= huge / 2 -> 1 <= B2R rate * huge ->
  within (3 * e * q + 2 * e / B2R rate + tiny) (qexp (N:=NB) p rate) q.
Proof.
  intros HF O Pr Hq B1 B2. rewrite qexp_fin by auto. pose proof e_pos as (E1 & E2 & E3). pose proof He as [_ Hb]. pose proof ulp1_val as U. pose proof tiny_pos. pose proof huge_1. pose proof huge_inv.
  destruct O as [Fp Rp]. pose proof Pr as [Fr Pr'].
  pose proof (log_within F e ulp1 _ _ He HF (one_minus_near p (conj Fp Rp)) ltac:(lra) ltac:(lra)) as W.
  assert (L : ln (1 - B2R p) = - (B2R rate * q)) by (rewrite <- Hq; unfold exp_cdf; replace (1 - (1 - exp (- B2R rate * q))) with (exp (- B2R rate * q)) by ring; rewrite ln_exp; ring).
  assert (N : ln (1 - B2R p) <= 0) by (rewrite <- ln_1; apply ln_mono'; lra).
  assert (Q0 : 0 <= B2R rate * q) by lra. rewrite L, Rabs_Ropp, (Rabs_pos_eq _ Q0) in W. apply within_opp in W. rewrite Ropp_involutive in W.
  set (m := B2R rate) in *. set (d := 101 / 100 * e * (m * q + ulp1) + ulp1 + tiny) in *.
  assert (Dd : d <= 102 / 100 * e * (m * q) + 11 / 10 * e) by (unfold d; nra). assert (D0 : 0 <= d) by (unfold d; nra).
  assert (Iq : 0 <= q) by (apply (Rmult_le_reg_l m); lra).
  assert (Im : 0 < / m <= huge). { split; [now apply Rinv_0_lt_compat|]. apply (Rmult_le_reg_l m); [lra|]. rewrite Rinv_r; lra. }
  assert (A : (m * q + d) / m <= 101 / 100 * q + / 100 * / m).
  { apply (Rmult_le_reg_r m); [lra|]. unfold Rdiv. rewrite Rmult_assoc, Rinv_l, Rmult_1_r, Rmult_plus_distr_r, (Rmult_assoc (/ 100)), Rinv_l, Rmult_1_r by lra. nra. }
  pose proof (wdiv d _ _ rate W Pr) as W2. fold m in W2. rewrite (Rabs_pos_eq (m * q) Q0) in W2. specialize (W2 ltac:(nra)).
  replace (m * q / m) with q in W2 by (field; lra). eapply within_le; [exact W2|].
  replace ((d + 101 / 100 * ulp1 * (m * q + d)) / m) with (d / m + 101 / 100 * ulp1 * ((m * q + d) / m)) by (field; lra).
  assert (B : d / m <= 102 / 100 * e * q + 11 / 10 * e / m).
  { apply (Rmult_le_reg_r m); [lra|]. replace (d / m * m) with d by (field; lra). replace ((102 / 100 * e * q + 11 / 10 * e / m) * m) with (102 / 100 * e * (m * q) + 11 / 10 * e) by (field; lra). exact Dd. }
  assert (U1 : 0 <= 101 / 100 * ulp1) by lra. pose proof (Rmult_le_compat_l _ _ _ U1 A) as A'. unfold Rdiv in *.
  assert (X1 : 0 <= e * q) by nra. assert (X2 : 0 <= e * / m) by nra. assert (X3 : ulp1 * q <= e * q) by nra. assert (X4 : ulp1 * / m <= e * / m) by nra. nra.
Qed.

(** *** logistic *)
Lemma qlogis_fin p mu sigma : prob p -> bfin mu -> bpos sigma -> qlogis (N:=NB) p mu sigma = badd mu (bmul sigma (t_log F (bdiv p (bsub (bofZ 1) p)))).
Proof.
  intros O Fm Ps. apply prob_o in O. unfold qlogis. change (logis_sanity2 (N:=NB) mu sigma) with (norm_sanity2 (N:=NB) mu sigma). rewrite ls_sanity, pvc by (auto; now apply o_in). cbn [negb]. eqs. rewrite eq0_f by auto.
  rewrite (posinf_fin F sigma), (posinf_fin F mu), (neginf_fin F mu) by (auto; apply Ps). neq p O. reflexivity.
Qed.
Lemma odds_near p : prob p -> / huge <= B2R p -> near (3 * ulp1) 0 (bdiv p (bsub (bofZ 1) p)) (B2R p / (1 - B2R p)).
Proof.
  intros O Hp. pose proof (one_minus_near p O) as N1. destruct (one_minus_pos p (prob_o p O)) as (Fu & Ru & _). destruct O as [Fp Rp].
  pose proof ulp1_val as U. pose proof huge_1. pose proof tiny_pos. pose proof tiny_huge as TH. pose proof huge_inv.
  assert (B1 : bpow radix2 (-53) <= 1 - B2R p) by (pose proof (below_1 p Fp ltac:(lra)); lra).
  assert (I1 : 1 <= / (1 - B2R p) <= huge / 2).
  { split; [rewrite <- Rinv_1 at 1; apply Rinv_le_contravar; lra|]. apply Rle_trans with (bpow radix2 53); [change 53%Z with (Z.opp (-53)); rewrite bpow_opp; apply Rinv_le_contravar; auto; apply bpow_gt_0|].
    apply (Rmult_le_reg_r 2); [lra|]. unfold huge. replace (bpow radix2 1000 / 2 * 2) with (bpow radix2 1000) by lra. change 2 with (bpow radix2 1). rewrite <- bpow_plus. apply bpow_le. lia. }
  assert (Q : / huge <= B2R p / (1 - B2R p) <= huge) by (unfold Rdiv; split; nra).
  assert (H2 : 2 * 0 / Rabs (1 - B2R p) <= 0) by (unfold Rdiv; lra).
  pose proof (near_div 0 0 ulp1 0 _ _ _ _ (near_exact p Fp) N1 ltac:(lra) ltac:(lra) ltac:(rewrite Rabs_pos_eq; lra) H2 ltac:(lra)) as N2.
  eapply near_le; [apply near_rel with (1 := N2)|..]; try lra. rewrite Rabs_pos_eq by lra.
  apply Rle_trans with (ulp1 * / huge); [|nra]. lra.
Qed.
Lemma qlogis_acc p mu sigma q : log_acc F e -> prob p -> / huge <= B2R p -> bfin mu -> bpos sigma -> logis_cdf (B2R mu) (B2R sigma) q = B2R p ->
  Rabs (B2R mu) + Rabs (q - B2R mu) + B2R sigma <= huge / 4 ->
  within (5 * e * (Rabs (B2R mu) + Rabs (q - B2R mu) + B2R sigma) + 2 * tiny) (qlogis (N:=NB) p mu sigma) q.
Proof.
  intros HF O Hp Fm Ps Hq HB. rewrite qlogis_fin by auto. pose proof e_pos as (E1 & E2 & E3). pose proof He as [_ Hb]. pose proof ulp1_val as U. pose proof tiny_pos. pose proof huge_1. pose proof Ps as [Fs Ps'].
  assert (Po : 0 < B2R p / (1 - B2R p)) by (destruct O as [_ O]; apply Rmult_lt_0_compat; [lra|apply Rinv_0_lt_compat; lra]).
  pose proof (log_within F e _ _ _ He HF (odds_near p O Hp) Po ltac:(lra)) as W.
  assert (Eq : q = B2R mu + B2R sigma * ln (B2R p / (1 - B2R p))) by (rewrite <- (logis_qf_cdf (B2R mu) (B2R sigma) q), Hq by auto; reflexivity).
  set (z := ln (B2R p / (1 - B2R p))) in *. set (m := B2R mu) in *. set (s := B2R sigma) in *.
  assert (Dz : Rabs (q - m) = s * Rabs z) by (rewrite Eq; replace (m + s * z - m) with (s * z) by ring; rewrite Rabs_mult, (Rabs_pos_eq s) by lra; auto).
  set (d := 101 / 100 * e * (Rabs z + 3 * ulp1) + 3 * ulp1 + tiny) in *. pose proof (Rabs_pos z). pose proof (Rabs_pos m).
  assert (Dd : d <= 102 / 100 * e * Rabs z + 32 / 10 * e) by (unfold d; nra).
  assert (D1 : s * d <= 102 / 100 * e * (s * Rabs z) + 32 / 10 * e * s) by nra. assert (D0 : 0 <= d) by (unfold d; nra). assert (sz : 0 <= s * Rabs z) by nra.
  pose proof (ls_add d _ z mu sigma W Fm Fs) as W2. fold m s in W2. rewrite (Rabs_pos_eq s) in W2 by lra.
  rewrite Rmult_plus_distr_l, <- Dz in W2. rewrite <- Dz in D1, sz. set (K := Rabs (q - m)) in *. specialize (W2 ltac:(nra)). rewrite <- Eq in W2. eapply within_le; [exact W2|].
  assert (X1 : 0 <= e * K) by nra. assert (X2 : 0 <= e * s) by nra. assert (X3 : 0 <= e * Rabs m) by nra.
  assert (X4 : ulp1 * K <= e * K) by nra. assert (X5 : ulp1 * Rabs m <= e * Rabs m) by nra. assert (X6 : 3 * ulp1 * (s * d) <= / 100 * (e * K + e * s)).
  { assert (0 <= s * d) by nra. rewrite U. nra. } nra.
Qed.
End Q.
