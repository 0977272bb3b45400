(** Accuracy of the quantile functions in binary64: normal, log-normal, Weibull, gamma, chi-squared,
    inverse gamma, beta. *)
From Coq Require Import ZArith QArith Reals Bool Lra Lia.
From Verif Require Import RealElem RealAcc RealAccQ Erf GammaFn BetaFn NormR Spec SpecSF.
From Verif Require Import Num Sanity Prob Dens Quant B64 B64R B64Ord SpecB64 SpecAcc SpecAccQ B64Cdf B64Cdf2 B64Cdf3 B64Unif B64Quant B64Quant2 B64Acc B64AccCdf B64AccCdf2 B64AccCdf3 B64AccQ B64AccQ2.
From Flocq Require Import Core Sterbenz IEEE754.BinarySingleNaN.
Local Open Scope R_scope.
Notation exp := Rtrigo_def.exp.

Lemma sqrt2_rng : 141 / 100 <= R_sqrt.sqrt 2 <= 142 / 100.
Proof. pose proof (sqrt_sqrt 2 ltac:(lra)). pose proof (sqrt_pos 2). split; nra. Qed.

Lemma bmul_comm x y : bmul x y = bmul y x.
Proof.
  apply B2SF_inj. unfold bmul, Bmult. destruct x as [sx|sx| |sx mx ex Hx], y as [sy|sy| |sy my ey Hy]; cbn; try reflexivity; try (now rewrite xorb_comm).
  rewrite !B2SF_SF2B. now rewrite xorb_comm, Pos.mul_comm, Z.add_comm.
Qed.
Section Q3.
Variable F : TF.
Notation NB := (B64_Num F).
Variable e : R.
Hypothesis He : unit_ok e.
Local Notation e_pos := (e_pos e He).
Ltac eqs := change (@eqb b64 NB) with (Beqb (prec:=53) (emax:=1024)); change (@ofZ b64 NB) with bofZ.
Ltac neq p O := rewrite (proj1 (neq01 p O)), (proj2 (neq01 p O)).

(** *** normal: the argument of the inverse error function is exact for p at least 1/4, and for some smaller p *)
Lemma qnorm_fin p mu sigma : prob p -> bfin mu -> bpos sigma -> qnorm (N:=NB) p mu sigma = badd mu (bmul (bmul (t_SQRT_2 F) sigma) (t_erf_inv F (bsub (bmul (bofZ 2) p) (bofZ 1)))).
Proof.
  intros O Fm Ps. apply prob_o in O. unfold qnorm. rewrite ls_sanity, pvc by (auto; now apply o_in). cbn [negb]. eqs. rewrite eq0_f by auto.
  rewrite (posinf_fin F sigma), (posinf_fin F mu), (neginf_fin F mu) by (auto; apply Ps). neq p O. reflexivity.
Qed.
Lemma erfarg_exact p : prob p -> / 4 <= B2R p -> finite (bsub (bmul (bofZ 2) p) (bofZ 1)) /\ B2R (bsub (bmul (bofZ 2) p) (bofZ 1)) = 2 * B2R p - 1.
Proof.
  intros [Fp Rp] H. pose proof huge_1. destruct (bofZ_R 1 ltac:(sm)) as [A1 F1]. destruct (dbl_exact p Fp) as [F2 R2]; [rewrite Rabs_pos_eq; lra|].
  destruct (bsub_R _ _ F2 F1) as [E G]; [apply rnd_bound; rewrite A1, R2; apply Rabs_le; lra|]. split; auto. rewrite E, R2, A1. apply rnd_fmt. rewrite <- R2, <- A1.
  apply (sterbenz radix2 (FLT_exp (-1074) 53)); try exact (generic_format_B2R 53 1024 _). rewrite A1, R2. lra.
Qed.
Lemma erfarg_fin p : prob p -> finite (bsub (bmul (bofZ 2) p) (bofZ 1)).
Proof.
  intros [Fp Rp]. pose proof huge_1. destruct (bofZ_R 1 ltac:(sm)) as [A1 F1]. destruct (dbl_exact p Fp) as [F2 R2]; [rewrite Rabs_pos_eq; lra|].
  apply (bsub_R _ _ F2 F1). apply rnd_bound. rewrite A1, R2. apply Rabs_le. lra.
Qed.
Lemma qnorm_acc p mu sigma q : const_acc e (t_SQRT_2 F) (R_sqrt.sqrt 2) -> erf_inv_acc F e -> prob p -> B2R (bsub (bmul (bofZ 2) p) (bofZ 1)) = 2 * B2R p - 1 -> bfin mu -> bpos sigma -> / huge <= B2R sigma ->
  norm_cdf (B2R mu) (B2R sigma) q = B2R p -> Rabs (B2R mu) + Rabs (q - B2R mu) + B2R sigma <= huge / 4 ->
  within (8 * e * (Rabs (B2R mu) + Rabs (q - B2R mu)) + (2 + 2 * B2R sigma) * tiny) (qnorm (N:=NB) p mu sigma) q.
Proof.
  intros C HF O Hp Fm Ps Hs Hq HB. rewrite qnorm_fin by auto. pose proof e_pos as (E1 & E2 & E3). pose proof He as [_ Hb]. pose proof ulp1_val as U. pose proof tiny_pos. pose proof tiny_small. pose proof huge_1. pose proof Ps as [Fs Ps'].
  pose proof sqrt2_rng as S2. set (r2 := R_sqrt.sqrt 2) in *. pose proof tiny_huge as TH. pose proof huge_inv.
  pose proof (erfarg_fin p O) as Fx. pose proof Hp as Rx. set (x := bsub (bmul (bofZ 2) p) (bofZ 1)) in *. set (m := B2R mu) in *. set (s := B2R sigma) in *.
  pose proof (Rabs_pos m). pose proof (Rabs_pos (q - m)).
  set (y := (q - m) / (r2 * s)). assert (Ey : erfR y = B2R x) by (rewrite Rx, <- Hq; unfold norm_cdf; fold r2 y; lra).
  pose proof (HF x y Fx Ey) as Ny. pose proof (near_within _ _ _ _ Ny ltac:(lra)) as W.
  assert (Nc : near (e + 2 * ulp1) 0 (bmul (t_SQRT_2 F) sigma) (r2 * s)).
  { replace (e + 2 * ulp1) with (e + 0 + ulp1 + ulp1) by ring. apply near_rel with (h := 2 * 0 + tiny).
    - apply (near_mul e 0 0 0); auto; try lra; [now apply near_exact|rewrite Rabs_pos_eq; nra].
    - lra.
    - rewrite Rabs_pos_eq by nra. apply Rle_trans with (ulp1 * / huge); nra. }
  destruct Nc as (Fc & t & u & T & Su & Rc). apply abs_le0 in Su. subst u. rewrite Rplus_0_r in Rc. set (c := bmul (t_SQRT_2 F) sigma) in *.
  pose proof (exp_abs' t _ T ltac:(lra)) as X. set (d := 101 / 100 * e * Rabs y + tiny) in *. pose proof (Rabs_pos y).
  assert (Ky : r2 * s * Rabs y = Rabs (q - m)) by (replace (q - m) with (r2 * s * y) by (unfold y; field; lra); rewrite Rabs_mult, (Rabs_pos_eq (r2 * s)) by nra; auto).
  set (K := Rabs (q - m)) in *.
  assert (Ca : 0 <= Rabs (B2R c) <= 101 / 100 * (r2 * s)).
  { split; [apply Rabs_pos|]. rewrite Rc. pose proof (exp_pos t). apply Rabs_le_inv in X. assert (0 < r2 * s) by nra. rewrite Rabs_pos_eq by nra. assert (exp t <= 101 / 100) by lra. nra. }
  set (Cc := Rabs (B2R c)) in *. assert (rs : 0 < r2 * s <= 142 / 100 * s) by (clear - S2 Ps'; split; [apply Rmult_lt_0_compat; lra|apply Rmult_le_compat_r; lra]).
  assert (CK : Cc * Rabs y <= 101 / 100 * K) by (rewrite <- Ky, <- Rmult_assoc; apply Rmult_le_compat_r; lra). assert (CK0 : 0 <= Cc * Rabs y) by (apply Rmult_le_pos; lra).
  assert (Ct : 0 <= Cc * tiny <= 15 / 10 * (s * tiny)) by (split; [apply Rmult_le_pos; lra|rewrite <- Rmult_assoc; apply Rmult_le_compat_r; lra]). assert (St : s * tiny <= s / 1000) by nra.
  assert (Cd : Cc * d <= 103 / 100 * (e * K) + 15 / 10 * (s * tiny)) by (unfold d; nra). assert (eK : 0 <= e * K) by nra. assert (em : 0 <= e * Rabs m) by nra.
  pose proof (ls_add d _ y mu c W Fm Fc) as W2. fold m in W2. fold Cc in W2. rewrite Rmult_plus_distr_l in W2.
  assert (eK2 : e * K <= K / 100) by nra. specialize (W2 ltac:(lra)).
  assert (D : Rabs (m + B2R c * y - q) <= 304 / 100 * (e * K)).
  { replace (m + B2R c * y - q) with (r2 * s * y * (exp t - 1)) by (rewrite Rc; unfold y; field; lra). rewrite !Rabs_mult, (Rabs_pos_eq r2), (Rabs_pos_eq s), Ky by lra. nra. }
  pose proof (within_tri _ _ _ _ _ W2 D) as W3. eapply within_le; [exact W3|].
  assert (X1 : ulp1 * Rabs m <= e * Rabs m) by nra. assert (X2 : ulp1 * (Cc * Rabs y) <= 101 / 100 * (e * K)) by nra.
  assert (X3 : 3 * ulp1 * (Cc * d) <= / 100 * (e * K) + / 100 * (s * tiny)). { assert (0 <= Cc * d) by (apply Rmult_le_pos; [lra|unfold d; nra]). rewrite U. nra. }
  clear - X1 X2 X3 Cd Ct St D eK em H E1 E2 E3. lra.
Qed.
(** *** log-normal *)
Lemma qlnorm_acc p mu sigma q : exp_all_acc F e -> const_acc e (t_SQRT_2 F) (R_sqrt.sqrt 2) -> erf_inv_acc F e -> prob p -> B2R (bsub (bmul (bofZ 2) p) (bofZ 1)) = 2 * B2R p - 1 -> bfin mu -> bpos sigma -> / huge <= B2R sigma ->
  0 < q <= huge / 4 -> lnorm_cdf (B2R mu) (B2R sigma) q = B2R p -> Rabs (B2R mu) + Rabs (ln q - B2R mu) + B2R sigma <= 10000 ->
  near (e + 8 * e * (Rabs (B2R mu) + Rabs (ln q - B2R mu)) + (2 + 2 * B2R sigma) * tiny) tiny (qlnorm (N:=NB) p mu sigma) q.
Proof.
  intros HX C HF O Hp Fm Ps Hs Hq0 Hq HB. pose proof e_pos as (E1 & E2 & E3). pose proof He as [_ Hb]. pose proof tiny_pos. pose proof tiny_small. pose proof ulp1_val as U. pose proof (prob_o p O) as O'.
  assert (H4 : 4000000 <= huge) by (unfold huge; eapply Rle_trans; [|apply bpow_le with (e1 := 30%Z); lia]; cbn; lra).
  destruct (qnorm_acc p mu sigma (ln q) C HF O Hp Fm Ps Hs Hq ltac:(lra)) as [Fv Dv]. set (d := 8 * e * (Rabs (B2R mu) + Rabs (ln q - B2R mu)) + (2 + 2 * B2R sigma) * tiny) in *.
  assert (E : qlnorm (N:=NB) p mu sigma = t_exp F (qnorm (N:=NB) p mu sigma)).
  { unfold qlnorm. change (lnorm_sanity2 (N:=NB) mu sigma) with (norm_sanity2 (N:=NB) mu sigma). rewrite ls_sanity, pvc by (auto; now apply o_in). reflexivity. }
  rewrite E. set (v := qnorm (N:=NB) p mu sigma) in *. set (t := B2R v - ln q) in *.
  assert (Ev : exp (B2R v) = q * exp t) by (replace (B2R v) with (ln q + t) by (unfold t; ring); rewrite exp_plus, exp_ln by lra; auto).
  pose proof (Rabs_pos (B2R mu)). pose proof (Rabs_pos (ln q - B2R mu)). destruct Ps as [_ Ps].
  assert (Rd : d <= / 2) by (unfold d; nra). pose proof (exp_2 t d Dv Rd) as T2.
  destruct (HX v Fv) as (Fw & t2 & s2 & Ht2 & Hs2 & W2); [rewrite Ev; nra|]. split; auto. exists (t + t2), s2. split; [|split; auto].
  - rewrite Rplus_assoc, Rplus_comm, (Rplus_comm e). fold d. rewrite (Rplus_comm t2). now apply abs_sum.
  - rewrite W2, Ev, exp_plus. ring.
Qed.

(** *** Weibull *)
Lemma qweibull_fin p shape scale : prob p -> big_eps shape -> big_eps scale -> qweibull (N:=NB) p shape scale = bmul scale (t_pow F (Bopp (t_log1p F (Bopp p))) (bdiv (bofZ 1) shape)).
Proof.
  intros O Bsh Bsc. apply prob_o in O. destruct (big_eps_pos _ Bsh) as (Psh & Psh' & Esh), (big_eps_pos _ Bsc) as (Psc & Psc' & Esc).
  unfold qweibull, weibull_sanity2, any_nan2. rewrite pvc, (nan_nn F shape), (nan_nn F scale) by (try (now apply o_in); apply nn_fin; apply Psh' || apply Psc').
  cbn [orb]. rewrite (proj2 (eps_lt_f F shape (nn_fin _ (proj1 Psh'))) Esh), (proj2 (eps_lt_f F scale (nn_fin _ (proj1 Psc'))) Esc). cbn [negb]. eqs. rewrite eq0_f by auto.
  rewrite (posinf_fin F shape) by apply Psh'. neq p O. reflexivity.
Qed.
(** minus the logarithm of 1 - p, with a relative error *)
Lemma log1p_near p : log1p_acc F e -> prob p -> / huge <= B2R p -> near (e + ulp1) 0 (Bopp (t_log1p F (Bopp p))) (- ln (1 - B2R p)) /\ B2R p <= - ln (1 - B2R p) <= 1000000.
Proof.
  intros HF [Fp Rp] Hp. pose proof e_pos as (E1 & E2 & E3). pose proof He as [_ Hb]. pose proof ulp1_val as U. pose proof tiny_pos. pose proof tiny_huge as TH. pose proof huge_inv.
  assert (L1 : B2R p <= - ln (1 - B2R p)). { pose proof (exp_ineq1_le (- B2R p)) as Q. apply ln_mono' in Q; [|lra]. rewrite ln_exp in Q. replace (1 + - B2R p) with (1 - B2R p) in Q by ring. lra. }
  assert (L2 : - ln (1 - B2R p) <= 1000000).
  { pose proof (below_1 p Fp ltac:(lra)) as Q. assert (B1 : bpow radix2 (-53) <= 1 - B2R p) by lra. apply ln_mono' in B1; [|apply bpow_gt_0].
    rewrite bpow_exp in B1. cbn [radix_val radix2] in B1. rewrite ln_exp in B1. assert (ln 2 <= 1). { rewrite <- (ln_exp 1). apply ln_mono'; [lra|]. pose proof (exp_ineq1_le 1). lra. } lra. }
  split; [|lra]. apply near_rel with (h := tiny); [|lra|rewrite Rabs_pos_eq by lra; apply Rle_trans with (ulp1 * / huge); nra].
  apply near_opp. assert (Fo : finite (Bopp p)) by (unfold finite; now rewrite is_finite_Bopp).
  pose proof (HF (Bopp p) Fo) as N. rewrite B2R_Bopp in N. replace (1 + - B2R p) with (1 - B2R p) in N by ring. apply N. lra.
Qed.
Lemma qweibull_acc p shape scale q : log1p_acc F e -> pow_acc F e -> prob p -> / huge <= B2R p -> big_eps shape -> big_eps scale -> B2R shape <= huge ->
  weibull_cdf (B2R shape) (B2R scale) q = B2R p -> 0 < q -> q / B2R scale <= huge / 4 -> q <= huge / 4 -> B2R scale <= huge / 4 ->
  3 * e + 3 * e / B2R shape + 3 * ulp1 * Rabs (ln (q / B2R scale)) <= / 200 ->
  near (3 * e + 3 * e / B2R shape + 3 * ulp1 * Rabs (ln (q / B2R scale))) ((1 + 4 * B2R scale) * tiny) (qweibull (N:=NB) p shape scale) q.
Proof.
  intros HF HP O Hp Bsh Bsc Hsh Hq Pq Q1 Q2 Q3 Q4. rewrite qweibull_fin by auto. pose proof e_pos as (E1 & E2 & E3). pose proof He as [_ Hb]. pose proof ulp1_val as U. pose proof tiny_pos. pose proof tiny_small. pose proof huge_1. pose proof huge_inv.
  destruct (big_eps_pos _ Bsh) as (_ & [Fsh Psh] & Esh), (big_eps_pos _ Bsc) as (_ & [Fsc Psc] & _). destruct (bofZ_R 1 ltac:(sm)) as [A1 F1].
  destruct (log1p_near p HF O Hp) as [(Fl & t & u & T & Su & El) Bl]. apply abs_le0 in Su. subst u. rewrite Rplus_0_r in El.
  destruct O as [Fp Rp]. set (L := - ln (1 - B2R p)) in *. set (k := B2R shape) in *. set (s := B2R scale) in *.
  assert (PL : 0 < L) by lra.
  assert (EL : L = Rpower (q / s) k). { unfold L. rewrite <- Hq. unfold weibull_cdf. replace (1 - (1 - exp (- Rpower (q / s) k))) with (exp (- Rpower (q / s) k)) by ring. rewrite ln_exp. ring. }
  assert (Pqs : 0 < q / s) by (apply Rmult_lt_0_compat; [lra|now apply Rinv_0_lt_compat]).
  assert (LL : ln L = k * ln (q / s)) by (rewrite EL; unfold Rpower; now rewrite ln_exp).
  (* the exponent *)
  assert (Ik : 0 < / k) by now apply Rinv_0_lt_compat.
  assert (Ek : bpow radix2 (-52) <= k) by (unfold k; destruct eps_R as [ER _]; unfold ulp1 in ER; rewrite <- (ev_fin shape Fsh); rewrite (ev_fin beps (proj2 eps_R)) in Esh; lra).
  assert (Ik2 : / huge <= / k <= huge).
  { split; [apply Rinv_le_contravar; lra|]. apply Rle_trans with (bpow radix2 52); [change 52%Z with (Z.opp (-52)); rewrite bpow_opp; apply Rinv_le_contravar; auto; apply bpow_gt_0|]. apply bpow_le. lia. }
  assert (R1 : 1 / k = / k) by (unfold Rdiv; ring).
  assert (Qc : / huge <= B2R (bofZ 1) / B2R shape <= huge) by (rewrite A1; fold k; rewrite R1; auto).
  destruct (quot_near (bofZ 1) shape F1 (conj Fsh Psh) Qc) as [[Fc _] Pc]. destruct (quot_exp (bofZ 1) shape F1 (conj Fsh Psh) Qc) as (tc & Tc & Ec). rewrite A1 in Ec. fold k in Ec. rewrite R1 in Ec.
  set (c := bdiv (bofZ 1) shape) in *. set (x := Bopp (t_log1p F (Bopp p))) in *.
  assert (Px : 0 < B2R x) by (rewrite El; apply Rmult_lt_0_compat; [lra|apply exp_pos]).
  (* the power *)
  set (lq := ln (q / s)) in *. pose proof (Rabs_pos lq) as lq0.
  assert (EP : Rpower (B2R x) (B2R c) = q / s * exp (lq * (exp tc - 1) + / k * exp tc * t)).
  { unfold Rpower. rewrite El, ln_mult, ln_exp, LL, Ec by (auto; apply exp_pos). fold lq. rewrite <- (exp_ln (q / s)) at 1 by auto. fold lq. rewrite <- exp_plus. f_equal. field. lra. }
  pose proof (exp_abs' tc _ Tc ltac:(lra)) as Xc. set (w := lq * (exp tc - 1) + / k * exp tc * t) in *.
  assert (Xp : 0 < exp tc <= 101 / 100) by (split; [apply exp_pos|apply Rabs_le_inv in Xc; lra]).
  assert (ek : 0 <= e * / k) by (apply Rmult_le_pos; lra). assert (uk : ulp1 * / k <= e * / k) by (apply Rmult_le_compat_r; lra).
  assert (Wb : Rabs w <= 203 / 100 * ulp1 * Rabs lq + 203 / 100 * (e * / k)).
  { unfold w. eapply Rle_trans; [apply Rabs_triang|]. apply Rplus_le_compat.
    - rewrite Rabs_mult. pose proof (Rabs_pos (exp tc - 1)). nra.
    - rewrite !Rabs_mult, (Rabs_pos_eq (/ k)), (Rabs_pos_eq (exp tc)) by lra. apply Rle_trans with (/ k * (101 / 100) * (e + ulp1)); [|nra].
      apply Rmult_le_compat; [nra|apply Rabs_pos|nra|exact T]. }
  set (W := 203 / 100 * ulp1 * Rabs lq + 203 / 100 * (e * / k)) in *. assert (W0 : 0 <= W) by (eapply Rle_trans; [apply Rabs_pos|exact Wb]).
  assert (WS : e + W + ulp1 <= 3 * e + 3 * e / k + 3 * ulp1 * Rabs lq) by (unfold W, Rdiv; nra).
  pose proof (exp_2 w W Wb ltac:(lra)) as Xw.
  assert (Np : near (e + W) tiny (t_pow F x c) (q / s)).
  { destruct (HP c Fc x Fl) as (Fw & t2 & s2 & Ht2 & Hs2 & W2); [split; auto; rewrite EP; nra|]. split; auto. exists (w + t2), s2. split; [rewrite Rplus_comm, (Rplus_comm e), (Rplus_comm t2); now apply abs_sum|split; auto].
    rewrite W2, EP, exp_plus. ring. }
  rewrite bmul_comm. apply (eq_ind (q / s * s) (near (3 * e + 3 * e / k + 3 * ulp1 * Rabs lq) ((1 + 4 * s) * tiny) _)); [|field; lra].
  pose proof (tiny_huge) as TH. assert (St : tiny * s <= / 1000) by (apply Rle_trans with (tiny * huge); [apply Rmult_le_compat_l; lra|exact B64Acc.tiny_huge]).
  eapply near_le; [apply (near_mul (e + W) tiny 0 (2 * tiny * s)); [exact Np|now apply near_exact|lra| |rewrite Rabs_pos_eq; lra|lra]| |].
  - replace (q / s * s) with q by (field; lra). rewrite Rabs_pos_eq; lra.
  - lra.
  - lra.
Qed.
End Q3.
