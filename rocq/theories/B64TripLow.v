(** Round trips in binary64 for every probability: below 1/4 the quantile functions that subtract see the
    probability rounded to a multiple of 2^-54. *)
From Coq Require Import ZArith QArith Reals Bool Lra Lia.
From Verif Require Import RealElem RealAcc RealAccQ RealTrip Erf GammaFn BetaFn NormR Spec SpecSF.
From Verif Require Import Num Sanity Prob Dens Quant B64 B64R B64Ord SpecB64 SpecAcc SpecAccQ SpecTrip B64Cdf B64Cdf2 B64Cdf3 B64Unif B64Quant B64Quant2 B64Acc B64AccCdf B64AccCdf2 B64AccCdf3 B64AccQ B64AccQ2 B64AccQ3 B64AccQ4 RandB64 B64CdfBad B64Trip B64Trip2 B64Trip3.
From Flocq Require Import Core Sterbenz IEEE754.BinarySingleNaN.
Local Open Scope R_scope.
Notation exp := Rtrigo_def.exp.
Section Low.
Variable F : TF.
Notation NB := (B64_Num F).
Variable e : R.
Hypothesis He : unit_ok e.
Lemma sub_err x y : finite x -> finite y -> Rabs (B2R x - B2R y) <= 1 -> Rabs (B2R (bsub x y) - (B2R x - B2R y)) <= 102 / 100 * ulp1.
Proof.
  intros Fx Fy H. pose proof huge_1. pose proof ulp1_val. pose proof (near_sub x y Fx Fy ltac:(lra)) as N. apply near_within in N; [|lra]. destruct N as [_ N]. eapply Rle_trans; [exact N|].
  assert (101 / 100 * ulp1 * Rabs (B2R x - B2R y) <= 101 / 100 * ulp1 * 1) by (apply Rmult_le_compat_l; lra). lra.
Qed.
(** the argument of the inverse error function is that of a probability for which it is exact, or -1 *)
Lemma norm_twin p : prob p -> B2R p < / 4 -> let w := bsub (bmul (bofZ 2) p) (bofZ 1) in
  (w = bofZ (-1) /\ B2R p <= ulp1) \/
  exists p', prob p' /\ B2R (bsub (bmul (bofZ 2) p') (bofZ 1)) = 2 * B2R p' - 1 /\ bsub (bmul (bofZ 2) p') (bofZ 1) = w /\ Rabs (B2R p' - B2R p) <= ulp1.
Proof.
  intros O H w. pose proof O as [Fp Rp]. pose proof huge_1 as H1. assert (Hi : / huge <= / 9007199254740992) by (change 9007199254740992 with (bpow radix2 53); apply Rinv_le_contravar; [apply bpow_gt_0|unfold huge; apply bpow_le; lia]). pose proof ulp1_val as U. destruct (bofZ_R 1 ltac:(sm)) as [A1 F1]. destruct (bofZ_R (-1) ltac:(sm)) as [Am Fm]. destruct (dbl_exact p Fp) as [F2 R2]; [rewrite Rabs_pos_eq; lra|].
  pose proof (erfarg_fin p O) as Fw. fold w in Fw. pose proof (sub_err _ _ F2 F1 ltac:(rewrite R2, A1; apply Rabs_le; lra)) as D. fold w in D. rewrite R2, A1 in D. apply Rabs_le_inv in D.
  assert (W : -1 <= B2R w <= - / 2).
  { destruct (bsub_R _ _ F2 F1) as [E G]; [apply rnd_bound; rewrite A1, R2; apply Rabs_le; lra|]. fold w in E. rewrite E, R2, A1. split.
    - rewrite <- (rnd_fmt (-1)); [apply round_le; try typeclasses eauto; lra|]. rewrite <- Am. apply generic_format_B2R.
    - rewrite <- (rnd_fmt (- / 2)); [apply round_le; try typeclasses eauto; lra|]. destruct half_R as [_ Hr]. rewrite <- Hr, <- B2R_Bopp. apply generic_format_B2R. }
  destruct (Req_dec (B2R w) (-1)) as [E|N].
  - left. split; [|lra]. apply b64_inj; auto; lra.
  - right. assert (Fo : finite (Bopp w)) by (unfold finite; now rewrite is_finite_Bopp). destruct (one_minus_exact (Bopp w) Fo) as [Fs Rs]; [rewrite B2R_Bopp; lra|]. rewrite B2R_Bopp in Rs.
    pose proof (above_m1 w Fw ltac:(lra)) as Lw. destruct (half_dof (bsub (bofZ 1) (Bopp w)) Fs) as [Fh Rh]; [rewrite Rs; lra|]. rewrite Rs in Rh.
    set (p' := bdiv (bsub (bofZ 1) (Bopp w)) (bofZ 2)) in *. assert (O' : prob p') by (split; [exact Fh|lra]). exists p'. split; auto.
    destruct (dbl_exact p' Fh) as [F2' R2']; [rewrite Rabs_pos_eq; lra|].
    assert (E : B2R (bsub (bmul (bofZ 2) p') (bofZ 1)) = 2 * B2R p' - 1).
    { destruct (bsub_R _ _ F2' F1) as [E G]; [apply rnd_bound; rewrite A1, R2'; apply Rabs_le; lra|]. rewrite E, R2', A1. apply rnd_fmt. replace (2 * B2R p' - 1) with (B2R w) by lra. apply generic_format_B2R. }
    split; [exact E|]. split; [|apply Rabs_le; lra]. apply b64_inj; auto; [now apply erfarg_fin|lra|lra].
Qed.
(** the same for the Laplace quantile *)
Lemma laplace_twin p : prob p -> B2R p < / 4 -> let w := bsub p (blit (1#2)) in
  (w = Bopp (blit (1#2)) /\ B2R p <= 2 * ulp1) \/ exists p', prob p' /\ B2R (bsub p' (blit (1#2))) = B2R p' - / 2 /\ bsub p' (blit (1#2)) = w /\ Rabs (B2R p' - B2R p) <= 2 * ulp1.
Proof.
  intros O H w. pose proof O as [Fp Rp]. pose proof huge_1 as H1. assert (Hi : / huge <= / 9007199254740992) by (change 9007199254740992 with (bpow radix2 53); apply Rinv_le_contravar; [apply bpow_gt_0|unfold huge; apply bpow_le; lia]). pose proof ulp1_val as U. destruct half_R as [Hf Hr].
  pose proof (half_fin p O) as Fw. fold w in Fw. pose proof (sub_err _ _ Fp Hf ltac:(rewrite Hr; apply Rabs_le; lra)) as D. fold w in D. rewrite Hr in D. apply Rabs_le_inv in D.
  assert (Fn : finite (Bopp (blit (1#2)))) by reflexivity. assert (Rn : B2R (Bopp (blit (1#2))) = - / 2) by (rewrite B2R_Bopp; lra).
  assert (W : - / 2 <= B2R w <= - / 4).
  { destruct (bsub_R _ _ Fp Hf) as [E G]; [apply rnd_bound; rewrite Hr; apply Rabs_le; lra|]. fold w in E. rewrite E, Hr. split.
    - rewrite <- (rnd_fmt (- / 2)); [apply round_le; try typeclasses eauto; lra|]. rewrite <- Rn. apply generic_format_B2R.
    - rewrite <- (rnd_fmt (- / 4)); [apply round_le; try typeclasses eauto; lra|]. assert (Q : B2R (Bopp (blit (1#4))) = - / 4) by (vm_compute; lra). rewrite <- Q. apply generic_format_B2R. }
  destruct (Req_dec (B2R w) (- / 2)) as [E|N].
  - left. split; [|lra]. apply b64_inj; auto; lra.
  - right. assert (Fo : finite (Bopp w)) by (unfold finite; now rewrite is_finite_Bopp).
    destruct (bsub_R (blit (1#2)) (Bopp w) Hf Fo) as [E G]; [apply rnd_bound; rewrite Hr, B2R_Bopp; apply Rabs_le; lra|].
    rewrite (rnd_fmt (B2R (blit (1#2)) - B2R (Bopp w))) in E by (apply (sterbenz radix2 (FLT_exp (-1074) 53)); try exact (generic_format_B2R 53 1024 _); rewrite Hr, B2R_Bopp; lra).
    rewrite Hr, B2R_Bopp in E. set (p' := bsub (blit (1#2)) (Bopp w)) in *. assert (O' : prob p') by (split; [exact G|lra]). exists p'. split; auto.
    assert (E' : B2R (bsub p' (blit (1#2))) = B2R p' - / 2).
    { destruct (bsub_R p' _ G Hf) as [E' G']; [apply rnd_bound; rewrite Hr; apply Rabs_le; lra|]. rewrite E', Hr. apply rnd_fmt. replace (B2R p' - / 2) with (B2R w) by lra. apply generic_format_B2R. }
    split; [exact E'|]. split; [|apply Rabs_le; lra]. apply b64_inj; auto; [now apply half_fin|lra|lra].
Qed.
(** *** infinite values *)
Lemma mul_minf c : finite c -> 0 < B2R c -> bmul c minus_inf = minus_inf.
Proof. intros Fc H. destruct c as [s|s| |s m x Hx]; try discriminate; [cbn in H; lra|]. destruct s; [|reflexivity]. exfalso. assert (B2R (B754_finite true m x Hx : b64) < 0) by (apply F2R_lt_0; cbn; lia). lra. Qed.
Lemma mul_pinf c : finite c -> B2R c < 0 -> bmul c minus_inf = plus_inf.
Proof. intros Fc H. destruct c as [s|s| |s m x Hx]; try discriminate; [cbn in H; lra|]. destruct s; [reflexivity|]. exfalso. assert (0 < B2R (B754_finite false m x Hx : b64)) by (apply F2R_gt_0; cbn; lia). lra. Qed.
Lemma add_minf mu : finite mu -> badd mu minus_inf = minus_inf.
Proof. intros Fm. destruct mu as [s|s| |s m x Hx]; try discriminate; reflexivity. Qed.
Lemma sub_pinf mu : finite mu -> bsub mu plus_inf = minus_inf.
Proof. intros Fm. destruct mu as [s|s| |s m x Hx]; try discriminate; reflexivity. Qed.
Lemma ls3 mu sigma : bfin mu -> bpos sigma -> norm_sanity3 (N:=NB) minus_inf mu sigma = true.
Proof. intros Fm Ps. unfold norm_sanity3. rewrite (ls_sanity F) by auto. reflexivity. Qed.
Lemma pnorm_minf mu sigma : bfin mu -> bpos sigma -> pnorm (N:=NB) minus_inf mu sigma false = bofZ 0.
Proof.
  intros Fm Ps. unfold pnorm. rewrite ls3 by auto. cbn [negb]. change (any_inf3 (N:=NB) minus_inf mu sigma) with true. cbn [orb]. unfold pnorm_limit_vals, all_posinf2, all_neginf2. rewrite (posinf_fin F mu), (neginf_fin F mu), (posinf_fin F sigma) by (auto; apply Ps).
  change (eqb sigma (ofZ 0)) with (Beqb sigma (bofZ 0)). rewrite eq0_f by auto. change (is_posinf (Num:=NB) minus_inf) with false. change (is_neginf (Num:=NB) minus_inf) with true. reflexivity.
Qed.
Lemma plaplace_minf mu sigma : bfin mu -> bpos sigma -> plaplace (N:=NB) minus_inf mu sigma false = bofZ 0.
Proof.
  intros Fm Ps. unfold plaplace. change (laplace_sanity3 (N:=NB) minus_inf mu sigma) with (norm_sanity3 (N:=NB) minus_inf mu sigma). rewrite ls3 by auto. cbn [negb]. change (any_inf3 (N:=NB) minus_inf mu sigma) with true. cbn [orb]. unfold plaplace_limit_vals, all_posinf2, all_neginf2. rewrite (posinf_fin F mu), (neginf_fin F mu), (posinf_fin F sigma) by (auto; apply Ps).
  change (eqb sigma (ofZ 0)) with (Beqb sigma (bofZ 0)). rewrite eq0_f by auto. change (is_posinf (Num:=NB) minus_inf) with false. change (is_neginf (Num:=NB) minus_inf) with true. reflexivity.
Qed.
Lemma zero_within p d : prob p -> B2R p <= d -> within d (bofZ 0) (B2R p).
Proof. intros [Fp Rp] H. destruct (bofZ_R 0 ltac:(sm)) as [A0 F0]. split; auto. rewrite A0. apply Rabs_le. lra. Qed.
Lemma within_move d d' y r r' : within d y r' -> Rabs (r' - r) <= d' -> within (d + d') y r.
Proof. intros [Fy D] H. split; auto. replace (B2R y - r) with ((B2R y - r') + (r' - r)) by ring. eapply Rle_trans; [apply Rabs_triang|]. lra. Qed.
(** *** normal *)
Lemma sq2_pos sigma : const_acc e (t_SQRT_2 F) (R_sqrt.sqrt 2) -> bpos sigma -> / huge <= B2R sigma <= huge / 4 -> finite (bmul (t_SQRT_2 F) sigma) /\ 0 < B2R (bmul (t_SQRT_2 F) sigma).
Proof.
  intros C [Fs Ps] Hs. pose proof sqrt2_rng as S2. pose proof He as [_ Hb]. pose proof (e_pos e He) as (E1 & E2 & E3). pose proof ulp1_val as U.
  assert (P : 0 < R_sqrt.sqrt 2 * B2R sigma) by (apply Rmult_lt_0_compat; lra). assert (P2 : R_sqrt.sqrt 2 * B2R sigma <= 2 * (huge / 4)) by (apply Rmult_le_compat; lra).
  assert (P1 : 1 * (B2R sigma) <= R_sqrt.sqrt 2 * B2R sigma) by (apply Rmult_le_compat_r; lra).
  assert (N : near (e + 0 + ulp1) (2 * 0 + tiny) (bmul (t_SQRT_2 F) sigma) (R_sqrt.sqrt 2 * B2R sigma)) by (apply (near_mul e 0 0 0); auto; try lra; [now apply near_exact|rewrite Rabs_pos_eq; lra]).
  apply near_rel in N; [|lra|].
  - destruct N as (Fc & t & u & T & Su & E). apply abs_le0 in Su. subst u. split; auto. rewrite E, Rplus_0_r. apply Rmult_lt_0_compat; auto. apply exp_pos.
  - pose proof tiny_huge. rewrite Rabs_pos_eq by lra. apply Rle_trans with (ulp1 * / huge); [lra|]. apply Rmult_le_compat_l; lra.
Qed.
Lemma qnorm_twin p p' mu sigma : prob p -> prob p' -> bfin mu -> bpos sigma -> bsub (bmul (bofZ 2) p') (bofZ 1) = bsub (bmul (bofZ 2) p) (bofZ 1) -> qnorm (N:=NB) p mu sigma = qnorm (N:=NB) p' mu sigma.
Proof. intros O O' Fm Ps E. now rewrite !qnorm_fin, E by auto. Qed.
Lemma qnorm_lost p mu sigma : const_acc e (t_SQRT_2 F) (R_sqrt.sqrt 2) -> t_erf_inv F (bofZ (-1)) = minus_inf -> prob p -> bsub (bmul (bofZ 2) p) (bofZ 1) = bofZ (-1) -> usual mu sigma -> qnorm (N:=NB) p mu sigma = minus_inf.
Proof.
  intros C EI O E U. destruct (usual_bounds _ _ U) as (Fm & Ps & I & Hm & Hs & Hh & Ho). pose proof big_1 as B1. pose proof big_pos. revert B1. change (IZR (2 ^ 100)) with 1267650600228229401496703205376. intros B1.
  rewrite qnorm_fin, E, EI by auto. destruct (sq2_pos sigma C Ps ltac:(lra)) as [Fc Pc]. rewrite mul_minf by auto. now apply add_minf.
Qed.
Lemma norm_all p mu sigma : const_acc e (t_SQRT_2 F) (R_sqrt.sqrt 2) -> erf_acc F e -> erf_inv_acc F e -> t_erf_inv F (bofZ (-1)) = minus_inf -> prob p -> usual mu sigma ->
  within (11 * e + 5 * e * offset mu sigma) (pnorm (N:=NB) (qnorm (N:=NB) p mu sigma) mu sigma false) (B2R p).
Proof.
  intros C E EI EM O U. destruct (usual_bounds _ _ U) as (Fm & Ps & I & Hm & Hs & Hh & Ho). pose proof (e_pos e He) as (E1 & E2 & E3). assert (EO : 0 <= e * offset mu sigma) by (apply Rmult_le_pos; lra).
  destruct (Rle_lt_dec (/ 4) (B2R p)) as [L|L].
  - eapply within_le; [apply (norm_trip64 F e He); auto; now apply erfarg_exact|lra].
  - destruct (norm_twin p O L) as [[Ew Hp]|(p' & O' & X & Ew & D)].
    + rewrite qnorm_lost, pnorm_minf by auto. apply zero_within; auto. lra.
    + rewrite (qnorm_twin p p') by auto. eapply within_le; [eapply (within_move _ ulp1 _ _ (B2R p')); [apply (norm_trip64 F e He); auto|exact D]|lra].
Qed.
(** *** Laplace *)
Lemma laplace_all p mu sigma : log_acc F e -> exp_acc F e -> t_log F (bofZ 0) = minus_inf -> prob p -> usual mu sigma ->
  within (12 * e + 3 * e * offset mu sigma) (plaplace (N:=NB) (qlaplace (N:=NB) p mu sigma) mu sigma false) (B2R p).
Proof.
  intros HL HE L0 O U. destruct (usual_bounds _ _ U) as (Fm & Ps & I & Hm & Hs & Hh & Ho). pose proof (e_pos e He) as (E1 & E2 & E3). assert (EO : 0 <= e * offset mu sigma) by (apply Rmult_le_pos; lra).
  destruct (Rle_lt_dec (/ 4) (B2R p)) as [L|L].
  - eapply within_le; [apply (laplace_trip64 F e He); auto; now apply half_exact|lra].
  - destruct (laplace_twin p O L) as [[Ew Hp]|(p' & O' & X & Ew & D)].
    + rewrite qlaplace_fin, Ew by auto. replace (sgn (N:=NB) (Bopp (blit (1#2)))) with (-1)%Z by reflexivity.
      replace (bsub (bofZ 1) (bmul (bofZ 2) (Babs (Bopp (blit (1#2)))))) with (bofZ 0) by (apply b64_eq; vm_compute; reflexivity). rewrite L0.
      pose proof big_1 as B1. pose proof big_pos. revert B1. change (IZR (2 ^ 100)) with 1267650600228229401496703205376. intros B1. destruct Ps as [Fs Ps'].
      destruct (sig_sgn sigma (-1) Fs) as [Fc Rc]; [rewrite Rabs_pos_eq; lra|auto|]. rewrite mul_pinf by (auto; rewrite Rc; lra). rewrite sub_pinf by auto. rewrite plaplace_minf by (auto; now split). apply zero_within; auto. lra.
    + assert (Q : qlaplace (N:=NB) p mu sigma = qlaplace (N:=NB) p' mu sigma) by (rewrite !qlaplace_fin by auto; now rewrite Ew). rewrite Q.
      eapply within_le; [eapply (within_move _ (2 * ulp1) _ _ (B2R p')); [apply (laplace_trip64 F e He); auto|exact D]|lra].
Qed.
(** *** log-normal *)
Lemma qlnorm_eq p mu sigma : prob p -> bfin mu -> bpos sigma -> qlnorm (N:=NB) p mu sigma = t_exp F (qnorm (N:=NB) p mu sigma).
Proof. intros O Fm Ps. apply prob_o in O. unfold qlnorm. change (lnorm_sanity2 (N:=NB) mu sigma) with (norm_sanity2 (N:=NB) mu sigma). rewrite (ls_sanity F), (pvc F) by (auto; now apply o_in). reflexivity. Qed.
Lemma lnorm_all p mu sigma : exp_all_acc F e -> log_acc F e -> const_acc e (t_SQRT_2 F) (R_sqrt.sqrt 2) -> erf_acc F e -> erf_inv_acc F e -> t_erf_inv F (bofZ (-1)) = minus_inf -> t_exp F minus_inf = bofZ 0 -> prob p ->
  usual mu sigma -> Rabs (B2R mu) + 10 * B2R sigma <= 30 ->
  within (21 * e + 5 * e * ((1 + Rabs (B2R mu)) / B2R sigma)) (plnorm (N:=NB) (qlnorm (N:=NB) p mu sigma) mu sigma false) (B2R p).
Proof.
  intros HX HL C E EI EM X0 O U HM. destruct (usual_bounds _ _ U) as (Fm & Ps & I & Hm & Hs & Hh & Ho). pose proof (e_pos e He) as (E1 & E2 & E3). pose proof (Rabs_pos (B2R mu)).
  assert (EO : 0 <= e * ((1 + Rabs (B2R mu)) / B2R sigma)) by (apply Rmult_le_pos; [lra|]; unfold Rdiv; apply Rmult_le_pos; lra).
  destruct (Rle_lt_dec (/ 4) (B2R p)) as [L|L].
  - eapply within_le; [apply (lnorm_trip64 F e He); auto; now apply erfarg_exact|lra].
  - destruct (norm_twin p O L) as [[Ew Hp]|(p' & O' & X & Ew & D)].
    + rewrite qlnorm_eq, qnorm_lost, X0 by auto. assert (Z : plnorm (N:=NB) (bofZ 0) mu sigma false = bofZ 0).
      { unfold plnorm. replace (lnorm_sanity3 (N:=NB) (bofZ 0) mu sigma) with true; [reflexivity|]. symmetry. change (lnorm_sanity3 (N:=NB) (bofZ 0) mu sigma) with (negb (Num.is_nan (Num:=NB) (bofZ 0)) && norm_sanity2 (N:=NB) mu sigma)%bool. rewrite (ls_sanity F) by auto. reflexivity. }
      rewrite Z. apply zero_within; auto. lra.
    + assert (Q : qlnorm (N:=NB) p mu sigma = qlnorm (N:=NB) p' mu sigma) by (rewrite !qlnorm_eq, (qnorm_twin p p') by auto; reflexivity). rewrite Q.
      eapply within_le; [eapply (within_move _ ulp1 _ _ (B2R p')); [apply (lnorm_trip64 F e He); auto|exact D]|lra].
Qed.
(** *** Student, infinite degrees of freedom *)
Lemma qt_inf p : prob p -> qt (N:=NB) p plus_inf = qnorm (N:=NB) p (bofZ 0) (bofZ 1).
Proof.
  intros O. apply prob_o in O. unfold qt, plus_inf. rewrite pvc by now apply o_in. change (t_sanity1 (N:=NB) (B754_infinity false)) with true. cbn [negb]. change (@eqb b64 NB) with (Beqb (prec:=53) (emax:=1024)). change (@ofZ b64 NB) with bofZ.
  rewrite (proj1 (neq01 p O)), (proj2 (neq01 p O)). reflexivity.
Qed.
Lemma tinf_all p : const_acc e (t_SQRT_2 F) (R_sqrt.sqrt 2) -> erf_acc F e -> erf_inv_acc F e -> t_erf_inv F (bofZ (-1)) = minus_inf -> prob p ->
  within (11 * e) (pt (N:=NB) (qt (N:=NB) p plus_inf) plus_inf false) (B2R p).
Proof.
  intros C E EI EM O. pose proof (e_pos e He) as (E1 & E2 & E3). destruct (bofZ_R 0 ltac:(sm)) as [A0 F0], (bofZ_R 1 ltac:(sm)) as [A1 F1].
  assert (P1 : bpos (bofZ 1)) by (split; [auto|lra]). pose proof big_pos.
  assert (U : usual (bofZ 0) (bofZ 1)). { assert (/ big <= 1) by (rewrite <- Rinv_1; apply Rinv_le_contravar; lra). repeat split; auto; rewrite ?A0, ?A1, ?Rabs_R0; lra. }
  destruct (Rle_lt_dec (/ 4) (B2R p)) as [L|L].
  - eapply within_le; [apply (tinf_trip64 F e He); auto; now apply erfarg_exact|lra].
  - destruct (norm_twin p O L) as [[Ew Hp]|(p' & O' & X & Ew & D)].
    + rewrite qt_inf, qnorm_lost by auto. change (pt (N:=NB) minus_inf plus_inf false) with (bofZ 0). apply zero_within; auto. lra.
    + assert (Q : qt (N:=NB) p plus_inf = qt (N:=NB) p' plus_inf) by (rewrite !qt_inf, (qnorm_twin p p') by auto; reflexivity). rewrite Q.
      eapply within_le; [eapply (within_move _ ulp1 _ _ (B2R p')); [apply (tinf_trip64 F e He); auto|exact D]|lra].
Qed.
End Low.
