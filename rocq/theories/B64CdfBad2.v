(** Where the Student distribution function with four degrees of freedom and the binomial distribution
    function leave their mathematical shape, even with correctly rounded functions. *)
From Coq Require Import ZArith QArith Reals Bool Lra Lia.
From Coquelicot Require Import Coquelicot.
From Verif Require Import RealElem RealAcc Erf GammaFn BetaFn.
From Verif Require Import Num Sanity Prob Dens B64 B64R B64Ord SpecB64 SpecB64D SpecAcc B64Cdf B64Cdf2 B64Cdf3 B64CR B64CR3 B64CdfBad B64Dens B64Dens5 B64Acc B64AccW B64Cdf4 B64Cdf5 B64RandW GammaBd.
From Flocq Require Import Core IEEE754.BinarySingleNaN.
Local Open Scope R_scope.
Local Open Scope b64_scope.
Notation exp := Rtrigo_def.exp.
Notation sqrt := R_sqrt.sqrt.

(** ** the regularised incomplete beta function with parameters 1/2 and 2 *)
Definition g2 (w : R) : R := sqrt w * (3 - w) / 2.
Lemma g2_derive w : 0 < w < 1 -> is_derive g2 w (3 / 4 * (Rpower w (1 / 2 - 1) * Rpower (1 - w) (2 - 1))).
Proof.
  intros H. assert (S : 0 < sqrt w) by (apply sqrt_lt_R0; lra). replace (Rpower (1 - w) (2 - 1)) with (1 - w) by (replace (2 - 1) with 1 by ring; rewrite Rpower_1; lra).
  replace (Rpower w (1 / 2 - 1)) with (/ sqrt w). 2:{ replace (1 / 2 - 1) with (- / 2) by lra. now rewrite Rpower_Ropp, Rpower_sqrt by lra. }
  unfold g2. auto_derive; [lra|]. assert (Q : sqrt w * sqrt w = w) by (apply sqrt_sqrt; lra). field_simplify; [|lra|lra]. f_equal. replace (sqrt w ^ 2) with w by (cbn; lra). ring.
Qed.
Lemma g2_cont w : 0 <= w -> continuity_pt g2 w.
Proof.
  intros H. unfold g2. apply (continuity_pt_ext (fun w => sqrt w * ((3 - w) / 2))); [intros; unfold Rdiv; ring|]. apply continuity_pt_mult; [now apply continuity_pt_sqrt|].
  apply derivable_continuous_pt, ex_derive_Reals_0. auto_derive. exact I.
Qed.
Lemma IB_half_two w : 0 <= w <= 1 -> IB (1 / 2) 2 w = g2 w.
Proof.
  pose proof (Beta_pos (1 / 2) 2 ltac:(lra) ltac:(lra)) as BP. set (k := 4 / 3 / Beta (1 / 2) 2).
  assert (H : forall w, 0 <= w <= 1 -> IB (1 / 2) 2 w = k * g2 w).
  { intros v Hv. assert (G0 : g2 0 = 0) by (unfold g2; rewrite sqrt_0; lra).
    destruct (MVT_gen (fun w => IB (1 / 2) 2 w - k * g2 w) 0 v (fun _ => 0)) as (c & _ & E).
    - rewrite Rmin_left, Rmax_right by lra. intros x Hx. pose proof (IB_derive (1 / 2) 2 x ltac:(lra) ltac:(lra) ltac:(lra)) as D1. pose proof (g2_derive x ltac:(lra)) as D2.
      apply (is_derive_scal _ _ k) in D2. pose proof (is_derive_minus _ _ _ _ _ D1 D2) as D. unfold minus, plus, opp in D. cbn in D.
      match type of D with is_derive _ _ ?d => replace 0 with d end; [exact D|]. unfold k. field. lra.
    - rewrite Rmin_left, Rmax_right by lra. intros x Hx. apply continuity_pt_minus; [apply IB_cont; lra|]. apply continuity_pt_scal. apply g2_cont. lra.
    - rewrite IB_0, G0 in E by lra. lra. }
  assert (K1 : k = 1). { pose proof (H 1 ltac:(lra)) as E. rewrite IB_1 in E by lra. unfold g2 in E. rewrite sqrt_1 in E. lra. }
  intros Hw. rewrite H, K1 by auto. ring.
Qed.

(** ** correct rounding between 1/2 and 1 *)
Lemma rnd_half m r : 1 / 2 <= r < 1 -> Rabs (r * bpow radix2 53 - IZR m) < / 2 -> rnd r = IZR m * bpow radix2 (-53).
Proof.
  intros H A. assert (M : mag radix2 r = 0%Z :> Z). { apply mag_unique. rewrite Rabs_pos_eq by lra. cbn. lra. }
  unfold rnd, round, F2R. cbn [Fnum Fexp]. unfold scaled_mantissa, cexp. rewrite M. change (fexp64 0) with (-53)%Z. change (- -53)%Z with 53%Z.
  f_equal. f_equal. now apply Znearest_imp.
Qed.
Lemma rdB_eq r y : bfin y -> B2R y <> 0 -> rnd r = B2R y -> rdB r = y.
Proof.
  intros Fy Nz E. destruct (rdB_ev r) as [N V]. assert (L : Rabs (B2R y) < maxR) by (pose proof (fin_lt y Fy) as L; rewrite ev_fin in L by auto; now apply Rabs_def1).
  rewrite rc_in, E in V by now rewrite E. assert (Fr : bfin (rdB r)) by (apply ev_lt_fin; auto; rewrite V; now apply Rabs_def2 in L). rewrite ev_fin in V by auto.
  apply B2R_inj; auto; [destruct (rdB r)|destruct y]; try discriminate; auto; cbn in *; try congruence; exfalso; apply Nz; congruence.
Qed.
(** the value of the function from bounds on the square root *)
Lemma g2_round w s m : 0 <= w <= 1 -> 0 <= s -> s * s <= w <= (s + / bpow radix2 70) * (s + / bpow radix2 70) -> 1 / 2 <= s * (3 - w) / 2 -> s * (3 - w) / 2 < 3 / 4 ->
  Rabs (s * (3 - w) / 2 * bpow radix2 53 - IZR m) < / 2 - / 1024 -> rnd (g2 w) = IZR m * bpow radix2 (-53).
Proof.
  intros Hw Hs [L U] A B C. set (d := / bpow radix2 70) in *. assert (Dp : 0 < d) by (apply Rinv_0_lt_compat, bpow_gt_0).
  assert (S1 : s <= sqrt w) by (rewrite <- (sqrt_square s) by auto; now apply sqrt_le_1_alt).
  assert (S2 : sqrt w <= s + d) by (rewrite <- (sqrt_square (s + d)) by lra; now apply sqrt_le_1_alt).
  assert (G : 0 <= g2 w - s * (3 - w) / 2 <= d * 3 / 2) by (unfold g2; split; nra).
  assert (D53 : d * 3 / 2 * bpow radix2 53 < / 1024) by (unfold d; cbn; lra). assert (D4 : d * 3 / 2 < / 4) by (unfold d; cbn; lra).
  pose proof (bpow_gt_0 radix2 53) as P53. apply rnd_half; [lra|]. apply Rabs_def2 in C. apply Rabs_def1; nra.
Qed.

(** ** Student, four degrees of freedom: consecutive doubles where the value goes down *)
Definition t4_a : b64 := bz 8275053362055610 (-53).
Definition t4_b : b64 := bz 8275053362055611 (-53).
Definition w4_a : b64 := bz 6277753723413821 (-55).
Definition w4_b : b64 := bz 6277753723413820 (-55).
Definition v4_a : b64 := bz 5312169133559238 (-53).
Definition v4_b : b64 := bz 5312169133559237 (-53).
Local Notation half := (blit (1#2)).
Lemma inc_a : t_incbeta TFR half (bofZ 2) w4_a = v4_a.
Proof.
  cbn [t_incbeta TFR]. rewrite CR_fin by (vm_compute; reflexivity). destruct half_val as [_ ->]. destruct (bofZ_R 2 ltac:(sm)) as [-> _].
  assert (W : B2R w4_a = 6277753723413821 * bpow radix2 (-55)) by (vm_compute; lra). assert (V : B2R v4_a = 5312169133559238 * bpow radix2 (-53)) by (vm_compute; lra).
  rewrite W, IB_half_two by (cbn; lra). apply rdB_eq; [vm_compute; reflexivity|rewrite V; cbn; lra|]. rewrite V. apply (g2_round _ (504634466538163672076426 * bpow radix2 (-80))); try (cbn; lra). cbn. apply Rabs_def1; lra.
Qed.
Lemma inc_b : t_incbeta TFR half (bofZ 2) w4_b = v4_b.
Proof.
  cbn [t_incbeta TFR]. rewrite CR_fin by (vm_compute; reflexivity). destruct half_val as [_ ->]. destruct (bofZ_R 2 ltac:(sm)) as [-> _].
  assert (W : B2R w4_b = 6277753723413820 * bpow radix2 (-55)) by (vm_compute; lra). assert (V : B2R v4_b = 5312169133559237 * bpow radix2 (-53)) by (vm_compute; lra).
  rewrite W, IB_half_two by (cbn; lra). apply rdB_eq; [vm_compute; reflexivity|rewrite V; cbn; lra|]. rewrite V. apply (g2_round _ (504634466538163631884146 * bpow radix2 (-80))); try (cbn; lra). cbn. apply Rabs_def1; lra.
Qed.
Lemma four_big : big_eps (bofZ 4). Proof. split; vm_compute; reflexivity. Qed.
Lemma pb_a (F : TF) : pbeta (N:=B64_Num F) w4_a half (bofZ 2) false = t_incbeta F half (bofZ 2) w4_a.
Proof.
  unfold pbeta. replace (beta_sanity3 (N:=B64_Num F) w4_a half (bofZ 2)) with true by (vm_compute; reflexivity).
  change (leb w4_a (ofZ 0)) with (Bleb w4_a (bofZ 0)). replace (Bleb w4_a (bofZ 0)) with false by (vm_compute; reflexivity).
  change (leb (ofZ 1) w4_a) with (Bleb (bofZ 1) w4_a). replace (Bleb (bofZ 1) w4_a) with false by (vm_compute; reflexivity).
  change (eqb half (ofZ 0)) with (Beqb half (bofZ 0)). replace (Beqb half (bofZ 0)) with false by (vm_compute; reflexivity).
  change (eqb (bofZ 2) (ofZ 0)) with (Beqb (bofZ 2) (bofZ 0)). replace (Beqb (bofZ 2) (bofZ 0)) with false by (vm_compute; reflexivity).
  replace (any_posinf2 (N:=B64_Num F) half (bofZ 2)) with false by (vm_compute; reflexivity). reflexivity.
Qed.
Lemma pb_b (F : TF) : pbeta (N:=B64_Num F) w4_b half (bofZ 2) false = t_incbeta F half (bofZ 2) w4_b.
Proof.
  unfold pbeta. replace (beta_sanity3 (N:=B64_Num F) w4_b half (bofZ 2)) with true by (vm_compute; reflexivity).
  change (leb w4_b (ofZ 0)) with (Bleb w4_b (bofZ 0)). replace (Bleb w4_b (bofZ 0)) with false by (vm_compute; reflexivity).
  change (leb (ofZ 1) w4_b) with (Bleb (bofZ 1) w4_b). replace (Bleb (bofZ 1) w4_b) with false by (vm_compute; reflexivity).
  change (eqb half (ofZ 0)) with (Beqb half (bofZ 0)). replace (Beqb half (bofZ 0)) with false by (vm_compute; reflexivity).
  change (eqb (bofZ 2) (ofZ 0)) with (Beqb (bofZ 2) (bofZ 0)). replace (Beqb (bofZ 2) (bofZ 0)) with false by (vm_compute; reflexivity).
  replace (any_posinf2 (N:=B64_Num F) half (bofZ 2)) with false by (vm_compute; reflexivity). reflexivity.
Qed.
(** at the points and at their opposites *)
Lemma t4_low (x w v : b64) : bfin x -> Bltb (bmul x x) (bofZ 4) = true -> bdiv (bmul x x) (badd (bofZ 4) (bmul x x)) = w -> pbeta (N:=B64_Num TFR) w half (bofZ 2) false = v ->
  lower TFR x (bofZ 4) = bsub half (bdiv v (bofZ 2)).
Proof. intros Fx L W V. unfold lower. rewrite L, W. replace (bdiv (bofZ 4) (bofZ 2)) with (bofZ 2) by (apply b64_eq; vm_compute; reflexivity). now rewrite V. Qed.
Lemma pt4 (x w v : b64) : bfin x -> Bltb (bmul x x) (bofZ 4) = true -> bdiv (bmul x x) (badd (bofZ 4) (bmul x x)) = w -> pbeta (N:=B64_Num TFR) w half (bofZ 2) false = v ->
  pt (N:=B64_Num TFR) x (bofZ 4) false = if Bltb (bofZ 0) x then bsub (bofZ 1) (bsub half (bdiv v (bofZ 2))) else bsub half (bdiv v (bofZ 2)).
Proof. intros Fx L W V. rewrite pt_val by (auto using four_big; vm_compute; reflexivity). now rewrite (t4_low x w v). Qed.
Lemma pt4_dip : t4_a ≺ t4_b /\ pt (N:=B64_Num TFR) t4_b (bofZ 4) false ≺ pt (N:=B64_Num TFR) t4_a (bofZ 4) false.
Proof.
  split; [vm_compute; reflexivity|].
  rewrite (pt4 t4_a w4_a v4_a ltac:(vm_compute; reflexivity) ltac:(vm_compute; reflexivity) ltac:(apply b64_eq; vm_compute; reflexivity) (eq_trans (pb_a TFR) inc_a)).
  rewrite (pt4 t4_b w4_b v4_b ltac:(vm_compute; reflexivity) ltac:(vm_compute; reflexivity) ltac:(apply b64_eq; vm_compute; reflexivity) (eq_trans (pb_b TFR) inc_b)). vm_compute. reflexivity.
Qed.
Lemma pt4_dip_low : Bopp t4_b ≺ Bopp t4_a /\ pt (N:=B64_Num TFR) (Bopp t4_a) (bofZ 4) false ≺ pt (N:=B64_Num TFR) (Bopp t4_b) (bofZ 4) false.
Proof.
  split; [vm_compute; reflexivity|].
  rewrite (pt4 (Bopp t4_a) w4_a v4_a ltac:(vm_compute; reflexivity) ltac:(vm_compute; reflexivity) ltac:(apply b64_eq; vm_compute; reflexivity) (eq_trans (pb_a TFR) inc_a)).
  rewrite (pt4 (Bopp t4_b) w4_b v4_b ltac:(vm_compute; reflexivity) ltac:(vm_compute; reflexivity) ltac:(apply b64_eq; vm_compute; reflexivity) (eq_trans (pb_b TFR) inc_b)). vm_compute. reflexivity.
Qed.

(** ** binomial, three trials: above one, and then down to one *)
Definition p54 : b64 := bz 1 (-54).
Lemma log_one : t_log TFR (bsub (bofZ 1) p54) = bofZ 0.
Proof.
  replace (bsub (bofZ 1) p54) with (bofZ 1) by (apply b64_eq; vm_compute; reflexivity). cbn [t_log TFR]. rewrite CR_fin by (vm_compute; reflexivity). destruct (bofZ_R 1 ltac:(sm)) as [-> _].
  unfold extl. destruct Rle_dec; [lra|]. pose proof maxR_pos. unfold cl. rewrite ln_1, Rmin_right, Rmax_right by lra. rewrite rdB_zero; [apply b64_eq; vm_compute; reflexivity|]. unfold rnd. now rewrite round_0 by typeclasses eauto.
Qed.
Lemma mass0 : dbinom (N:=B64_Num TFR) 0 3 p54 false = bofZ 1.
Proof.
  unfold dbinom. replace (binom_sanity (N:=B64_Num TFR) 3 p54) with true by (vm_compute; reflexivity). cbn [negb Z.ltb Z.compare Pos.compare Pos.compare_cont orb Z.eqb Pos.eqb exp_if]. unfold dbinom_log_compute. cbn [Z.eqb].
  change (Num.log (ofZ 1 - p54)%num) with (t_log TFR (bsub (bofZ 1) p54)). rewrite log_one. change (t_exp TFR (bmul (bofZ 3) (bofZ 0)) = bofZ 1). replace (bmul (bofZ 3) (bofZ 0)) with (bofZ 0) by (apply b64_eq; vm_compute; reflexivity).
  cbn [t_exp TFR]. rewrite CR_fin by (vm_compute; reflexivity). destruct (bofZ_R 0 ltac:(sm)) as [-> _]. rewrite exp_0. destruct (bofZ_R 1 ltac:(sm)) as [A B]. apply rdB_same; auto; lra.
Qed.
Lemma rdB_within r : Rabs r <= 100 -> within (102 * ulp1) (rdB r) r.
Proof.
  intros H. pose proof huge_1. pose proof ulp1_val as U. pose proof tiny_small. pose proof (rdB_near r ltac:(lra)) as N. pose proof (near_within _ _ _ _ N ltac:(lra)) as W. eapply within_le; [exact W|]. nra.
Qed.
Lemma ln2_9 : / 2 <= ln 2 <= 9 / 10. Proof. split; [apply ln2_ge|apply GammaBd.ln2_le]. Qed.
Lemma ln3_1 : 1 <= ln 3 <= 2.
Proof.
  pose proof ln2_9. split; [rewrite <- (ln_exp 1); apply ln_mono; [apply exp_pos|apply exp_le_3]|]. apply Rle_trans with (ln 4); [apply ln_mono; lra|]. replace 4 with (2 * 2) by lra. rewrite ln_mult by lra. lra.
Qed.
Lemma mass1 : nn (dbinom (N:=B64_Num TFR) 1 3 p54 false) /\ 33 / 32 * bpow radix2 (-53) <= ev (dbinom (N:=B64_Num TFR) 1 3 p54 false).
Proof.
  unfold dbinom. replace (binom_sanity (N:=B64_Num TFR) 3 p54) with true by (vm_compute; reflexivity). cbn [negb Z.ltb Z.compare Pos.compare Pos.compare_cont orb Z.eqb Pos.eqb exp_if]. unfold dbinom_log_compute. cbn [Z.eqb Pos.eqb].
  change (Num.log (ofZ 1 - p54)%num) with (t_log TFR (bsub (bofZ 1) p54)). rewrite log_one.
  set (L3 := t_log_binom TFR 3 1). set (L54 := t_log TFR p54). change (3 - 1)%Z with 2%Z.
  set (v := badd (badd L3 (bmul (bofZ 1) L54)) (bmul (bofZ 2) (bofZ 0))).
  match goal with |- nn ?e /\ _ => change e with (t_exp TFR v) end.
  pose proof ln2_9 as B2. pose proof ln3_1 as B3. pose proof ulp1_val as U. pose proof tiny_small as T. pose proof tiny_pos. pose proof huge_1 as Hh.
  assert (W3 : within (102 * ulp1) L3 (ln 3)).
  { unfold L3. cbn [t_log_binom TFR]. replace (Binomial.C (Z.to_nat 3) (Z.to_nat 1)) with 3 by (change (Z.to_nat 3) with 3%nat; change (Z.to_nat 1) with 1%nat; unfold Binomial.C; simpl; field). apply rdB_within. apply Rabs_le. lra. }
  assert (Rp : B2R p54 = bpow radix2 (-54)) by (vm_compute; lra).
  assert (W54 : within (102 * ulp1) L54 (- 54 * ln 2)).
  { unfold L54. cbn [t_log TFR]. rewrite CR_fin by (vm_compute; reflexivity). rewrite Rp. unfold extl. pose proof (bpow_gt_0 radix2 (-54)). destruct Rle_dec; [lra|]. rewrite B64CR3.ln_bpow. change (IZR (-54)) with (-54).
    unfold cl. pose proof huge_max. rewrite Rmin_right, Rmax_right by (rewrite ?Rmin_right; lra). apply rdB_within. apply Rabs_le. lra. }
  destruct (bofZ_R 1 ltac:(sm)) as [E1 F1]. destruct (bofZ_R 2 ltac:(sm)) as [E2 F2].
  pose proof (within_mulc _ (bofZ 1) _ _ 100 W54 F1 ltac:(rewrite E1; apply Rabs_le; lra) ltac:(rewrite E1, Rabs_pos_eq; lra) ltac:(lra)) as WM. rewrite E1, Rabs_pos_eq in WM by lra.
  pose proof (within_add _ _ _ _ _ _ 100 W3 WM ltac:(apply Rabs_le; lra) ltac:(lra) ltac:(lra)) as WA.
  assert (WZ : within 0 (bmul (bofZ 2) (bofZ 0)) 0). { replace (bmul (bofZ 2) (bofZ 0)) with (bofZ 0) by (apply b64_eq; vm_compute; reflexivity). apply (within_Z 0). sm. }
  pose proof (within_add _ _ _ _ _ _ 100 WA WZ ltac:(apply Rabs_le; lra) ltac:(lra) ltac:(lra)) as WV. fold v in WV. destruct WV as [Fv Dv]. apply Rabs_le_inv in Dv.
  assert (Lv : / 20 - 53 * ln 2 <= B2R v) by lra.
  cbn [t_exp TFR]. rewrite CR_fin by exact Fv. destruct (rdB_ev (exp (B2R v))) as [N E]. split; auto. rewrite E.
  assert (K : rc (33 / 32 * bpow radix2 (-53)) = 33 / 32 * bpow radix2 (-53)).
  { replace (33 / 32 * bpow radix2 (-53)) with (ev (bz 33 (-58))) by (vm_compute; lra). apply rc_ev. vm_compute. reflexivity. }
  rewrite <- K. apply rc_mono. apply Rle_trans with (exp (/ 20 - 53 * ln 2)); [|apply exp_le_compat; lra].
  unfold Rminus. rewrite exp_plus. replace (- (53 * ln 2)) with (ln (bpow radix2 (-53))) by (rewrite B64CR3.ln_bpow; cbn [IZR]; lra). rewrite exp_ln by apply bpow_gt_0.
  apply Rmult_le_compat_r; [apply bpow_ge_0|]. pose proof (exp_ineq1_le (/ 20)). lra.
Qed.
Lemma pbinom_above : bofZ 1 ≺ pbinom (N:=B64_Num TFR) 1 3 p54 false /\ pbinom (N:=B64_Num TFR) 3 3 p54 false = bofZ 1.
Proof.
  split.
  - unfold pbinom. replace (binom_sanity (N:=B64_Num TFR) 3 p54) with true by (vm_compute; reflexivity). cbn [negb Z.ltb Z.leb Z.eqb Z.compare Pos.compare Pos.compare_cont Pos.eqb].
    change (Z.to_nat 1 + 1)%nat with 2%nat. cbn [pbinom_recur Z.eqb option_map log_if]. change (0 + 1)%Z with 1%Z. cbn [Z.eqb Pos.eqb option_map]. rewrite mass0. destruct mass1 as [N L]. set (d := dbinom 1 3 p54 false) in *.
    change (bofZ 1 ≺ badd (bofZ 1) d). destruct (bofZ_R 1 ltac:(sm)) as [E1 F1]. destruct (ev_Z 1 ltac:(sm)) as [Z1 V1]. apply ltb_ev; auto; [now apply badd_l_nn|].
    apply Rlt_le_trans with (ev (badd (bofZ 1) (bz 33 (-58)))); [apply (ltb_ev (bofZ 1)); auto; vm_compute; reflexivity|].
    apply (badd_l (bofZ 1) F1); [apply dom_all; vm_compute; reflexivity|now apply dom_all|]. replace (ev (bz 33 (-58))) with (33 / 32 * bpow radix2 (-53)) by (vm_compute; lra). exact L.
  - unfold pbinom. replace (binom_sanity (N:=B64_Num TFR) 3 p54) with true by (vm_compute; reflexivity). reflexivity.
Qed.
