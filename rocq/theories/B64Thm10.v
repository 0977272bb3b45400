(** Generated by a script: the statements of Props_C70.v for binders in the order used there. *)
From Coq Require Import ZArith QArith Reals Lra Lia Bool.
From Verif Require Import Erf GammaFn NormR Discrete Spec SpecSF.
From Verif Require Import Num Prob Dens Quant B64 SpecB64 SpecBin SpecAcc SpecAccQ SpecAccD B64R B64Ord B64Cdf B64Cdf2 B64Cdf3 B64CR B64CR2 B64CR3 B64CdfBad B64Acc B64AccW B64AccW4 B64AccQW B64AccCdf B64Thm3 B64Thm4 B64AccBin B64Bin.
From Flocq Require Import Core IEEE754.BinarySingleNaN.
Local Open Scope Z_scope.

(** ** cases *)
Lemma TFR_exp_0 : t_exp TFR (bofZ 0) = bofZ 1.
Proof.
  destruct (bofZ_R 0 ltac:(sm)) as [B0 F0], (bofZ_R 1 ltac:(sm)) as [B1 F1]. cbn [t_exp TFR]. rewrite CR_fin by auto. rewrite B0, exp_0. pose proof huge_1.
  destruct (rdB_R 1 ltac:(rewrite Rabs_pos_eq; lra)) as [Fr Br]. rewrite (rnd_Z 1 ltac:(sm)) in Br. apply B2R_inj.
  - destruct (rdB 1) as [s|s| |s m ex Bd]; try discriminate; [exfalso; cbn in Br; lra|reflexivity].
  - vm_compute. reflexivity.
  - now rewrite Br, B1.
Qed.
Lemma half_fin : finite (blit (1#2)). Proof. reflexivity. Qed.
Lemma half_01 : (0 < B2R (blit (1#2)) < 1)%R. Proof. rewrite half_V. lra. Qed.
Lemma ln2_1 : (0 < ln 2 <= 1)%R.
Proof. pose proof ln_lt_2. assert (L2 : (ln 2 <= ln (Rtrigo_def.exp 1))%R) by (pose proof (exp_ineq1 1 ltac:(lra)); left; apply ln_increasing; lra). rewrite ln_exp in L2. lra. Qed.
Lemma size_half n : 0 <= n -> (0 <= binom_size n (B2R (blit (1#2))) <= 3 + IZR n * 4)%R.
Proof.
  intros Hn. unfold binom_size. rewrite half_V. replace (1 - / 2)%R with (/ 2)%R by lra. rewrite ln_Rinv, Rabs_Ropp by lra. pose proof ln2_1. rewrite Rabs_pos_eq by lra. assert (0 <= IZR n)%R by now apply (IZR_le 0).
  assert (0 <= IZR n * (2 + ln 2 + ln 2) <= IZR n * 4)%R by (split; [apply Rmult_le_pos; lra|apply Rmult_le_compat_l; lra]). lra.
Qed.
Lemma size_ok n : 0 <= n <= 100 -> (2000 * e2 * binom_size n (B2R (blit (1#2))) <= 1)%R.
Proof. intros Hn. destruct (size_half n ltac:(lia)) as [A B]. assert (IZR n <= 100)%R by (apply IZR_le; lia). unfold e2. rewrite ulp1_val. lra. Qed.
Lemma err_2 : (11 * e2 * binom_size 2 (B2R (blit (1#2))) < / 10)%R.
Proof. destruct (size_half 2 ltac:(lia)) as [A B]. unfold e2. rewrite ulp1_val. lra. Qed.
Lemma cdf_2_0 : binom_cdfZ 2 (B2R (blit (1#2))) 0 = (/ 4)%R.
Proof. unfold binom_cdfZ, binom_pmf. rewrite half_V. change (Z.to_nat 2) with 2%nat. change (Z.to_nat 0) with 0%nat. cbn [sum_f_R0 Nat.leb Nat.sub]. unfold Binomial.C. cbn. field. Qed.
Lemma cdf_2_1 : binom_cdfZ 2 (B2R (blit (1#2))) 1 = (3 / 4)%R.
Proof. unfold binom_cdfZ, binom_pmf. rewrite half_V. change (Z.to_nat 2) with 2%nat. change (Z.to_nat 1) with 1%nat. cbn [sum_f_R0 Nat.leb Nat.sub]. unfold Binomial.C. cbn. field. Qed.
Lemma exact_up : (B2R (blit (1#2)) + 11 * e2 * binom_size 2 (B2R (blit (1#2))) <= binom_cdfZ 2 (B2R (blit (1#2))) 1)%R.
Proof. rewrite cdf_2_1. pose proof err_2. rewrite half_V at 1. lra. Qed.
Lemma exact_down : 0 < 1 -> (binom_cdfZ 2 (B2R (blit (1#2))) (1 - 1) + 11 * e2 * binom_size 2 (B2R (blit (1#2))) < B2R (blit (1#2)))%R.
Proof. intros _. change (1 - 1) with 0. rewrite cdf_2_0. pose proof err_2. rewrite half_V at 2. lra. Qed.
Lemma pb_2 x : 0 <= x -> within (/ 10) (pbinom (N:=B64_Num TFR) x 2 (blit (1#2)) false) (binom_cdfZ 2 (B2R (blit (1#2))) x).
Proof. intros Hx. pose proof err_2. eapply within_le; [apply (pbinom_acc TFR e2 e2_ok 2 (blit (1#2)) TFR_log_binom_acc TFR_log_acc TFR_exp_up_acc ltac:(lia) half_fin half_01 (size_ok 2 ltac:(lia)) x Hx)|]. change (bin_size 2 (B2R (blit (1#2)))) with (binom_size 2 (B2R (blit (1#2)))). lra. Qed.
Lemma att_prob : prob (pbinom (N:=B64_Num TFR) 1 2 (blit (1#2)) false).
Proof. destruct (pb_2 1 ltac:(lia)) as [Fv D]. split; auto. rewrite cdf_2_1 in D. apply Rabs_le_inv in D. lra. Qed.
Lemma att_lt : forall j, 0 <= j < 1 -> (pbinom (N:=B64_Num TFR) j 2 (blit (1#2)) false ≺ pbinom (N:=B64_Num TFR) 1 2 (blit (1#2)) false)%b64.
Proof.
  intros j Hj. assert (j = 0) by lia. subst j. destruct (pb_2 0 ltac:(lia)) as [F0 D0], (pb_2 1 ltac:(lia)) as [Fv D]. rewrite cdf_2_1 in D. rewrite cdf_2_0 in D0. apply Rabs_le_inv in D, D0. apply bltb_R; auto. lra.
Qed.
Ltac ex70 := lazymatch goal with
  | |- unit_ok _ => exact e2_ok | |- log_binom_acc _ _ => exact TFR_log_binom_acc | |- log_acc _ _ => exact TFR_log_acc | |- exp_up_acc _ _ => exact TFR_exp_up_acc
  | |- prob (blit (1#2)) => exact half_prob | |- prob (blit (3#4)) => exact q34_prob | |- prob (pbinom _ _ _ _) => exact att_prob | |- finite _ => exact half_fin
  | |- (0 < B2R _ < 1)%R => exact half_01 | |- (2000 * _ * _ <= 1)%R => apply size_ok; lia | |- (_ <= binom_cdfZ _ _ _)%R => exact exact_up | |- 0 < 1 -> _ => exact exact_down
  | |- forall j, _ => exact att_lt | |- t_log _ _ = _ => exact TFR_log_1 | |- t_exp _ _ = _ => exact TFR_exp_0 | |- Bleb _ _ = true => vm_compute; reflexivity
  | |- first_reach _ _ _ => assumption | |- (_ <= _)%Z => lia | |- (_ <= _ <= _)%Z => cbn; lia end.

Lemma bi_search : forall (F : TF) (n : Z) (pr p : b64), 0 <= n -> (bofZ 0 ≤ pr)%b64 -> (pr ≤ bofZ 1)%b64 -> prob p -> 
  exists k, 0 <= k <= n /\ qbinom (N:=B64_Num F) p n pr = bofZ k /\ first_reach (fun j => pbinom (N:=B64_Num F) j n pr false) p k.
Proof.
  intros F n pr p. exact (qbinom_search F n pr p).
Qed.

Lemma bi_tests : forall (F : TF) (n k : Z) (pr p : b64), 0 <= n -> (bofZ 0 ≤ pr)%b64 -> (pr ≤ bofZ 1)%b64 -> prob p -> first_reach (fun j => pbinom (N:=B64_Num F) j n pr false) p k -> 
  qbinom_run (N:=B64_Num F) (Z.to_nat k + 2) p n pr = Some (bofZ k) /\ qbinom_run (N:=B64_Num F) (Z.to_nat k + 1) p n pr = None.
Proof.
  intros F n k pr p. exact (qbinom_tests F n pr p k).
Qed.

Lemma bi_attained : forall (F : TF) (n k : Z) (pr : b64), 0 <= n -> (bofZ 0 ≤ pr)%b64 -> (pr ≤ bofZ 1)%b64 -> 0 <= k -> prob (pbinom (N:=B64_Num F) k n pr false) -> (forall j, 0 <= j < k -> (pbinom (N:=B64_Num F) j n pr false ≺ pbinom (N:=B64_Num F) k n pr false)%b64) -> 
  qbinom (N:=B64_Num F) (pbinom (N:=B64_Num F) k n pr false) n pr = bofZ k.
Proof.
  intros F n k pr Hn A B Hk. exact (qbinom_attained F n pr k Hn A B Hk).
Qed.

Lemma bi_accurate : forall (F : TF) (e : R) (n : Z) (pr p : b64), unit_ok e -> log_binom_acc F e -> log_acc F e -> exp_up_acc F e -> 2 <= n <= 2 ^ 53 -> finite pr -> (0 < B2R pr < 1)%R -> (2000 * e * binom_size n (B2R pr) <= 1)%R -> prob p -> 
  exists k, 0 <= k <= n /\ qbinom (N:=B64_Num F) p n pr = bofZ k /\ binom_quantile_upto (11 * e * binom_size n (B2R pr)) n (B2R pr) (B2R p) k.
Proof.
  intros F e n pr p He LB LA XA Hn Fp Hp HW. exact (qbinom_accurate F e He n pr LB LA XA Hn Fp Hp HW p).
Qed.

Lemma bi_exact : forall (F : TF) (e : R) (n k : Z) (pr p : b64), unit_ok e -> log_binom_acc F e -> log_acc F e -> exp_up_acc F e -> 2 <= n <= 2 ^ 53 -> finite pr -> (0 < B2R pr < 1)%R -> (2000 * e * binom_size n (B2R pr) <= 1)%R -> prob p -> 0 <= k -> (B2R p + 11 * e * binom_size n (B2R pr) <= binom_cdfZ n (B2R pr) k)%R -> (0 < k -> (binom_cdfZ n (B2R pr) (k - 1) + 11 * e * binom_size n (B2R pr) < B2R p)%R) -> 
  qbinom (N:=B64_Num F) p n pr = bofZ k.
Proof.
  intros F e n k pr p He LB LA XA Hn Fp Hp HW. exact (qbinom_exact F e He n pr LB LA XA Hn Fp Hp HW p k).
Qed.

Lemma bi_tie : forall F : TF, t_log F (bofZ 1) = bofZ 0 -> t_exp F (bofZ 0) = bofZ 1 ->
  exists (n : Z) (pr : b64), 0 <= n /\ (bofZ 0 ≺ pr)%b64 /\ (pr ≺ bofZ 1)%b64 /\ qbinom (N:=B64_Num F) (pbinom (N:=B64_Num F) 0 n pr false) n pr <> bofZ 0.
Proof.
  exact qbinom_tie.
Qed.
