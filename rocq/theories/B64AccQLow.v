(** Quantiles in binary64 for every probability, for the families whose code first computes 2p - 1 or p - 1/2:
    the value returned is accurate for a probability next to p, or it is minus infinity and p is below 2^-51. *)
From Coq Require Import ZArith QArith Reals Bool Lra Lia.
From Verif Require Import B64Thm3 B64AccQW B64Thm8.
From Verif Require Import RealElem RealAcc RealAccQ RealTrip Erf GammaFn BetaFn NormR Spec SpecSF.
From Verif Require Import Num Sanity Prob Dens Quant B64 B64R B64Ord SpecB64 SpecAcc SpecAccQ SpecTrip B64Cdf B64Cdf2 B64Cdf3 B64Unif B64Quant B64Quant2 B64Acc B64AccCdf B64AccCdf2 B64AccCdf3 B64AccQ B64AccQ2 B64AccQ3 B64AccQ4 RandB64 B64CdfBad B64Trip B64Trip2 B64Trip3 B64TripLow B64CR B64AccW B64Thm4.
From Flocq Require Import Core IEEE754.BinarySingleNaN.
Local Open Scope R_scope.
Notation exp := Rtrigo_def.exp. Notation sqrt := R_sqrt.sqrt.
Lemma norm_next p : prob p -> let w := bsub (bmul (bofZ 2) p) (bofZ 1) in (w = bofZ (-1) /\ B2R p <= ulp1) \/
  exists p', prob p' /\ B2R (bsub (bmul (bofZ 2) p') (bofZ 1)) = 2 * B2R p' - 1 /\ bsub (bmul (bofZ 2) p') (bofZ 1) = w /\ Rabs (B2R p' - B2R p) <= ulp1.
Proof.
  intros O w. destruct (Rle_lt_dec (/ 4) (B2R p)) as [L|L]; [|now apply norm_twin]. right. exists p. pose proof ulp1_val.
  split; [auto|]. split; [now apply erfarg_exact|]. split; [reflexivity|]. rewrite Rminus_diag_eq, Rabs_R0 by auto. lra.
Qed.
Lemma laplace_next p : prob p -> let w := bsub p (blit (1#2)) in (w = Bopp (blit (1#2)) /\ B2R p <= 2 * ulp1) \/
  exists p', prob p' /\ B2R (bsub p' (blit (1#2))) = B2R p' - / 2 /\ bsub p' (blit (1#2)) = w /\ Rabs (B2R p' - B2R p) <= 2 * ulp1.
Proof.
  intros O w. destruct (Rle_lt_dec (/ 4) (B2R p)) as [L|L]; [|now apply laplace_twin]. right. exists p. pose proof ulp1_val.
  split; [auto|]. split; [now apply half_exact|]. split; [reflexivity|]. rewrite Rminus_diag_eq, Rabs_R0 by auto. lra.
Qed.
Lemma qnorm_lost' F e p mu sigma : unit_ok e -> const_acc e (t_SQRT_2 F) (sqrt 2) -> t_erf_inv F (bofZ (-1)) = minus_inf -> prob p -> bsub (bmul (bofZ 2) p) (bofZ 1) = bofZ (-1) -> finite mu -> positive sigma -> / huge <= B2R sigma <= huge / 4 -> qnorm (N:=B64_Num F) p mu sigma = minus_inf.
Proof.
  intros He C EI O E Fm Ps Hs. rewrite qnorm_fin, E, EI by auto. destruct (sq2_pos F e He sigma C Ps Hs) as [Fc Pc]. rewrite mul_minf by auto. now apply add_minf.
Qed.
Lemma aq_qnorm_next : forall (F : TF) (e : R) (p mu sigma : b64), unit_ok e -> const_acc e (t_SQRT_2 F) (sqrt 2) -> erf_inv_acc F e -> t_erf_inv F (bofZ (-1)) = minus_inf -> prob p -> finite mu -> positive sigma -> / huge <= B2R sigma <= huge / 4 ->
  (B2R p <= ulp1 /\ qnorm (N:=B64_Num F) p mu sigma = minus_inf) \/
  exists r : R, 0 < r < 1 /\ Rabs (r - B2R p) <= ulp1 /\ forall q : R, norm_cdf (B2R mu) (B2R sigma) q = r -> Rabs (B2R mu) + Rabs (q - B2R mu) + B2R sigma <= huge / 4 -> within (8 * e * (Rabs (B2R mu) + Rabs (q - B2R mu)) + (2 + 2 * B2R sigma) * tiny) (qnorm (N:=B64_Num F) p mu sigma) q.
Proof.
  intros F e p mu sigma He C EI EM O Fm Ps Hs. destruct (norm_next p O) as [[Ew Hp]|(p' & O' & X & Ew & D)].
  - left. split; auto. now apply (qnorm_lost' F e).
  - right. exists (B2R p'). split; [apply O'|]. split; [exact D|]. intros q Hq Hb. rewrite (qnorm_twin F p p') by auto. apply (qnorm_acc F e); auto. lra.
Qed.
Lemma aq_qlnorm_next : forall (F : TF) (e : R) (p mu sigma : b64), unit_ok e -> exp_all_acc F e -> const_acc e (t_SQRT_2 F) (sqrt 2) -> erf_inv_acc F e -> t_erf_inv F (bofZ (-1)) = minus_inf -> t_exp F minus_inf = bofZ 0 -> prob p -> finite mu -> positive sigma -> / huge <= B2R sigma <= huge / 4 ->
  (B2R p <= ulp1 /\ qlnorm (N:=B64_Num F) p mu sigma = bofZ 0) \/
  exists r : R, 0 < r < 1 /\ Rabs (r - B2R p) <= ulp1 /\ forall q : R, 0 < q <= huge / 4 -> lnorm_cdf (B2R mu) (B2R sigma) q = r -> Rabs (B2R mu) + Rabs (ln q - B2R mu) + B2R sigma <= 10000 -> near (e + 8 * e * (Rabs (B2R mu) + Rabs (ln q - B2R mu)) + (2 + 2 * B2R sigma) * tiny) tiny (qlnorm (N:=B64_Num F) p mu sigma) q.
Proof.
  intros F e p mu sigma He HX C EI EM X0 O Fm Ps Hs. destruct (norm_next p O) as [[Ew Hp]|(p' & O' & X & Ew & D)].
  - left. split; auto. rewrite qlnorm_eq, (qnorm_lost' F e), X0 by auto. reflexivity.
  - right. exists (B2R p'). split; [apply O'|]. split; [exact D|]. intros q Hq0 Hq Hb.
    replace (qlnorm (N:=B64_Num F) p mu sigma) with (qlnorm (N:=B64_Num F) p' mu sigma) by (rewrite !qlnorm_eq, (qnorm_twin F p p') by auto; reflexivity). apply (qlnorm_acc F e); auto. lra.
Qed.
Lemma aq_qt_inf_next : forall (F : TF) (e : R) (p : b64), unit_ok e -> const_acc e (t_SQRT_2 F) (sqrt 2) -> erf_inv_acc F e -> t_erf_inv F (bofZ (-1)) = minus_inf -> prob p ->
  (B2R p <= ulp1 /\ qt (N:=B64_Num F) p plus_inf = minus_inf) \/
  exists r : R, 0 < r < 1 /\ Rabs (r - B2R p) <= ulp1 /\ forall q : R, norm_cdf 0 1 q = r -> Rabs q <= huge / 8 -> within (8 * e * Rabs q + 4 * tiny) (qt (N:=B64_Num F) p plus_inf) q.
Proof.
  intros F e p He C EI EM O. destruct (bofZ_R 0 ltac:(sm)) as [A0 F0], (bofZ_R 1 ltac:(sm)) as [A1 F1]. assert (P1 : positive (bofZ 1)) by (split; [auto|lra]). pose proof huge_1 as H1.
  destruct (norm_next p O) as [[Ew Hp]|(p' & O' & X & Ew & D)].
  - left. split; auto. rewrite qt_inf by auto. apply (qnorm_lost' F e); auto. rewrite A1. assert (/ huge <= / 1) by (apply Rinv_le_contravar; lra). lra.
  - right. exists (B2R p'). split; [apply O'|]. split; [exact D|]. intros q Hq Hb.
    replace (qt (N:=B64_Num F) p plus_inf) with (qt (N:=B64_Num F) p' plus_inf) by (rewrite !qt_inf, (qnorm_twin F p p') by auto; reflexivity). apply (qtinf_acc F e); auto.
Qed.
Lemma aq_qlaplace_next : forall (F : TF) (e : R) (p mu sigma : b64), unit_ok e -> log_acc F e -> t_log F (bofZ 0) = minus_inf -> prob p -> finite mu -> positive sigma -> B2R sigma <= huge / 4 ->
  (B2R p <= 2 * ulp1 /\ qlaplace (N:=B64_Num F) p mu sigma = minus_inf) \/
  exists r : R, 0 < r < 1 /\ Rabs (r - B2R p) <= 2 * ulp1 /\ forall q : R, laplace_cdf (B2R mu) (B2R sigma) q = r -> Rabs (B2R mu) + Rabs (q - B2R mu) + B2R sigma <= huge / 4 -> within (5 * e * (Rabs (B2R mu) + Rabs (q - B2R mu)) + (2 + 2 * B2R sigma) * tiny) (qlaplace (N:=B64_Num F) p mu sigma) q.
Proof.
  intros F e p mu sigma He HL L0 O Fm Ps Hs. destruct (laplace_next p O) as [[Ew Hp]|(p' & O' & X & Ew & D)].
  - left. split; auto. rewrite qlaplace_fin, Ew by auto. replace (sgn (N:=B64_Num F) (Bopp (blit (1#2)))) with (-1)%Z by reflexivity.
    replace (bsub (bofZ 1) (bmul (bofZ 2) (Babs (Bopp (blit (1#2)))))) with (bofZ 0) by (apply b64_eq; vm_compute; reflexivity). rewrite L0. pose proof huge_1. destruct Ps as [Fs Ps'].
    destruct (sig_sgn sigma (-1) Fs) as [Fc Rc]; [rewrite Rabs_pos_eq; lra|auto|]. rewrite mul_pinf by (auto; rewrite Rc; lra). now apply sub_pinf.
  - right. exists (B2R p'). split; [apply O'|]. split; [exact D|]. intros q Hq Hb.
    replace (qlaplace (N:=B64_Num F) p mu sigma) with (qlaplace (N:=B64_Num F) p' mu sigma) by (rewrite !qlaplace_fin by auto; now rewrite Ew). apply (qlaplace_acc F e); auto.
Qed.
(** for the examples *)
Lemma e8_V : B2R (blit (1#8)) = / 8. Proof. vm_compute. lra. Qed.
Lemma e8_prob : prob (blit (1#8)). Proof. split; [reflexivity|]. rewrite e8_V. lra. Qed.
Lemma e8_big1 : ~ B2R (blit (1#8)) <= ulp1. Proof. rewrite e8_V, ulp1_val. lra. Qed.
Lemma e8_big2 : ~ B2R (blit (1#8)) <= 2 * ulp1. Proof. rewrite e8_V, ulp1_val. lra. Qed.
Lemma z2_R : / huge <= B2R (bofZ 2) <= huge / 4.
Proof. rewrite (proj1 (bofZ_R 2 ltac:(sm))). pose proof huge_1. assert (/ huge <= / 1) by (apply Rinv_le_contravar; lra). lra. Qed.
Ltac exlow := lazymatch goal with
  | |- unit_ok _ => exact e2_ok | |- prob _ => exact e8_prob | |- _ = minus_inf => first [exact ext_em | exact ext_l0] | |- _ = bofZ 0 => exact ext_x0
  | |- finite _ => apply finite_Z; sm | |- positive _ => apply positive_Z; sm | |- _ <= _ <= _ => exact z2_R | |- _ <= _ => exact (proj2 z2_R)
  | |- log_acc _ _ => exact TFR_log_acc | |- exp_all_acc _ _ => exact TFR_exp_all_acc | |- erf_inv_acc _ _ => exact TFR_erf_inv_acc | |- const_acc _ _ _ => exact TFR_SQRT_2_acc end.
