(** Accuracy of the binomial distribution function in double precision: a sum of rounded densities. *)
From Coq Require Import ZArith QArith Reals Bool Lra Lia.
From Verif Require Import Erf GammaFn BetaFn NormR Discrete GammaBd Spec SpecSF.
From Verif Require Import Num Sanity Prob Dens B64 SpecB64 SpecB64D SpecAcc SpecAccD B64R B64Ord B64Cdf B64Cdf2 B64Cdf3 B64Mag B64Acc B64AccCdf B64AccW B64AccDens B64AccDens5.
From Flocq Require Import Core IEEE754.BinarySingleNaN.
Local Open Scope R_scope.

(** *** sums of binomial probabilities *)
Definition bsum n p k j : R := sum_f_R0 (fun i => binom_pmf n p (k + i)) j.
Lemma bsum_S n p k j : bsum n p k (S j) = binom_pmf n p k + bsum n p (S k) j.
Proof.
  unfold bsum. rewrite decomp_sum by lia. rewrite Nat.add_0_r. f_equal. cbn [pred]. apply sum_eq. intros i _. f_equal. lia.
Qed.
Lemma bsum_pos n p k j : 0 <= p <= 1 -> 0 <= bsum n p k j.
Proof. intros Hp. apply cond_pos_sum. intros i. now apply binom_pmf_nonneg. Qed.
Lemma bsum_le n p k j : 0 <= p <= 1 -> bsum n p k j <= sum_f_R0 (binom_pmf n p) (k + j).
Proof.
  intros Hp. unfold bsum. induction j as [|j IH].
  - cbn [sum_f_R0]. rewrite Nat.add_0_r. destruct k as [|k]; cbn [sum_f_R0]; [lra|]. assert (0 <= sum_f_R0 (binom_pmf n p) k) by (apply cond_pos_sum; intros; now apply binom_pmf_nonneg). lra.
  - rewrite Nat.add_succ_r. cbn [sum_f_R0]. rewrite Nat.add_succ_r. lra.
Qed.
Lemma bsum_1 n p k j : 0 <= p <= 1 -> bsum n p k j <= 1.
Proof.
  intros Hp. eapply Rle_trans; [apply (bsum_le n p k j Hp)|]. rewrite <- (binom_sum_ge n p (k + j + n)) by lia.
  generalize (k + j)%nat as a. intros a. assert (M : forall m, sum_f_R0 (binom_pmf n p) a <= sum_f_R0 (binom_pmf n p) (a + m)); [|apply M].
  intros m. induction m as [|m IH]; [rewrite Nat.add_0_r; lra|]. rewrite Nat.add_succ_r. cbn [sum_f_R0]. pose proof (binom_pmf_nonneg n p (S (a + m)) Hp). lra.
Qed.
Lemma ln_choose n k : (k <= n)%nat -> 0 <= ln (Binomial.C n k) <= INR n.
Proof.
  intros Hk. pose proof (C_ge1 n k Hk) as C1. split.
  - rewrite <- ln_1. destruct C1 as [L| <-]; [left; apply ln_increasing; lra|lra].
  - destruct (ln_binom_pmf n k (1 / 2) Hk ltac:(lra)) as [E P]. pose proof (bsum_1 n (1 / 2) k 0 ltac:(lra)) as B. unfold bsum in B. cbn [sum_f_R0] in B. rewrite Nat.add_0_r in B.
    assert (L : ln (binom_pmf n (1 / 2) k) <= 0) by (rewrite <- ln_1; destruct B as [B| ->]; [left; now apply ln_increasing|lra]).
    replace (1 - 1 / 2) with (1 / 2) in E by lra. rewrite minus_INR in E by auto. assert (H2 : - (1) <= ln (1 / 2)).
    { replace (1 / 2) with (/ 2) by lra. rewrite ln_Rinv by lra. pose proof (ln_lt_2). pose proof exp_ineq1_le 1. assert (ln 2 <= ln (Rtrigo_def.exp 1)) by (destruct (Req_dec 2 (Rtrigo_def.exp 1)) as [<- |]; [lra|left; apply ln_increasing; lra]). rewrite ln_exp in *. lra. }
    pose proof (pos_INR n). assert (INR n * - (1) <= INR n * ln (1 / 2)) by (apply Rmult_le_compat_l; lra). lra.
Qed.

Section Bin.
Variable F : TF.
Notation NB := (B64_Num F).
Variable e : R.
Hypothesis He : unit_ok e.
(** one bound for the conditioning of all the terms *)
Definition bin_size (n : Z) (p : R) : R := 3 + IZR n * (2 + Rabs (ln p) + Rabs (ln (1 - p))).
Section P.
Variables (n : Z) (p : b64).
Hypothesis LB : log_binom_acc F e.
Hypothesis LA : log_acc F e.
Hypothesis XA : exp_up_acc F e.
Hypothesis Hn : (2 <= n <= 2 ^ 53)%Z.
Hypothesis Fp : finite p.
Hypothesis Hp : 0 < B2R p < 1.
Notation W := (bin_size n (B2R p)).
Hypothesis HW : 2000 * e * W <= 1.
Notation K := (9 * e * W + e).
Notation pm := (binom_pmf (Z.to_nat n) (B2R p)).
Lemma W_ge : 3 + 2 * IZR n <= W.
Proof. unfold bin_size. assert (0 <= IZR n) by (apply (IZR_le 0); lia). pose proof (Rabs_pos (ln (B2R p))). pose proof (Rabs_pos (ln (1 - B2R p))). assert (IZR n * 2 <= IZR n * (2 + Rabs (ln (B2R p)) + Rabs (ln (1 - B2R p)))) by (apply Rmult_le_compat_l; lra). lra. Qed.
Lemma term_acc k : (0 <= k <= n)%Z -> within (101 / 100 * K * pm (Z.to_nat k) + tiny) (dbinom (N:=NB) k n p false) (pm (Z.to_nat k)).
Proof.
  intros Hk. pose proof He as [E1 E2]. pose proof ulp1_val as U. pose proof huge_1 as H1. pose proof W_ge as WG. assert (N0 : 2 <= IZR n) by (apply (IZR_le 2); lia).
  assert (E0 : 0 < e) by lra. assert (EW : e * W <= / 2000) by lra.
  assert (WB : W <= bpow radix2 52). { apply (Rmult_le_reg_l ulp1); [lra|]. apply Rle_trans with 1; [|unfold ulp1; rewrite <- bpow_plus; simpl; lra]. assert (ulp1 * W <= e * W) by (apply Rmult_le_compat_r; lra). lra. }
  set (Sk := 3 + Rabs (ln (Binomial.C (Z.to_nat n) (Z.to_nat k))) + IZR k * (1 + Rabs (ln (B2R p))) + IZR (n - k) * (1 + Rabs (ln (1 - B2R p)))).
  assert (SW : Sk <= W).
  { unfold Sk, bin_size. destruct (ln_choose (Z.to_nat n) (Z.to_nat k) ltac:(lia)) as [C0 C1]. rewrite INR_IZR_INZ, Z2Nat.id in C1 by lia. rewrite (Rabs_pos_eq (ln (Binomial.C _ _))) by auto.
    pose proof (Rabs_pos (ln (B2R p))) as A. pose proof (Rabs_pos (ln (1 - B2R p))) as B. assert (K0 : 0 <= IZR k <= IZR n) by (split; apply IZR_le; lia). rewrite minus_IZR.
    assert (IZR k * Rabs (ln (B2R p)) <= IZR n * Rabs (ln (B2R p))) by (apply Rmult_le_compat_r; lra). assert ((IZR n - IZR k) * Rabs (ln (1 - B2R p)) <= IZR n * Rabs (ln (1 - B2R p))) by (apply Rmult_le_compat_r; lra). lra. }
  assert (ESW : e * Sk <= e * W) by (apply Rmult_le_compat_l; lra).
  destruct (dbinom_acc F e He n k p LB LA XA Hn Hk Fp Hp) as [_ D]. { fold Sk. eapply Rle_trans; [exact SW|]. eapply Rle_trans; [exact WB|apply bpow_small; lia]. }
  fold Sk in D. destruct (ln_binom_pmf (Z.to_nat n) (Z.to_nat k) (B2R p) ltac:(lia) Hp) as [_ P0].
  pose proof (bsum_1 (Z.to_nat n) (B2R p) (Z.to_nat k) 0 ltac:(lra)) as P1. unfold bsum in P1. cbn [sum_f_R0] in P1. rewrite Nat.add_0_r in P1.
  assert (L : ln (pm (Z.to_nat k)) <= 600) by (apply Rle_trans with 0; [|lra]; rewrite <- ln_1; destruct P1 as [B| ->]; [left; now apply ln_increasing|lra]).
  specialize (D ltac:(lra) L). apply near_le with (k' := K) (h' := tiny) in D; [|lra|lra]. apply near_within in D; [|lra]. rewrite Rabs_pos_eq in D by lra. exact D.
Qed.
Lemma recur_acc x : (0 <= x < n)%Z -> forall j k fuel, (Z.of_nat k + Z.of_nat j = x)%Z -> (j < fuel)%nat ->
  exists v, pbinom_recur (N:=NB) fuel x n p (Z.of_nat k) = Some v /\ within (101 / 100 * K * bsum (Z.to_nat n) (B2R p) k j + INR (S j) * (21 / 10 * ulp1)) v (bsum (Z.to_nat n) (B2R p) k j).
Proof.
  intros Hx. pose proof He as [E1 E2]. pose proof ulp1_val as U. pose proof huge_1 as H1. pose proof W_ge as WG. assert (N0 : 2 <= IZR n) by (apply (IZR_le 2); lia).
  assert (E0 : 0 < e) by lra. assert (EW : e * W <= / 2000) by lra. assert (EN : e * (3 + 2 * IZR n) <= e * W) by (apply Rmult_le_compat_l; lra). assert (UN : ulp1 * IZR n <= e * IZR n) by (apply Rmult_le_compat_r; lra).
  assert (T : tiny <= ulp1 / 1000) by (pose proof tiny_small; pose proof tiny_pos; unfold tiny, ulp1; apply Rle_trans with (bpow radix2 (-72)); [apply bpow_le; lia|cbn; lra]). pose proof tiny_pos as T0.
  induction j as [|j IH]; intros k fuel E Hf; destruct fuel as [|fuel]; try lia; cbn [pbinom_recur].
  - rewrite (proj2 (Z.eqb_eq _ _)) by lia. eexists. split; [reflexivity|]. pose proof (term_acc (Z.of_nat k) ltac:(lia)) as TA. rewrite Nat2Z.id in TA. unfold bsum. cbn [sum_f_R0]. rewrite Nat.add_0_r. eapply within_le; [exact TA|]. cbn [INR]. lra.
  - rewrite (proj2 (Z.eqb_neq _ _)) by lia. replace (Z.of_nat k + 1)%Z with (Z.of_nat (S k)) by lia. destruct (IH (S k) fuel ltac:(lia) ltac:(lia)) as (v & -> & V). cbn [option_map]. eexists. split; [reflexivity|].
    pose proof (term_acc (Z.of_nat k) ltac:(lia)) as TA. rewrite Nat2Z.id in TA. rewrite bsum_S.
    pose proof (bsum_1 (Z.to_nat n) (B2R p) k (S j) ltac:(lra)) as B1. rewrite bsum_S in B1. pose proof (bsum_pos (Z.to_nat n) (B2R p) (S k) j ltac:(lra)) as B2. pose proof (binom_pmf_nonneg (Z.to_nat n) (B2R p) k ltac:(lra)) as B3.
    set (s1 := pm k) in *. set (s2 := bsum (Z.to_nat n) (B2R p) (S k) j) in *. rewrite (S_INR (S j)).
    assert (J : INR (S j) <= IZR n) by (rewrite INR_IZR_INZ; apply IZR_le; lia). pose proof (pos_INR (S j)) as J0. assert (JU : INR (S j) * ulp1 <= IZR n * ulp1) by (apply Rmult_le_compat_r; lra).
    assert (EW0 : 0 <= e * W) by (apply Rmult_le_pos; lra). assert (KS : K * (s1 + s2) <= K * 1) by (apply Rmult_le_compat_l; lra).
    eapply within_le; [apply (within_add _ _ _ _ _ _ 1 TA V); [rewrite Rabs_pos_eq; lra|lra|lra]|]. lra.
Qed.
Lemma pbinom_acc x : (0 <= x)%Z -> within (11 * e * W) (pbinom (N:=NB) x n p false) (sum_f_R0 pm (Z.to_nat x)).
Proof.
  intros Hx. pose proof He as [E1 E2]. pose proof ulp1_val as U. pose proof W_ge as WG. assert (N0 : 2 <= IZR n) by (apply (IZR_le 2); lia). assert (E0 : 0 < e) by lra. assert (EN : e * (3 + 2 * IZR n) <= e * W) by (apply Rmult_le_compat_l; lra).
  unfold pbinom, binom_sanity. rewrite (nan_nn F p) by now apply nn_fin. rewrite inf_fin by auto. rewrite (proj2 (Z.ltb_ge n 0)) by lia. change (ltb p (ofZ 0)) with (Bltb p (bofZ 0)). rewrite lt0_f by (auto; lra).
  change (ltb (ofZ 1) p) with (Bltb (bofZ 1) p). rewrite gt1_f by (auto; lra). cbn [negb]. rewrite (proj2 (Z.ltb_ge x 0)) by lia. rewrite (proj2 (Z.eqb_neq n 1)) by lia.
  destruct (Z.leb_spec n x) as [L|L].
  - rewrite binom_sum_ge by lia. cbn [log_if]. eapply within_le; [apply (within_Z 1); sm|]. assert (0 <= e * IZR n) by (apply Rmult_le_pos; lra). lra.
  - destruct (recur_acc x ltac:(lia) (Z.to_nat x) 0 (Z.to_nat x + 1) ltac:(lia) ltac:(lia)) as (v & V & D). change (Z.of_nat 0) with 0%Z in V. rewrite V. cbn [log_if].
    change (bsum (Z.to_nat n) (B2R p) 0 (Z.to_nat x)) with (sum_f_R0 pm (Z.to_nat x)) in D. eapply within_le; [exact D|].
    pose proof (bsum_1 (Z.to_nat n) (B2R p) 0 (Z.to_nat x) ltac:(lra)) as B1. change (bsum (Z.to_nat n) (B2R p) 0 (Z.to_nat x)) with (sum_f_R0 pm (Z.to_nat x)) in B1.
    assert (EW0 : 0 <= e * W) by (apply Rmult_le_pos; lra). assert (KS : K * sum_f_R0 pm (Z.to_nat x) <= K * 1) by (apply Rmult_le_compat_l; lra).
    assert (J : INR (S (Z.to_nat x)) <= IZR n) by (rewrite INR_IZR_INZ; apply IZR_le; lia). pose proof (pos_INR (S (Z.to_nat x))). assert (INR (S (Z.to_nat x)) * ulp1 <= IZR n * e) by (apply Rmult_le_compat; lra). lra.
Qed.
End P.
End Bin.
