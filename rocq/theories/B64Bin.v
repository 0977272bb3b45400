(** The binomial quantile in double precision. *)
From Coq Require Import ZArith QArith Reals Bool Lra Lia.
From Verif Require Import Discrete Spec.
From Verif Require Import Num Sanity Prob Dens Quant B64 SpecB64 SpecBin SpecAcc SpecAccQ SpecAccD B64R B64Ord B64Cdf B64Cdf2 B64Cdf3 B64CR B64CdfBad B64Quant B64Quant2 B64Acc B64AccW B64AccQ B64AccBin.
From Flocq Require Import Core IEEE754.BinarySingleNaN.
Local Open Scope R_scope.

Section Q.
Variable F : TF.
Notation NB := (B64_Num F).
Notation P n pr := (fun j : Z => pbinom (N:=NB) j n pr false).
Lemma binom_ok n pr : (0 <= n)%Z -> Bleb (bofZ 0) pr = true -> Bleb pr (bofZ 1) = true -> binom_sanity (N:=NB) n pr = true.
Proof.
  intros Hn A B. pose proof (bern_ok F pr A B) as K. unfold bern_sanity in K. unfold binom_sanity. rewrite (proj2 (Z.ltb_ge n 0)) by lia.
  destruct (Num.is_nan (Num:=NB) pr); [discriminate|]. destruct (is_inf (N:=NB) pr); [discriminate|]. exact K.
Qed.
Lemma first_reach_unique G p j k : first_reach G p j -> first_reach G p k -> j = k.
Proof.
  intros (J0 & J1 & J2) (K0 & K1 & K2). destruct (Z.lt_trichotomy j k) as [L|[L|L]]; auto; exfalso; [apply J1, K2|apply K1, J2]; lia.
Qed.
Lemma qbinom_search n pr p : (0 <= n)%Z -> Bleb (bofZ 0) pr = true -> Bleb pr (bofZ 1) = true -> prob p ->
  exists k, (0 <= k <= n)%Z /\ qbinom (N:=NB) p n pr = bofZ k /\ first_reach (P n pr) p k.
Proof.
  intros Hn A B O. destruct (qbinom_first F n pr p (binom_ok n pr Hn A B)) as (k & L & E & C & D); [now apply prob_o|]. exists k. split; auto. split; auto. split; [lia|]. split; auto. congruence.
Qed.
(** the number of loop tests *)
Lemma recur_tests n pr p k : first_reach (P n pr) p k -> forall m c v, (Z.of_nat m + c = k)%Z -> (0 <= c)%Z -> Bltb v p = true ->
  qbinom_recur (N:=NB) (S (S m)) p n pr v c = Some (bofZ k) /\ qbinom_recur (N:=NB) (S m) p n pr v c = None.
Proof.
  intros (K0 & K1 & K2). apply not_true_is_false in K1. induction m as [|m IH]; intros c v E Hc V.
  - assert (c = k) by lia. subst c. cbn [qbinom_recur]. change (ltb v p) with (Bltb v p). rewrite V. change (ltb (pbinom k n pr false) p) with (Bltb (pbinom (N:=NB) k n pr false) p). rewrite K1. replace (k + 1 - 1)%Z with k by lia. auto.
  - destruct (IH (c + 1)%Z (pbinom (N:=NB) c n pr false)) as [A B]; [lia|lia|apply K2; lia|].
    change (qbinom_recur (N:=NB) (S (S (S m))) p n pr v c) with (if Bltb v p then qbinom_recur (N:=NB) (S (S m)) p n pr (pbinom (N:=NB) c n pr false) (c + 1)%Z else Some (bofZ (c - 1))).
    change (qbinom_recur (N:=NB) (S (S m)) p n pr v c) with (if Bltb v p then qbinom_recur (N:=NB) (S m) p n pr (pbinom (N:=NB) c n pr false) (c + 1)%Z else Some (bofZ (c - 1))).
    rewrite V. auto.
Qed.
Lemma qbinom_tests n pr p k : (0 <= n)%Z -> Bleb (bofZ 0) pr = true -> Bleb pr (bofZ 1) = true -> prob p -> first_reach (P n pr) p k ->
  qbinom_run (N:=NB) (Z.to_nat k + 2) p n pr = Some (bofZ k) /\ qbinom_run (N:=NB) (Z.to_nat k + 1) p n pr = None.
Proof.
  intros Hn A B O H. pose proof (prob_o _ O) as O'. destruct O as [Fp Rp]. destruct (bofZ_R 0 ltac:(sm)) as [A0 F0].
  unfold qbinom_run. rewrite (binom_ok n pr Hn A B), (pvc F p (o_in p O')). cbn [negb].
  change (eqb p (ofZ 0)) with (Beqb p (bofZ 0)). change (eqb p (ofZ 1)) with (Beqb p (bofZ 1)). rewrite (proj1 (neq01 p O')), (proj2 (neq01 p O')).
  replace (Z.to_nat k + 2)%nat with (S (S (Z.to_nat k))) by lia. replace (Z.to_nat k + 1)%nat with (S (Z.to_nat k)) by lia. pose proof H as [K0 _]. apply (recur_tests n pr p k H); try lia.
  change (ofZ 0) with (bofZ 0). apply bltb_R; auto. lra.
Qed.
(** a computed value of the distribution function larger than the ones before it comes back to its count *)
Lemma qbinom_attained n pr k : (0 <= n)%Z -> Bleb (bofZ 0) pr = true -> Bleb pr (bofZ 1) = true -> (0 <= k)%Z -> prob (P n pr k) -> (forall j, (0 <= j < k)%Z -> Bltb (P n pr j) (P n pr k) = true) ->
  qbinom (N:=NB) (P n pr k) n pr = bofZ k.
Proof.
  intros Hn A B Hk O M. destruct (qbinom_search n pr _ Hn A B O) as (i & L & -> & H). f_equal. apply (first_reach_unique _ _ i k H). split; auto. split; auto. intros C. apply bltb_R in C; try apply O. lra.
Qed.

Section Acc.
Variable e : R.
Hypothesis He : unit_ok e.
Variables (n : Z) (pr : b64).
Hypothesis LB : log_binom_acc F e.
Hypothesis LA : log_acc F e.
Hypothesis XA : exp_up_acc F e.
Hypothesis Hn : (2 <= n <= 2 ^ 53)%Z.
Hypothesis Fp : finite pr.
Hypothesis Hp : 0 < B2R pr < 1.
Notation W := (binom_size n (B2R pr)).
Hypothesis HW : 2000 * e * W <= 1.
Lemma pr_ok : Bleb (bofZ 0) pr = true /\ Bleb pr (bofZ 1) = true.
Proof. destruct (bofZ_R 0 ltac:(sm)) as [A0 F0], (bofZ_R 1 ltac:(sm)) as [A1 F1]. split; apply bleb_R; auto; lra. Qed.
Lemma qbinom_accurate p : prob p -> exists k, (0 <= k <= n)%Z /\ qbinom (N:=NB) p n pr = bofZ k /\ binom_quantile_upto (11 * e * W) n (B2R pr) (B2R p) k.
Proof.
  intros O. destruct pr_ok as [A B]. destruct (qbinom_search n pr p ltac:(lia) A B O) as (k & L & E & K0 & K1 & K2). exists k. split; auto. split; auto. destruct O as [Fq Rq]. split.
  - destruct (pbinom_acc F e He n pr LB LA XA Hn Fp Hp HW k K0) as [Fk Dk]. apply not_true_is_false, (bltb_R_f _ _ Fk Fq) in K1. apply Rabs_le_inv in Dk. unfold binom_cdfZ. change (bin_size n (B2R pr)) with W in Dk. lra.
  - intros K. destruct (pbinom_acc F e He n pr LB LA XA Hn Fp Hp HW (k - 1) ltac:(lia)) as [Fk Dk]. pose proof (K2 (k - 1)%Z ltac:(lia)) as C. apply (bltb_R _ _ Fk Fq) in C. apply Rabs_le_inv in Dk. unfold binom_cdfZ. change (bin_size n (B2R pr)) with W in Dk. lra.
Qed.
Lemma cdf_mono x y : (0 <= x <= y)%Z -> binom_cdfZ n (B2R pr) x <= binom_cdfZ n (B2R pr) y.
Proof.
  intros H. unfold binom_cdfZ. replace (Z.to_nat y) with (Z.to_nat x + Z.to_nat (y - x))%nat by lia. generalize (Z.to_nat (y - x)) as m. induction m as [|m IH]; [rewrite Nat.add_0_r; lra|].
  rewrite Nat.add_succ_r. cbn [sum_f_R0]. pose proof (binom_pmf_nonneg (Z.to_nat n) (B2R pr) (S (Z.to_nat x + m)) ltac:(lra)). lra.
Qed.
Lemma qbinom_exact p k : prob p -> (0 <= k)%Z -> B2R p + 11 * e * W <= binom_cdfZ n (B2R pr) k -> ((0 < k)%Z -> binom_cdfZ n (B2R pr) (k - 1) + 11 * e * W < B2R p) -> qbinom (N:=NB) p n pr = bofZ k.
Proof.
  intros O K0 U D. destruct pr_ok as [A B]. destruct (qbinom_search n pr p ltac:(lia) A B O) as (i & L & -> & H). f_equal. apply (first_reach_unique _ _ i k H). destruct O as [Fq Rq]. split; [auto|]. split.
  - destruct (pbinom_acc F e He n pr LB LA XA Hn Fp Hp HW k K0) as [Fk Dk]. intros C. apply (bltb_R _ _ Fk Fq) in C. apply Rabs_le_inv in Dk. unfold binom_cdfZ in U. change (bin_size n (B2R pr)) with W in Dk. lra.
  - intros j Hj. destruct (pbinom_acc F e He n pr LB LA XA Hn Fp Hp HW j ltac:(lia)) as [Fk Dk]. apply (bltb_R _ _ Fk Fq). apply Rabs_le_inv in Dk. change (bin_size n (B2R pr)) with W in Dk.
    specialize (D ltac:(lia)). pose proof (cdf_mono j (k - 1) ltac:(lia)) as M. unfold binom_cdfZ in M, D. lra.
Qed.
End Acc.
(** a success probability of 2^-60 is lost in 1 - p: the distribution function is 1 at 0, whose quantile is n *)
Lemma qbinom_tie : t_log F (bofZ 1) = bofZ 0 -> t_exp F (bofZ 0) = bofZ 1 ->
  exists (n : Z) (pr : b64), (0 <= n)%Z /\ Bltb (bofZ 0) pr = true /\ Bltb pr (bofZ 1) = true /\ qbinom (N:=NB) (pbinom (N:=NB) 0 n pr false) n pr <> bofZ 0.
Proof.
  intros HL HE. exists 2%Z, (blit (1 # 2 ^ 60)). split; [lia|]. split; [vm_compute; reflexivity|]. split; [vm_compute; reflexivity|].
  assert (S : binom_sanity (N:=NB) 2 (blit (1 # 2 ^ 60)) = true) by (apply binom_ok; [lia|vm_compute; reflexivity|vm_compute; reflexivity]).
  assert (E : pbinom (N:=NB) 0 2 (blit (1 # 2 ^ 60)) false = bofZ 1).
  { unfold pbinom. rewrite S. cbn [negb Z.ltb Z.leb Z.eqb Z.compare]. cbn [Z.to_nat Nat.add pbinom_recur Z.eqb]. cbn [log_if]. unfold dbinom. rewrite S. cbn [negb Z.ltb Z.compare orb Z.eqb exp_if]. unfold dbinom_log_compute. cbn [Z.eqb].
    change (t_exp F (bmul (bofZ 2) (t_log F (bsub (bofZ 1) (blit (1 # 2 ^ 60))))) = bofZ 1).
    replace (bsub (bofZ 1) (blit (1 # 2 ^ 60))) with (bofZ 1) by (apply b64_eq; vm_compute; reflexivity). rewrite HL. replace (bmul (bofZ 2) (bofZ 0)) with (bofZ 0) by (apply b64_eq; vm_compute; reflexivity). exact HE. }
  rewrite E. unfold qbinom, qbinom_run. rewrite S. replace (prob_val_check (N:=NB) (bofZ 1)) with true by (vm_compute; reflexivity). cbn [negb].
  replace (eqb (Num:=NB) (bofZ 1) (ofZ 0)) with false by (vm_compute; reflexivity). replace (eqb (Num:=NB) (bofZ 1) (ofZ 1)) with true by (vm_compute; reflexivity).
  intros C. apply (f_equal B2SF) in C. vm_compute in C. discriminate C.
Qed.
End Q.
