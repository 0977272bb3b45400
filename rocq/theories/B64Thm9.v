(** Generated by a script: the statements of Props_C69.v for binders in the order used there. *)
From Coq Require Import ZArith QArith Reals Lra Lia Bool.
From Verif Require Import Erf GammaFn NormR Spec SpecSF.
From Verif Require Import Num Prob Quant B64 SpecB64 SpecAcc SpecAccQ SpecPois B64R B64Ord B64Cdf B64Cdf2 B64Cdf3 B64CR B64CR2 B64Acc B64AccW B64AccQW B64AccCdf B64AccCdf3 B64AccQ4 B64Thm B64Thm3 B64Thm4 B64AccPois B64Pois B64CdfBad.
From Flocq Require Import Core IEEE754.BinarySingleNaN.
Local Open Scope Z_scope.

Lemma prob_open p : prob p -> open01 p.
Proof.
  intros [Fp P]. destruct (bofZ_R 0 ltac:(sm)) as [A0 F0], (bofZ_R 1 ltac:(sm)) as [A1 F1]. split; apply bltb_R; auto; lra.
Qed.
Lemma eps_fin c : big_eps c -> b64_fin c.
Proof. intros [A B]. split; [|exact B]. destruct c as [s|s| |s m ex H]; try reflexivity; try discriminate; destruct s; try reflexivity; discriminate. Qed.

(** ** cases *)
Definition tr0 (x : b64) : option Z := if is_finite x then Some (Ztrunc (B2R x)) else None.
Lemma tr0_ok : rounds_to_zero tr0.
Proof. intros x n. unfold tr0. destruct (is_finite x) eqn:E; [|discriminate]. intros [= <-]. now split. Qed.
Lemma ppois_0 : prob (ppois (N:=B64_Num TFR) 0 (bofZ 3) false).
Proof.
  destruct (bofZ_R 3 ltac:(sm)) as [A3 F3]. destruct (ppois_all_acc TFR e2 0 (bofZ 3) e2_ok TFR_powZ_acc TFR_fact_acc TFR_exp_acc TFR_incgamma_acc ltac:(lia)) as [Fv D]; [split; auto; lra|].
  split; auto. change (Z.to_nat 0) with 0%nat in D. cbn [sum_f_R0] in D. unfold pois_pmf in D. rewrite A3 in D. replace (3 ^ 0 * Rtrigo_def.exp (- (3)) / INR (fact 0))%R with (Rtrigo_def.exp (- (3))) in D by (cbn; field).
  assert (E : (/ 64 <= Rtrigo_def.exp (- (3)) <= / 8)%R).
  { rewrite exp_Ropp. pose proof (exp_4 3) as U. cbn [INR Rpow_def.pow] in U. replace (1 + 1 + 1)%R with 3%R in U by lra. pose proof (exp_2n 3) as V. cbn [INR Rpow_def.pow] in V. replace (1 + 1 + 1)%R with 3%R in V by lra. rewrite exp_Ropp in V. split; [|lra].
    apply Rinv_le_contravar; [apply exp_pos|lra]. }
  destruct e2_ok as [_ E2]. apply Rabs_le_inv in D. lra.
Qed.
Lemma start_ex : exists s, tr0 (qpois_normal_approx (N:=B64_Num TFR) (blit (1#2)) (bofZ 16)) = Some s /\ 0 <= s < 2 ^ 53.
Proof.
  destruct (bofZ_R 16 ltac:(sm)) as [A16 F16], (bofZ_R 4 ltac:(sm)) as [A4 F4], (bofZ_R 0 ltac:(sm)) as [A0 F0]. pose proof ulp1_val as U. pose proof tiny_small as T. pose proof tiny_pos as T0. pose proof huge_1 as H1. pose proof huge_2 as [H2 _]. pose proof huge_inv as HI.
  assert (SQ : Bsqrt mode_NE (bofZ 16) = bofZ 4) by (apply b64_eq; vm_compute; reflexivity).
  assert (W : within (/ 100) (qnorm (N:=B64_Num TFR) (blit (1#2)) (bofZ 16) (bofZ 4)) 16).
  { eapply within_le; [apply (aq_qnorm TFR e2 (blit (1#2)) (bofZ 16) (bofZ 4) 16 e2_ok TFR_SQRT_2_acc TFR_erf_inv_acc half_prob)|].
    - rewrite half_V. lra.
    - auto.
    - split; auto. lra.
    - lra.
    - rewrite A16, A4, half_V. unfold norm_cdf. replace ((16 - 16) / (4 * R_sqrt.sqrt 2))%R with 0%R by (unfold Rdiv; ring). rewrite ?Rminus_diag_eq by reflexivity. unfold Rdiv. rewrite ?Rmult_0_l, erfR_0. lra.
    - rewrite A16, A4. rewrite Rminus_diag_eq, Rabs_R0, Rabs_pos_eq by lra. lra.
    - rewrite A16, A4. rewrite Rminus_diag_eq, Rabs_R0, Rabs_pos_eq by lra. unfold e2. lra. }
  assert (W3 : within (/ 10) (bsub (qnorm (N:=B64_Num TFR) (blit (1#2)) (bofZ 16) (bofZ 4)) (bofZ 3)) (16 - 3)).
  { eapply within_le; [apply (within_sub _ _ _ _ 16 3 20 W (within_Z 3 ltac:(sm))); try lra; rewrite Rabs_pos_eq; lra|]. lra. }
  destruct W3 as [Fy D]. apply Rabs_le_inv in D. unfold qpois_normal_approx, tmax. change (Num.sqrt (bofZ 16)) with (Bsqrt mode_NE (bofZ 16)). rewrite SQ. change (sub ?a (ofZ 3)) with (bsub a (bofZ 3)). set (y := bsub _ _) in *.
  change (ltb (ofZ 0) y) with (Bltb (bofZ 0) y). replace (Bltb (bofZ 0) y) with true by (symmetry; apply bltb_R; auto; lra). exists (Ztrunc (B2R y)). unfold tr0, finite in *. rewrite Fy. split; auto. split.
  - rewrite <- (Ztrunc_IZR 0). apply Ztrunc_le. lra.
  - apply Z.le_lt_trans with 100; [|reflexivity]. rewrite <- (Ztrunc_IZR 100). apply Ztrunc_le. lra.
Qed.
Lemma sqrt16 : b64_pos (Bsqrt mode_NE (bofZ 16)). Proof. split; vm_compute; reflexivity. Qed.
Lemma sqrt16m : b64_pos (bmul (t_SQRT_2 TFR) (Bsqrt mode_NE (bofZ 16))).
Proof.
  assert (SQ : Bsqrt mode_NE (bofZ 16) = bofZ 4) by (apply b64_eq; vm_compute; reflexivity). rewrite SQ. destruct (bofZ_R 4 ltac:(sm)) as [A4 F4]. pose proof huge_1 as H1. pose proof ulp1_val. pose proof tiny_small. pose proof tiny_pos.
  destruct TFR_SQRT_2_acc as (Fc & t & s & T & S & E). apply abs_le0 in S. subst s. pose proof (exp_2 t e2 T ltac:(unfold e2; lra)) as X.
  assert (S2 : (1 <= R_sqrt.sqrt 2 <= 2)%R). { pose proof (sqrt_sqrt 2 ltac:(lra)). pose proof (sqrt_pos 2). split; nra. }
  assert (C : (/ 2 <= B2R (t_SQRT_2 TFR) <= 4)%R) by (rewrite E; split; nra).
  destruct (near_mul0 (t_SQRT_2 TFR) (bofZ 4) Fc F4) as (Fm & t' & s' & T' & S' & E'); [rewrite A4, Rabs_pos_eq; lra|]. pose proof (exp_2 t' ulp1 T' ltac:(lra)) as X'. apply Rabs_le_inv in S'. rewrite A4 in E'.
  assert (P : (0 < B2R (bmul (t_SQRT_2 TFR) (bofZ 4)))%R) by (rewrite E'; nra). apply bpos_b64. split; auto.
Qed.
Ltac ex69 := first [assumption | exact e2_ok | exact TFR_powZ_acc | exact TFR_fact_acc | exact TFR_exp_acc | exact TFR_incgamma_acc | exact half_prob | exact q34_prob | exact tr0_ok | exact TFR_erf_inv | exact sqrt16 | exact sqrt16m | exact ppois_0
  | match goal with |- big_eps _ => split; vm_compute; reflexivity | |- Bltb (bofZ _) (bofZ _) = _ => vm_compute; reflexivity | |- Bleb (blit _) (blit _) = _ => vm_compute; reflexivity end | (rewrite (proj1 (bofZ_R 16 ltac:(sm))); apply IZR_le; discriminate)].

Lemma po_small : forall (F : TF) (trunc : b64 -> option Z) (fuel : nat) (p rate w : b64), prob p -> big_eps rate -> (rate ≺ bofZ 11)%b64 -> qpois_run (N:=B64_Num F) trunc fuel p rate = Some w -> 
  exists n, w = bofZ n /\ first_above (fun k => ppois (N:=B64_Num F) k rate false) p 0 n.
Proof.
  intros. eapply small_spec; eauto. now apply prob_open.
Qed.

Lemma po_small_ends : forall (F : TF) (e : R) (trunc : b64 -> option Z) (p rate : b64), unit_ok e -> incgamma_acc F e -> prob p -> big_eps rate -> (rate ≺ bofZ 11)%b64 -> 
  exists fuel n, qpois_run (N:=B64_Num F) trunc fuel p rate = Some (bofZ n) /\ first_above (fun k => ppois (N:=B64_Num F) k rate false) p 0 n /\ n <= 176.
Proof.
  intros. apply (small_ends F e); auto. now apply prob_open.
Qed.

Lemma po_small_accurate : forall (F : TF) (e : R) (trunc : b64 -> option Z) (fuel : nat) (p rate w : b64), unit_ok e -> powZ_acc F e -> fact_acc F e -> exp_acc F e -> incgamma_acc F e -> prob p -> big_eps rate -> (rate ≺ bofZ 11)%b64 -> qpois_run (N:=B64_Num F) trunc fuel p rate = Some w -> 
  exists n, w = bofZ n /\ 0 <= n <= 176 /\ quantile_upto (24 * e) (B2R rate) (B2R p) n.
Proof.
  intros. eapply small_accurate; eauto. now apply prob_open.
Qed.

Lemma po_small_monotone : forall (F : TF) (trunc : b64 -> option Z) (fuel fuel2 : nat) (p q rate v w : b64), prob p -> prob q -> (p ≤ q)%b64 -> big_eps rate -> (rate ≺ bofZ 11)%b64 -> qpois_run (N:=B64_Num F) trunc fuel p rate = Some v -> qpois_run (N:=B64_Num F) trunc fuel2 q rate = Some w -> 
  exists n m, v = bofZ n /\ w = bofZ m /\ 0 <= n <= m.
Proof.
  intros. eapply small_mono; try eassumption; now apply prob_open.
Qed.

Lemma po_attained : forall (F : TF) (trunc : b64 -> option Z) (fuel : nat) (rate w : b64) (k : Z), 0 <= k -> prob (ppois (N:=B64_Num F) k rate false) -> (forall j, 0 <= j < k -> (ppois (N:=B64_Num F) j rate false ≤ ppois (N:=B64_Num F) k rate false)%b64) -> big_eps rate -> (rate ≺ bofZ 11)%b64 -> qpois_run (N:=B64_Num F) trunc fuel (ppois (N:=B64_Num F) k rate false) rate = Some w -> 
  exists n, w = bofZ n /\ k < n.
Proof.
  intros. eapply small_tie; try eassumption. now apply prob_open.
Qed.

Lemma po_large : forall (F : TF) (trunc : b64 -> option Z) (fuel : nat) (p rate w : b64) (s : Z), prob p -> big_eps rate -> Bltb rate (bofZ 11) = false -> trunc (qpois_normal_approx (N:=B64_Num F) p rate) = Some s -> 0 <= s -> qpois_run (N:=B64_Num F) trunc fuel p rate = Some w -> 
  (~ (ppois (N:=B64_Num F) s rate false ≤ p)%b64 /\ w = bofZ (Z.max 0 (s - 1))) \/ ((ppois (N:=B64_Num F) s rate false ≤ p)%b64 /\ exists n, w = bofZ n /\ first_above (fun k => ppois (N:=B64_Num F) k rate false) p s n).
Proof.
  intros. eapply large_spec; try eassumption. now apply prob_open.
Qed.

Lemma po_large_ends : forall (F : TF) (e : R) (trunc : b64 -> option Z) (p rate : b64) (s : Z), unit_ok e -> incgamma_acc F e -> prob p -> big_eps rate -> Bltb rate (bofZ 11) = false -> (B2R rate <= IZR (2 ^ 48))%R -> trunc (qpois_normal_approx (N:=B64_Num F) p rate) = Some s -> 0 <= s < 2 ^ 53 -> 
  exists fuel n, qpois_run (N:=B64_Num F) trunc fuel p rate = Some (bofZ n) /\ 0 <= n < 2 ^ 53.
Proof.
  intros. eapply (large_ends F e); try eassumption. now apply prob_open.
Qed.

Lemma po_large_accurate : forall (F : TF) (e : R) (trunc : b64 -> option Z) (fuel : nat) (p rate w : b64) (s : Z), unit_ok e -> powZ_acc F e -> fact_acc F e -> exp_acc F e -> incgamma_acc F e -> prob p -> big_eps rate -> Bltb rate (bofZ 11) = false -> (B2R rate <= IZR (2 ^ 48))%R -> trunc (qpois_normal_approx (N:=B64_Num F) p rate) = Some s -> 0 <= s < 2 ^ 53 -> qpois_run (N:=B64_Num F) trunc fuel p rate = Some w -> 
  (w = bofZ (Z.max 0 (s - 1)) /\ (B2R p - 24 * e <= pois_cdfZ (B2R rate) s)%R) \/ exists n, w = bofZ n /\ s < n < 2 ^ 53 /\ quantile_upto (24 * e) (B2R rate) (B2R p) n.
Proof.
  intros. eapply large_accurate; try eassumption. now apply prob_open.
Qed.

Lemma po_large_monotone : forall (F : TF) (trunc : b64 -> option Z) (fuel fuel2 : nat) (p q rate v w : b64) (s t : Z), rounds_to_zero trunc -> erf_inv_ok F -> prob p -> prob q -> (p ≤ q)%b64 -> big_eps rate -> Bltb rate (bofZ 11) = false -> b64_pos (Bsqrt mode_NE rate) -> b64_pos (bmul (t_SQRT_2 F) (Bsqrt mode_NE rate)) -> trunc (qpois_normal_approx (N:=B64_Num F) p rate) = Some s -> trunc (qpois_normal_approx (N:=B64_Num F) q rate) = Some t -> qpois_run (N:=B64_Num F) trunc fuel p rate = Some v -> qpois_run (N:=B64_Num F) trunc fuel2 q rate = Some w -> 
  0 <= s <= t /\ exists n m, v = bofZ n /\ w = bofZ m /\ 0 <= n /\ 0 <= m /\ n <= m + 1 /\ ((ppois (N:=B64_Num F) t rate false ≤ q)%b64 -> n <= m).
Proof.
  intros F trunc fuel fuel2 p q rate v w s t HT HE P Q L B R S1 S2 T1 T2 E1 E2. apply prob_open in P, Q. assert (ST : 0 <= s <= t) by exact (start_mono F trunc p q rate s t HT HE (eps_fin _ B) S1 S2 P Q L T1 T2). split; auto. exact (large_mono F trunc fuel fuel2 p q rate s t v w P Q L B R T1 T2 ST E1 E2).
Qed.

Lemma a_ppois_all : forall (F : TF) (e : R) (x : Z) (rate : b64), unit_ok e -> powZ_acc F e -> fact_acc F e -> exp_acc F e -> incgamma_acc F e -> (0 <= x < 2 ^ 53)%Z -> positive rate ->
  within (24 * e) (ppois (N:=B64_Num F) x rate false) (sum_f_R0 (pois_pmf (B2R rate)) (Z.to_nat x)).
Proof.
  intros. now apply ppois_all_acc.
Qed.
