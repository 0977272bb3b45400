(** Rounding error of the Poisson distribution function where it is summed term by term (rates up to 10, integers up to 15). *)
From Coq Require Import ZArith QArith Reals Lra Lia Bool.
From Verif Require Import Erf GammaFn Spec SpecSF.
From Verif Require Import Num Sanity Prob B64 SpecB64 SpecPois SpecAcc B64R B64Ord B64CR B64Cdf B64Acc B64AccW B64AccCdf B64AccCdf3 B64AccQ3.
From Flocq Require Import Core IEEE754.BinarySingleNaN.
Local Open Scope R_scope.

(** the sum of two approximations of nonnegative numbers *)
Lemma near_plus k h k' h' x y a b : near k h x a -> near k' h' y b -> 0 <= a -> 0 <= b -> k <= k' -> k' <= / 200 -> h + h' <= 1 -> a + b <= huge -> near (k' + ulp1) (2 * (h + h')) (badd x y) (a + b).
Proof.
  intros (Fx & t1 & s1 & T1 & S1 & E1) (Fy & t2 & s2 & T2 & S2 & E2) A B K K' H G. pose proof huge_1. pose proof ulp1_val.
  assert (C : exists t, Rabs t <= k' /\ a * exp t1 + b * exp t2 = (a + b) * exp t).
  { destruct (Rle_lt_dec (a + b) 0) as [Z|P].
    - exists 0. replace a with 0 by lra. replace b with 0 by lra. rewrite Rabs_R0. pose proof (Rabs_pos t2). split; [lra|ring].
    - assert (L1 : exp (- k') <= exp t1 <= exp k') by (apply Rabs_le_inv in T1; split; apply exp_le; lra). assert (L2 : exp (- k') <= exp t2 <= exp k') by (apply Rabs_le_inv in T2; split; apply exp_le; lra).
      assert (M1 : (a + b) * exp (- k') <= a * exp t1 + b * exp t2). { rewrite Rmult_plus_distr_r. apply Rplus_le_compat; apply Rmult_le_compat_l; lra. }
      assert (M2 : a * exp t1 + b * exp t2 <= (a + b) * exp k'). { rewrite Rmult_plus_distr_r. apply Rplus_le_compat; apply Rmult_le_compat_l; lra. }
      set (v := a * exp t1 + b * exp t2) in *. pose proof (exp_pos (- k')) as P1. assert (V : 0 < v) by (eapply Rlt_le_trans; [|exact M1]; now apply Rmult_lt_0_compat).
      exists (ln (v / (a + b))). assert (Q : 0 < v / (a + b)) by now apply Rdiv_lt_0_compat. split.
      + apply Rabs_le. split.
        * rewrite <- (ln_exp (- k')). apply ln_mono'; auto. apply (Rmult_le_reg_l (a + b)); auto. replace ((a + b) * (v / (a + b))) with v by (field; lra). exact M1.
        * rewrite <- (ln_exp k'). apply ln_mono'; auto. apply (Rmult_le_reg_l (a + b)); auto. replace ((a + b) * (v / (a + b))) with v by (field; lra). exact M2.
      + rewrite exp_ln by auto. field. lra. }
  destruct C as (t & T & C). pose proof (exp_2 t k' T ltac:(lra)) as X.
  assert (EV : B2R x + B2R y = (a + b) * exp t + (s1 + s2)) by (rewrite E1, E2, <- C; ring).
  pose proof (abs_sum _ _ _ _ S1 S2) as S12.
  assert (Q : Rabs (B2R x + B2R y) <= 4 * huge).
  { rewrite EV. eapply Rle_trans; [apply Rabs_triang|]. rewrite Rabs_mult, (Rabs_pos_eq (exp t)), (Rabs_pos_eq (a + b)) by lra. assert ((a + b) * exp t <= huge * 2) by (apply Rmult_le_compat; lra). lra. }
  destruct (near_add x y Fx Fy Q) as (Ff & t3 & s3 & T3 & S3 & E3). split; auto. apply abs_le0 in S3. subst s3. rewrite Rplus_0_r in E3.
  pose proof (exp_2 t3 ulp1 T3 ltac:(lra)) as X3. exists (t + t3), ((s1 + s2) * exp t3). split; [now apply abs_sum|]. split.
  - rewrite Rabs_mult, (Rabs_pos_eq (exp t3)) by lra. rewrite Rmult_comm. apply Rmult_le_compat; try lra; apply Rabs_pos.
  - rewrite E3, EV, (exp_plus t t3). ring.
Qed.
Lemma huge_18 : 10 ^ 18 <= huge.
Proof.
  apply Rle_trans with (bpow radix2 100); [|apply bpow_le; lia]. change (bpow radix2 100) with 1267650600228229401496703205376. cbn [Rpow_def.pow]. lra.
Qed.
Definition term (r : R) (k : nat) : R := r ^ k / INR (fact k).
Lemma fact_1 k : 1 <= INR (fact k). Proof. apply (le_INR 1). apply lt_O_fact. Qed.
Lemma term_0 r k : 0 <= r -> 0 <= term r k.
Proof. intros. unfold term. pose proof (fact_1 k). apply Rmult_le_pos; [now apply pow_le|left; apply Rinv_0_lt_compat; lra]. Qed.
Lemma term_up r k : 0 <= r <= 10 -> (k <= 15)%nat -> term r k <= 10 ^ 15.
Proof.
  intros H K. unfold term. pose proof (fact_1 k). pose proof (pow_le r k ltac:(lra)). apply Rle_trans with (r ^ k).
  - apply (Rmult_le_reg_r (INR (fact k))); [lra|]. replace (r ^ k / INR (fact k) * INR (fact k)) with (r ^ k * 1) by (field; lra). apply Rmult_le_compat_l; lra.
  - apply Rle_trans with (10 ^ k); [now apply pow_incr|]. apply Rle_pow; [lra|auto].
Qed.
Definition from (r : R) (k j : nat) : R := sum_f_R0 (fun i => term r (k + i)) j.
Lemma from_S r k j : from r k (S j) = term r k + from r (S k) j.
Proof.
  unfold from. rewrite decomp_sum by lia. cbn [Nat.pred]. f_equal; [f_equal; lia|]. apply sum_eq. intros i _. f_equal. lia.
Qed.
Lemma from_0 r k j : 0 <= r -> 0 <= from r k j.
Proof. intros. apply cond_pos_sum. intros. now apply term_0. Qed.
Lemma from_up r k j : 0 <= r <= 10 -> (k + j <= 15)%nat -> from r k j <= INR (S j) * 10 ^ 15.
Proof.
  intros H. induction j as [|j IH]; intros K.
  - unfold from. cbn [sum_f_R0]. pose proof (term_up r (k + 0) H ltac:(lia)). cbn [INR]. lra.
  - unfold from in *. cbn [sum_f_R0]. specialize (IH ltac:(lia)). pose proof (term_up r (k + S j) H ltac:(lia)). rewrite S_INR. set (a := sum_f_R0 _ _) in *. set (b := term _ _) in *. set (c := 10 ^ 15) in *. lra.
Qed.

Lemma exp_4 n : exp (INR n) <= 4 ^ n.
Proof. induction n as [|n IH]; [cbn; rewrite exp_0; lra|]. rewrite S_INR, exp_plus. cbn [Rpow_def.pow]. pose proof exp_le_3. pose proof (exp_pos 1). pose proof (exp_pos (INR n)). rewrite Rmult_comm. apply Rmult_le_compat; lra. Qed.
Section P.
Context (F : TF) (e : R).
Hypothesis He : unit_ok e.
Hypothesis HP : powZ_acc F e.
Hypothesis HF : fact_acc F e.
Local Notation NB := (B64_Num F).
Lemma term_near rate k : bpos rate -> B2R rate <= 10 -> (1 <= k <= 15)%nat -> near (3 * e) (5 * tiny) (bdiv (t_powZ F rate (Z.of_nat k)) (t_factorial F (Z.of_nat k))) (term (B2R rate) k).
Proof.
  intros [Fr Pr] L K. pose proof (HP k K rate Fr ltac:(lra)) as N1. pose proof (HF k K) as N2. destruct (e_pos e He) as (E1 & E2 & E3). destruct He as [_ He2]. pose proof (fact_1 k) as F1. pose proof tiny_pos as T0. pose proof tiny_small as T1. pose proof ulp1_val as U.
  pose proof (term_up (B2R rate) k ltac:(lra) ltac:(lia)) as TU. pose proof (term_0 (B2R rate) k ltac:(lra)) as T00. pose proof huge_18 as H18. assert (P15 : 10 ^ 15 <= 10 ^ 18) by (apply Rle_pow; [lra|lia]).
  eapply near_le; [apply (near_div e tiny e (2 * tiny) _ _ _ _ N1 N2)| |].
  - lra.
  - lra.
  - fold (term (B2R rate) k). rewrite Rabs_pos_eq by auto. lra.
  - rewrite Rabs_pos_eq by lra. apply (Rmult_le_reg_r (INR (fact k))); [lra|]. replace (2 * tiny / INR (fact k) * INR (fact k)) with (2 * tiny * 1) by (field; lra). apply Rmult_le_compat_l; lra.
  - lra.
  - lra.
  - lra.
Qed.
Fixpoint T4 (j : nat) : R := match j with O => 5 * tiny | S j => 4 * T4 j end.
Lemma T4_ge j : 5 * tiny <= T4 j. Proof. pose proof tiny_pos. induction j; cbn [T4]; lra. Qed.
Lemma T4_up j : (j <= 20)%nat -> T4 j <= bpow radix2 (-1000).
Proof.
  intros J. apply Rle_trans with (T4 20).
  - replace 20%nat with (j + (20 - j))%nat by lia. generalize (20 - j)%nat as m. induction m; [rewrite Nat.add_0_r; lra|]. rewrite Nat.add_succ_r. cbn [T4]. pose proof (T4_ge (j + m)). pose proof tiny_pos. lra.
  - cbn [T4]. replace (bpow radix2 (-1000)) with (bpow radix2 74 * tiny) by (unfold tiny; rewrite <- bpow_plus; reflexivity). change (bpow radix2 74) with (IZR (2 ^ 74)). pose proof tiny_pos.
    replace (4 * (4 * (4 * (4 * (4 * (4 * (4 * (4 * (4 * (4 * (4 * (4 * (4 * (4 * (4 * (4 * (4 * (4 * (4 * (4 * (5 * tiny))))))))))))))))))))) with (5497558138880 * tiny) by ring. apply Rmult_le_compat_r; [lra|]. apply IZR_le. discriminate.
Qed.
Lemma recur_near rate x : bpos rate -> B2R rate <= 10 -> (2 <= x <= 15)%nat -> forall j k fuel, (1 <= k)%nat -> (k + j = x)%nat -> (j < fuel)%nat ->
  exists v, ppois_recur (N:=NB) fuel (Z.of_nat x) rate (Z.of_nat k) = Some v /\ near (3 * e + INR j * ulp1) (T4 j) v (from (B2R rate) k j).
Proof.
  intros Pr L X. pose proof Pr as [Fr Pr']. pose proof (e_pos e He) as (E1 & E2 & E3). pose proof He as [_ He2]. pose proof tiny_pos as T0. pose proof ulp1_val as U. pose proof huge_18 as H18.
  induction j as [|j IH]; intros k fuel K E Hf; destruct fuel as [|fuel]; try lia; cbn [ppois_recur].
  - rewrite (proj2 (Z.eqb_neq (Z.of_nat x) 0)), (proj2 (Z.eqb_neq (Z.of_nat x) 1)), (proj2 (Z.eqb_neq (Z.of_nat k) 0)), (proj2 (Z.ltb_ge (Z.of_nat k) (Z.of_nat x))) by lia.
    eexists. split; [reflexivity|]. unfold from. cbn [sum_f_R0 INR T4]. rewrite Nat.add_0_r. eapply near_le; [apply (term_near rate k Pr L ltac:(lia))|lra|lra].
  - rewrite (proj2 (Z.eqb_neq (Z.of_nat x) 0)), (proj2 (Z.eqb_neq (Z.of_nat x) 1)), (proj2 (Z.eqb_neq (Z.of_nat k) 0)), (proj2 (Z.ltb_lt (Z.of_nat k) (Z.of_nat x))) by lia.
    replace (Z.of_nat k + 1)%Z with (Z.of_nat (S k)) by lia. destruct (IH (S k) fuel ltac:(lia) ltac:(lia) ltac:(lia)) as (v & -> & N). cbn [option_map]. eexists. split; [reflexivity|].
    rewrite from_S. pose proof (term_near rate k Pr L ltac:(lia)) as N1. pose proof (T4_ge j) as G. assert (J14 : INR j <= 14) by (rewrite INR_IZR_INZ; apply IZR_le; lia). pose proof (pos_INR j) as J0.
    assert (JU : INR j * ulp1 <= 14 * ulp1) by (apply Rmult_le_compat_r; lra). assert (JU0 : 0 <= INR j * ulp1) by (apply Rmult_le_pos; lra).
    assert (T1000 : T4 j <= / 100). { eapply Rle_trans; [apply T4_up; lia|]. apply Rle_trans with (bpow radix2 (-10)); [apply bpow_le; lia|cbn; lra]. }
    pose proof (from_up (B2R rate) (S k) j ltac:(lra) ltac:(lia)) as FU. pose proof (term_up (B2R rate) k ltac:(lra) ltac:(lia)) as TU.
    assert (FU' : INR (S j) * 10 ^ 15 <= 16 * 10 ^ 15) by (apply Rmult_le_compat_r; [lra|]; rewrite INR_IZR_INZ; apply IZR_le; lia).
    eapply near_le; [apply (near_plus _ _ _ _ _ _ _ _ N1 N)| |].
    + apply term_0; lra.
    + apply from_0; lra.
    + lra.
    + lra.
    + lra.
    + eapply Rle_trans; [|exact H18]. change (10 ^ 18) with (10 * (10 * (10 * 10 ^ 15))). set (c := 10 ^ 15) in *. assert (0 < c) by (apply pow_lt; lra). lra.
    + rewrite S_INR. lra.
    + cbn [T4]. lra.
Qed.
Lemma ppois_sum_acc x rate : exp_acc F e -> (0 <= x <= 15)%Z -> bpos rate -> B2R rate <= 10 -> within (24 * e) (ppois (N:=NB) x rate false) (sum_f_R0 (pois_pmf (B2R rate)) (Z.to_nat x)).
Proof.
  intros HE Hx Pr L. pose proof Pr as [Fr Pr']. pose proof (e_pos e He) as (E1 & E2 & E3). pose proof He as [_ He2]. pose proof tiny_pos as T0. pose proof ulp1_val as U. pose proof huge_18 as H18.
  destruct (bofZ_R 10 ltac:(sm)) as [A10 F10], (bofZ_R 1 ltac:(sm)) as [A1 F1]. rewrite Discrete.pois_sum_scal.
  assert (V : exists v, ppois (N:=NB) x rate false = bmul (t_exp F (Bopp rate)) v /\ near (3 * e + 15 * ulp1) (4 * T4 14) v (sum_f_R0 (fun k => B2R rate ^ k / INR (fact k)) (Z.to_nat x))).
  { assert (S : ppois (N:=NB) x rate false = match ppois_recur (N:=NB) (Z.to_nat x + 2) x rate 0 with Some v => bmul (t_exp F (Bopp rate)) v | None => Num.nan (Num:=NB) end).
    { unfold ppois, pois_sanity. rewrite (nan_nn F rate) by now apply nn_fin. change (ltb rate (ofZ 0)) with (Bltb rate (bofZ 0)). rewrite lt0_f by (auto; lra). cbn [negb andb].
      rewrite (proj2 (Z.ltb_ge x 0)) by lia. rewrite posinf_fin by auto. cbn [log_if]. unfold ppois_compute. change (ltb (ofZ 10) rate) with (Bltb (bofZ 10) rate).
      replace (Bltb (bofZ 10) rate || (15 <? x)%Z) with false; [reflexivity|]. symmetry. apply orb_false_iff. split; [apply bltb_R_f; auto; lra|apply Z.ltb_ge; lia]. }
    rewrite S. clear S. assert (T14 : 5 * tiny <= T4 14) by apply T4_ge. rewrite Nat.add_succ_r. cbn [ppois_recur].
    destruct (Z.eqb_spec x 0) as [->|N0]; [|destruct (Z.eqb_spec x 1) as [->|N1]].
    - eexists. split; [reflexivity|]. change (Z.to_nat 0) with 0%nat. cbn [sum_f_R0]. replace (B2R rate ^ 0 / INR (fact 0)) with (IZR 1) by (cbn; field). eapply near_le; [apply near_Z; sm|lra|lra].
    - eexists. split; [reflexivity|]. change (Z.to_nat 1) with 1%nat. cbn [sum_f_R0]. replace (B2R rate ^ 0 / INR (fact 0) + B2R rate ^ 1 / INR (fact 1)) with (IZR 1 + B2R rate) by (cbn; field).
      eapply near_le; [apply (near_plus _ _ _ _ _ _ _ _ (near_Z 1 ltac:(sm)) (near_exact rate Fr)); try lra; pose proof huge_1; lra|lra|lra].
    - cbn [Z.eqb]. change (0 + 1)%Z with (Z.of_nat 1). destruct (recur_near rate (Z.to_nat x) Pr L ltac:(lia) (Z.to_nat x - 1) 1 (Z.to_nat x + 1) ltac:(lia) ltac:(lia) ltac:(lia)) as (v & E & N).
      rewrite Z2Nat.id in E by lia. rewrite E. cbn [option_map]. eexists. split; [reflexivity|]. set (j := (Z.to_nat x - 1)%nat) in *. assert (J : (j <= 14)%nat) by (unfold j; lia).
      replace (sum_f_R0 (fun k => B2R rate ^ k / INR (fact k)) (Z.to_nat x)) with (IZR 1 + from (B2R rate) 1 j).
      2:{ replace (IZR 1) with (term (B2R rate) 0) by (unfold term; cbn; field). rewrite <- from_S. unfold from, j, term. replace (Datatypes.S (Z.to_nat x - 1)) with (Z.to_nat x) by lia. apply sum_eq. intros. reflexivity. }
      assert (J14 : INR j <= 14) by (rewrite INR_IZR_INZ; apply IZR_le; lia). pose proof (pos_INR j) as J0. assert (JU : INR j * ulp1 <= 14 * ulp1) by (apply Rmult_le_compat_r; lra). assert (JU0 : 0 <= INR j * ulp1) by (apply Rmult_le_pos; lra).
      assert (TJ : T4 j <= T4 14). { replace 14%nat with (j + (14 - j))%nat by lia. generalize (14 - j)%nat as m. induction m; [rewrite Nat.add_0_r; lra|]. rewrite Nat.add_succ_r. cbn [T4]. pose proof (T4_ge (j + m)). lra. }
      assert (T1000 : T4 14 <= / 100). { eapply Rle_trans; [apply T4_up; lia|]. apply Rle_trans with (bpow radix2 (-10)); [apply bpow_le; lia|cbn; lra]. }
      pose proof (from_up (B2R rate) 1 j ltac:(lra) ltac:(lia)) as FU. assert (FU' : INR (Datatypes.S j) * 10 ^ 15 <= 16 * 10 ^ 15) by (apply Rmult_le_compat_r; [lra|]; rewrite INR_IZR_INZ; apply IZR_le; lia). pose proof (T4_ge j) as G.
      eapply near_le; [apply (near_plus _ _ _ _ _ _ _ _ (near_Z 1 ltac:(sm)) N); try lra| |].
      + apply from_0; lra.
      + lra.
      + lra. }
  destruct V as (v & -> & N). set (A := sum_f_R0 (fun k => B2R rate ^ k / INR (fact k)) (Z.to_nat x)) in *.
  assert (A0 : 0 <= A) by (apply cond_pos_sum; intros; apply term_0; lra).
  assert (PA : exp (- B2R rate) * A <= 1).
  { pose proof (PG_int (Z.to_nat x) (B2R rate) ltac:(lra)) as PI. fold A in PI. pose proof (PG_range (INR (Z.to_nat x) + 1) (B2R rate) ltac:(pose proof (pos_INR (Z.to_nat x)); lra) ltac:(lra)). lra. }
  assert (EX : / 2 ^ 20 <= exp (- B2R rate)).
  { apply Rle_trans with (exp (-10)); [|apply exp_le; lra]. replace (-10) with (- (10)) by lra. rewrite exp_Ropp. apply Rinv_le_contravar; [apply exp_pos|]. replace 10 with (INR 10) by (cbn; lra). replace (2 ^ 20) with (4 ^ 10) by (cbn; lra). apply exp_4. }
  assert (FN : finite (Bopp rate)) by (unfold finite; rewrite is_finite_Bopp; exact Fr).
  pose proof (HE (Bopp rate) FN ltac:(unfold nonpos; rewrite B2R_Bopp; lra)) as NE. rewrite B2R_Bopp in NE.
  assert (X1 : exp (- B2R rate) <= 1) by (rewrite <- exp_0; apply exp_le; lra).
  apply near_rel in NE; [|lra|].
  2:{ rewrite Rabs_pos_eq by lra. apply Rle_trans with (ulp1 * / 2 ^ 20); [|apply Rmult_le_compat_l; lra]. unfold tiny, ulp1. replace (/ 2 ^ 20) with (bpow radix2 (-20)) by (cbn; lra). change 8 with (bpow radix2 3). rewrite <- !bpow_plus. apply bpow_le. lia. }
  rewrite (Rmult_comm (exp _) A). assert (CM : bmul (t_exp F (Bopp rate)) v = bmul v (t_exp F (Bopp rate))) by apply bmul_comm. rewrite CM.
  assert (T1000 : 4 * T4 14 <= bpow radix2 (-990)). { eapply Rle_trans; [apply Rmult_le_compat_l; [lra|apply (T4_up 14); lia]|]. change 4 with (bpow radix2 2). rewrite <- bpow_plus. apply bpow_le. lia. }
  assert (T990 : bpow radix2 (-990) <= ulp1 / 1000). { apply Rle_trans with (bpow radix2 (-70)); [apply bpow_le; lia|]. unfold ulp1. cbn. lra. }
  pose proof (T4_ge 14) as G. pose proof huge_1.
  assert (NM : near (3 * e + 15 * ulp1 + (e + ulp1) + ulp1) (2 * (2 * (4 * T4 14)) + tiny) (bmul v (t_exp F (Bopp rate))) (A * exp (- B2R rate))).
  { apply (near_mul _ _ _ _ _ _ _ _ N NE); try lra.
    - rewrite Rabs_pos_eq by (apply Rmult_le_pos; lra). lra.
    - rewrite Rabs_pos_eq by lra. rewrite <- (Rmult_1_r (2 * (4 * T4 14))) at 2. apply Rmult_le_compat_l; lra. }
  eapply within_le; [apply (near_within _ _ _ _ NM); lra|]. rewrite Rabs_pos_eq by (apply Rmult_le_pos; lra).
  assert (M : 101 / 100 * (3 * e + 15 * ulp1 + (e + ulp1) + ulp1) * (A * exp (- B2R rate)) <= 101 / 100 * (3 * e + 15 * ulp1 + (e + ulp1) + ulp1) * 1) by (apply Rmult_le_compat_l; lra).
  lra.
Qed.
End P.

(** ** every integer and every rate *)
Lemma ppois_all_acc F e x rate : unit_ok e -> powZ_acc F e -> fact_acc F e -> exp_acc F e -> incgamma_acc F e -> (0 <= x < 2 ^ 53)%Z -> bpos rate ->
  within (24 * e) (ppois (N:=B64_Num F) x rate false) (sum_f_R0 (pois_pmf (B2R rate)) (Z.to_nat x)).
Proof.
  intros He HP HF HE HI Hx Pr. destruct (e_pos e He) as (E1 & _). destruct (Rle_lt_dec (B2R rate) 10) as [L|L]; [destruct (Z_le_gt_dec x 15) as [K|K]|].
  - apply ppois_sum_acc; auto. lia.
  - eapply within_le; [apply (ppois_acc F e He x rate HI Hx Pr); right; lia|lra].
  - eapply within_le; [apply (ppois_acc F e He x rate HI Hx Pr); left; lra|lra].
Qed.

(** ** correctly rounded functions *)
Lemma TFR_powZ_acc : powZ_acc TFR e2.
Proof.
  intros k K. apply CR_computes. intros x Fx D. split; [symmetry; apply pow_powerRZ|]. rewrite Rabs_pos_eq by (apply pow_le; lra). pose proof huge_18.
  apply Rle_trans with (10 ^ k); [apply pow_incr; lra|]. eapply Rle_trans; [apply (Rle_pow 10 k 18); [lra|lia]|auto].
Qed.
Lemma TFR_fact_acc : fact_acc TFR e2.
Proof.
  intros k K. cbn [t_factorial TFR]. rewrite Nat2Z.id. pose proof (fact_1 k) as F1. pose proof huge_18 as H18. pose proof ulp1_val. pose proof tiny_small. pose proof tiny_pos. replace e2 with (ulp1 + ulp1) by (unfold e2; ring).
  assert (FU : INR (fact k) <= 10 ^ 18). { apply Rle_trans with (INR (fact 15)); [apply le_INR, fact_le; lia|]. rewrite fact_simpl, mult_INR. do 13 (rewrite fact_simpl, mult_INR). cbn [fact Nat.mul Nat.add]. rewrite !INR_IZR_INZ. cbn. lra. }
  apply near_rel with (h := tiny); [apply rdB_near; rewrite Rabs_pos_eq; pose proof huge_1; lra|lra|]. rewrite Rabs_pos_eq by lra.
  assert (T8 : 8 * tiny <= ulp1) by (unfold tiny, ulp1; change 8 with (bpow radix2 3); rewrite <- bpow_plus; apply bpow_le; lia). eapply Rle_trans; [exact T8|]. rewrite <- (Rmult_1_r ulp1) at 1. apply Rmult_le_compat_l; lra.
Qed.
