(** Accuracy of the distribution functions in double precision: Student with any degrees of freedom, and F. *)
From Coq Require Import ZArith QArith Reals Bool Lra Lia.
From Verif Require Import RealElem RealAcc RealTrip2 RealTail GammaFn BetaFn NormR Spec SpecSF FamR.
From Verif Require Import Num Sanity Prob Dens Quant B64 B64R B64Ord SpecB64 SpecAcc SpecAccQ SpecAccD SpecTrip B64Cdf B64Cdf2 B64Cdf3 B64Cdf4 B64Acc B64AccCdf B64AccCdf2 B64AccCdf3 B64AccQ B64AccQ2 B64AccQ3 B64AccQ4 B64AccDens2 B64AccDens4 B64AccPois B64AccDf B64Trip B64Trip2 B64Trip3.
From Flocq Require Import Core IEEE754.BinarySingleNaN.
Local Open Scope R_scope.
Notation exp := Rtrigo_def.exp.

Lemma mid_pos r : bpow radix2 (-900) <= r <= bpow radix2 900 -> mid r.
Proof.
  intros [A B]. pose proof (bpow_gt_0 radix2 (-900)). unfold mid. rewrite Rabs_pos_eq by lra. split; [|eapply Rle_trans; [exact B|unfold huge; apply bpow_le; lia]].
  eapply Rle_trans; [|exact A]. unfold huge. rewrite <- bpow_opp. apply bpow_le. lia.
Qed.
Lemma pow_prod a b x y : bpow radix2 a <= x -> bpow radix2 b <= y -> bpow radix2 (a + b) <= x * y.
Proof. intros H K. rewrite bpow_plus. pose proof (bpow_gt_0 radix2 a). pose proof (bpow_gt_0 radix2 b). apply Rmult_le_compat; lra. Qed.
Lemma pow_prodU a b x y : 0 < x <= bpow radix2 a -> 0 < y <= bpow radix2 b -> x * y <= bpow radix2 (a + b).
Proof. intros H K. rewrite bpow_plus. apply Rmult_le_compat; lra. Qed.
Lemma pow_inv a x : 0 < x <= bpow radix2 a -> bpow radix2 (- a) <= / x.
Proof. intros H. rewrite bpow_opp. apply Rinv_le_contravar; lra. Qed.
Lemma pow_invU a x : bpow radix2 a <= x -> / x <= bpow radix2 (- a).
Proof. intros H. rewrite bpow_opp. pose proof (bpow_gt_0 radix2 a). apply Rinv_le_contravar; lra. Qed.

Lemma tiny_ulp : tiny <= ulp1 / 1000000.
Proof. unfold tiny, ulp1. apply Rle_trans with (bpow radix2 (-72)); [apply bpow_le; lia|]. cbn. lra. Qed.
Section T.
Variable F : TF.
Notation NB := (B64_Num F).
Variable e : R.
Hypothesis He : unit_ok e.
Lemma half_pos : bpos (blit (1#2)) /\ B2R (blit (1#2)) = / 2.
Proof. destruct B64Cdf.half_R as [A B]. split; [split; [exact A|rewrite B; lra]|exact B]. Qed.
(** the incomplete beta function at a double known to a relative error *)
Lemma pbeta_at k v q a b : incbeta_acc F e -> near k 0 v q -> 0 <= k <= / 100 -> 0 < q <= 7 / 10 -> bpos a -> bpos b ->
  near (e + 4 * B2R a * k) tiny (pbeta (N:=NB) v a b false) (IB (B2R a) (B2R b) q).
Proof.
  intros HB (Fv & t & s & T & S & E) K Hq Pa Pb. apply abs_le0 in S. subst s. rewrite Rplus_0_r in E. pose proof Pa as [_ Pa']. pose proof Pb as [_ Pb'].
  pose proof (exp_m1 t k T ltac:(lra)) as X. apply Rabs_le_inv in X. pose proof (exp_pos t) as Xp.
  assert (Q : 0 < q * exp t <= 3 / 4). { split; [apply Rmult_lt_0_compat; lra|]. apply Rle_trans with (7 / 10 * (1 + 102 / 100 * / 100)); [apply Rmult_le_compat; lra|lra]. }
  pose proof (pbeta_acc F e v a b HB Fv ltac:(rewrite E; lra) Pa Pb) as N. unfold beta_cdf in N. rewrite E in N.
  destruct (beta_shift4 (B2R a) (B2R b) q t Pa' Pb' ltac:(lra) (proj2 Q)) as (u & Hu & Eu). rewrite Eu in N.
  eapply near_le; [exact (B64AccDf.near_shift _ (4 * B2R a * k) _ _ _ u N ltac:(eapply Rle_trans; [exact Hu|apply Rmult_le_compat_l; lra]))|lra|lra].
Qed.
Lemma IB_unit a b q : 0 < a -> 0 < b -> 0 < q < 1 -> 0 < IB a b q < 1.
Proof. intros A B Q. now apply IB_srange. Qed.

Variables x dof : b64.
Let X := B2R x.
Let n := B2R dof.
Hypothesis HB : incbeta_acc F e.
Hypothesis Fx : bfin x.
Hypothesis Fd : bfin dof.
Hypothesis RX : / big <= Rabs X <= big.
Hypothesis Rn : / 1000000 <= n <= 1000000.

Lemma ranges : bpow radix2 (-800) <= X ^ 2 <= bpow radix2 800 /\ bpow radix2 (-20) <= n <= bpow radix2 20 /\ 0 < X ^ 2.
Proof.
  assert (S : X ^ 2 = Rabs X * Rabs X) by (rewrite <- Rabs_mult, Rabs_pos_eq by nra; ring). assert (B : / big = bpow radix2 (-400)) by (unfold big; now rewrite <- bpow_opp). rewrite B in RX. unfold big in RX. pose proof (bpow_gt_0 radix2 (-400)).
  assert (A1 : bpow radix2 (-400 + -400) <= Rabs X * Rabs X) by (apply pow_prod; lra). assert (A2 : Rabs X * Rabs X <= bpow radix2 (400 + 400)) by (apply pow_prodU; lra).
  rewrite S. split; [split; assumption|]. split; [|pose proof (bpow_gt_0 radix2 (-800)); change (-400 + -400)%Z with (-800)%Z in A1; lra].
  assert (C : bpow radix2 20 = 1048576) by reflexivity. change (-20)%Z with (- (20))%Z. rewrite bpow_opp, C. assert (/ 1048576 <= / 1000000) by (apply Rinv_le_contravar; lra). lra.
Qed.
Lemma dof_half : bpos (bdiv dof (bofZ 2)) /\ B2R (bdiv dof (bofZ 2)) = n / 2.
Proof.
  assert (HH : huge >= 1000000). { apply Rle_ge. unfold huge. apply Rle_trans with (bpow radix2 20); [|apply bpow_le; lia]. change (bpow radix2 20) with 1048576. lra. }
  destruct (half_div dof Fd) as [A B]; [fold n|split; [split; [exact A|rewrite B; fold n; lra]|exact B]].
  assert (/ huge <= / 1000000) by (apply Rinv_le_contravar; lra). lra.
Qed.
Lemma sq_near : near (2 * ulp1) 0 (bmul x x) (X ^ 2).
Proof.
  destruct ranges as (R1 & _). pose proof ulp1_val. replace (X ^ 2) with (X * X) in * by ring. eapply near_le; [apply (nmul 0 0); try (now apply near_exact); try lra|lra|lra]. apply mid_pos.
  split; [eapply Rle_trans; [|apply R1]; apply bpow_le; lia|eapply Rle_trans; [apply R1|]; apply bpow_le; lia].
Qed.
(** the branch taken for small arguments *)
Lemma low1 : Bltb (bmul x x) dof = true ->
  near (e + 14 * ulp1) tiny (pbeta (N:=NB) (bdiv (bmul x x) (badd dof (bmul x x))) (blit (1#2)) (bdiv dof (bofZ 2)) false) (IB (/ 2) (n / 2) (X ^ 2 / (n + X ^ 2))).
Proof.
  intros L. destruct ranges as (R1 & R2 & R3). pose proof ulp1_val as U. pose proof sq_near as N1. pose proof N1 as (Fz & t & s & T & S & E). apply abs_le0 in S. subst s. rewrite Rplus_0_r in E.
  apply bltb_R in L; auto. fold n in L. rewrite E in L. pose proof (exp_m1 t _ T ltac:(lra)) as Q. apply Rabs_le_inv in Q.
  assert (D : X ^ 2 <= 1002 / 1000 * n). { assert (X ^ 2 * (999 / 1000) <= X ^ 2 * exp t) by (apply Rmult_le_compat_l; lra). lra. }
  set (m := X ^ 2) in *. assert (HS : n + m <= huge). { apply Rle_trans with (bpow radix2 20 + bpow radix2 20 * 2); [lra|]. change (bpow radix2 20) with 1048576. apply Rle_trans with (bpow radix2 30); [change (bpow radix2 30) with 1073741824; lra|unfold huge; apply bpow_le; lia]. }
  assert (N2 : near (3 * ulp1) 0 (badd dof (bmul x x)) (n + m)).
  { eapply near_le; [apply (near_plus 0 0 (2 * ulp1) 0); [apply (near_exact dof Fd)|exact N1|..]; lra|lra|lra]. }
  assert (Hq : 0 < m / (n + m) <= 7 / 10).
  { split; [apply Rdiv_lt_0_compat; lra|]. apply Rmult_le_reg_r with (n + m); [lra|]. unfold Rdiv at 1. rewrite Rmult_assoc, Rinv_l by lra. lra. }
  assert (M : mid (m / (n + m))).
  { apply mid_pos. split; [|apply Rle_trans with 1; [lra|apply (bpow_le radix2 0); lia]]. apply Rle_trans with (bpow radix2 (-800 + -22)); [apply bpow_le; lia|]. unfold Rdiv. apply pow_prod; [apply R1|].
    change (-22)%Z with (- (22))%Z. apply pow_inv. split; [lra|]. change (bpow radix2 22) with 4194304. revert R2. change (bpow radix2 20) with 1048576. lra. }
  assert (N3 : near (7 * ulp1) 0 (bdiv (bmul x x) (badd dof (bmul x x))) (m / (n + m))) by (eapply near_le; [apply (ndiv (2 * ulp1) (3 * ulp1)); auto; lra|lra|lra]).
  destruct half_pos as [Ph Eh]. destruct dof_half as [Pd Ed]. pose proof (pbeta_at _ _ _ _ _ HB N3 ltac:(lra) Hq Ph Pd) as W. rewrite Eh, Ed in W. eapply near_le; [exact W|lra|lra].
Qed.
(** the branch taken for large arguments *)
Lemma low2 : Bltb (bmul x x) dof = false ->
  near (e + 14 * n * ulp1) tiny (pbeta (N:=NB) (bdiv (bofZ 1) (badd (bofZ 1) (bmul (bdiv x dof) x))) (bdiv dof (bofZ 2)) (blit (1#2)) false) (IB (n / 2) (/ 2) (n / (n + X ^ 2))).
Proof.
  intros L. destruct ranges as (R1 & R2 & R3). pose proof ulp1_val as U. pose proof sq_near as N1. pose proof N1 as (Fz & t & s & T & S & E). apply abs_le0 in S. subst s. rewrite Rplus_0_r in E.
  apply bltb_R_f in L; auto. fold n in L. rewrite E in L. pose proof (exp_m1 t _ T ltac:(lra)) as Q. apply Rabs_le_inv in Q.
  assert (D : n <= 1001 / 1000 * X ^ 2). { assert (X ^ 2 * exp t <= X ^ 2 * (1001 / 1000)) by (apply Rmult_le_compat_l; lra). lra. }
  assert (Pn : 0 < n) by lra. assert (In : 0 < / n) by now apply Rinv_0_lt_compat.
  assert (B1 : bpow radix2 (-20) <= / n) by (apply (pow_inv 20); lra). assert (B2 : / n <= bpow radix2 20) by (apply (pow_invU (-20)); lra).
  assert (AX : bpow radix2 (-400) <= Rabs X <= bpow radix2 400). { assert (B : / big = bpow radix2 (-400)) by (unfold big; now rewrite <- bpow_opp). rewrite B in RX. exact RX. } pose proof (bpow_gt_0 radix2 (-400)) as Z4.
  assert (M0 : mid (X / n)).
  { unfold mid. unfold Rdiv. rewrite Rabs_mult, (Rabs_pos_eq (/ n)) by lra. assert (A : mid (Rabs X * / n)); [|unfold mid in A; rewrite Rabs_pos_eq in A; [exact A|apply Rmult_le_pos; lra]]. apply mid_pos. split.
    - apply Rle_trans with (bpow radix2 (-400 + -20)); [apply bpow_le; lia|apply pow_prod; lra].
    - apply Rle_trans with (bpow radix2 (400 + 20)); [apply pow_prodU; lra|apply bpow_le; lia]. }
  set (m := X ^ 2) in *. assert (Em : X / n * X = m / n) by (unfold m; field; lra).
  assert (M1 : bpow radix2 (-820) <= m / n <= bpow radix2 820).
  { unfold Rdiv. split; [apply (pow_prod (-800) (-20)); lra|apply (pow_prodU 800 20); lra]. }
  assert (Mm : mid (m / n)) by (apply mid_pos; split; [eapply Rle_trans; [|apply M1]; apply bpow_le; lia|eapply Rle_trans; [apply M1|]; apply bpow_le; lia]).
  assert (Mp : 0 < m / n) by (apply Rdiv_lt_0_compat; lra).
  assert (N2 : near (2 * ulp1) 0 (bdiv x dof) (X / n)) by (eapply near_le; [apply (ndiv 0 0); try (now apply near_exact); auto; lra|lra|lra]).
  assert (N3 : near (4 * ulp1) 0 (bmul (bdiv x dof) x) (m / n)) by (rewrite <- Em; eapply near_le; [apply (nmul (2 * ulp1) 0); [exact N2|now apply near_exact|lra|lra|lra|now rewrite Em]|lra|lra]).
  assert (One : 1 <= bpow radix2 820) by (apply (bpow_le radix2 0); lia).
  assert (Hs : 1 + m / n <= bpow radix2 821). { replace (bpow radix2 821) with (2 * bpow radix2 820) by (change 821%Z with (1 + 820)%Z; rewrite bpow_plus; reflexivity). lra. }
  assert (N4 : near (5 * ulp1) 0 (badd (bofZ 1) (bmul (bdiv x dof) x)) (1 + m / n)).
  { eapply near_le; [apply (near_plus 0 0 (4 * ulp1) 0); [apply (near_Z 1); sm|exact N3|..]; try lra|lra|lra]. eapply Rle_trans; [exact Hs|unfold huge; apply bpow_le; lia]. }
  assert (Eq : 1 / (1 + m / n) = n / (n + m)) by (field; split; [lra|]; assert (0 < n + m) by lra; lra).
  assert (Hq : 0 < n / (n + m) <= 7 / 10).
  { split; [apply Rdiv_lt_0_compat; lra|]. apply Rmult_le_reg_r with (n + m); [lra|]. unfold Rdiv at 1. rewrite Rmult_assoc, Rinv_l by lra. lra. }
  assert (N5 : near (7 * ulp1) 0 (bdiv (bofZ 1) (badd (bofZ 1) (bmul (bdiv x dof) x))) (n / (n + m))).
  { rewrite <- Eq. eapply near_le; [apply (ndiv 0 (5 * ulp1)); [apply (near_Z 1); sm|exact N4|lra|lra|lra|lra|]|lra|lra]. rewrite Eq. apply mid_pos. split; [|apply Rle_trans with 1; [lra|apply (bpow_le radix2 0); lia]].
    rewrite <- Eq. unfold Rdiv. rewrite Rmult_1_l. apply Rle_trans with (bpow radix2 (- (821))); [apply bpow_le; lia|]. apply pow_inv. lra. }
  destruct half_pos as [Ph Eh]. destruct dof_half as [Pd Ed]. pose proof (pbeta_at _ _ _ _ _ HB N5 ltac:(lra) Hq Pd Ph) as W. rewrite Eh, Ed in W. eapply near_le; [exact W|lra|lra].
Qed.
Lemma tcdf_low : t_cdf n (- Rabs X) = / 2 - IB (/ 2) (n / 2) (X ^ 2 / (n + X ^ 2)) / 2 /\ t_cdf n (- Rabs X) = IB (n / 2) (/ 2) (n / (n + X ^ 2)) / 2.
Proof.
  pose proof (Rabs_pos X). assert (S : (- Rabs X) ^ 2 = X ^ 2) by (replace ((- Rabs X) ^ 2) with (Rabs X ^ 2) by ring; now rewrite pow2_abs).
  split; [rewrite (t_cdf_main1 n)|rewrite (t_cdf_main2 n)]; rewrite ?S; lra.
Qed.
Lemma half_near k v r : near k tiny v r -> 0 <= k <= / 300 -> 0 < r < 1 -> near (k + ulp1) (5 * tiny) (bdiv v (bofZ 2)) (r / 2).
Proof.
  intros N K Hr. pose proof ulp1_val as U. pose proof huge_1. pose proof tiny_pos as T0. assert (T1 : tiny <= ulp1 / 1000000) by exact tiny_ulp.
  eapply near_le; [apply (near_div k tiny 0 (2 * tiny)); [exact N|apply (near_Z 2); sm|lra|lra|rewrite Rabs_pos_eq; lra|rewrite Rabs_pos_eq; lra|lra]|lra|lra].
Qed.
Lemma lower_acc : within (97 / 10 * e + 8 * n * ulp1) (lower F x dof) (t_cdf n (- Rabs X)).
Proof.
  destruct tcdf_low as [C1 C2]. destruct ranges as (_ & _ & R3). pose proof ulp1_val as U. destruct He as [E1 E2]. pose proof tiny_pos as T0. assert (T1 : tiny <= ulp1 / 1000000) by exact tiny_ulp. assert (Pn : 0 < n) by lra. pose proof huge_1 as H1.
  assert (Q1 : 0 < X ^ 2 / (n + X ^ 2) < 1). { split; [apply Rdiv_lt_0_compat; lra|]. apply Rmult_lt_reg_r with (n + X ^ 2); [lra|]. unfold Rdiv. rewrite Rmult_assoc, Rinv_l by lra. lra. }
  assert (Q2 : 0 < n / (n + X ^ 2) < 1). { split; [apply Rdiv_lt_0_compat; lra|]. apply Rmult_lt_reg_r with (n + X ^ 2); [lra|]. unfold Rdiv. rewrite Rmult_assoc, Rinv_l by lra. lra. }
  assert (NU : 0 < n * ulp1 <= 1000000 * ulp1) by (split; [apply Rmult_lt_0_compat; lra|apply Rmult_le_compat_r; lra]).
  unfold lower. destruct (Bltb (bmul x x) dof) eqn:L.
  - pose proof (low1 L) as N. pose proof (IB_unit (/ 2) (n / 2) _ ltac:(lra) ltac:(lra) Q1) as I. rewrite C1. set (w := IB (/ 2) (n / 2) (X ^ 2 / (n + X ^ 2))) in *.
    pose proof (near_within _ _ _ _ (half_near _ _ _ N ltac:(lra) I) ltac:(lra)) as W. rewrite Rabs_pos_eq in W by lra.
    destruct half_pos as [[Fh _] Eh]. pose proof (within_exact _ Fh) as Wh. rewrite Eh in Wh.
    assert (W' : within (81 / 10 * e + 5 * tiny) (bdiv (pbeta (N:=NB) (bdiv (bmul x x) (badd dof (bmul x x))) (blit (1 # 2)) (bdiv dof (bofZ 2)) false) (bofZ 2)) (w / 2)).
    { eapply within_le; [exact W|]. assert (101 / 100 * (e + 14 * ulp1 + ulp1) * (w / 2) <= 101 / 100 * (e + 14 * ulp1 + ulp1) * (/ 2)) by (apply Rmult_le_compat_l; lra). lra. }
    eapply within_le; [apply (within_sub _ _ _ _ _ _ (/ 2) Wh W'); [apply Rabs_le; lra|lra|lra]|]. lra.
  - pose proof (low2 L) as N. pose proof (IB_unit (n / 2) (/ 2) _ ltac:(lra) ltac:(lra) Q2) as I. rewrite C2. set (w := IB (n / 2) (/ 2) (n / (n + X ^ 2))) in *.
    pose proof (near_within _ _ _ _ (half_near _ _ _ N ltac:(lra) I) ltac:(lra)) as W. rewrite Rabs_pos_eq in W by lra.
    eapply within_le; [exact W|]. assert (101 / 100 * (e + 14 * n * ulp1 + ulp1) * (w / 2) <= 101 / 100 * (e + 14 * n * ulp1 + ulp1) * (/ 2)) by (apply Rmult_le_compat_l; lra). lra.
Qed.
Hypothesis N1 : n <> 1.
Hypothesis N2 : n <> 2.
Lemma dof_ok : big_eps dof /\ Beqb dof (bofZ 1) = false /\ Beqb dof (bofZ 2) = false.
Proof.
  destruct (bofZ_R 1 ltac:(sm)) as [A1 F1], (bofZ_R 2 ltac:(sm)) as [A2 F2]. split; [|split; [apply beqb_R_f; auto; now rewrite A1|apply beqb_R_f; auto; now rewrite A2]].
  apply is_big; auto. fold n. pose proof ulp1_val. lra.
Qed.
Lemma pt_main_acc : within (12 * e + 8 * n * ulp1) (pt (N:=NB) x dof false) (t_cdf n X).
Proof.
  destruct dof_ok as (D1 & D2 & D3). rewrite pt_val by auto. pose proof lower_acc as W. pose proof ulp1_val as U. pose proof huge_1. destruct He as [E1 E2]. destruct (bofZ_R 0 ltac:(sm)) as [A0 F0].
  assert (NU : 0 < n * ulp1 <= 1000000 * ulp1) by (split; [apply Rmult_lt_0_compat; lra|apply Rmult_le_compat_r; lra]).
  destruct (Bltb (bofZ 0) x) eqn:S.
  - apply bltb_R in S; auto. rewrite A0 in S. fold X in S. rewrite Rabs_pos_eq in W by lra. assert (Sy : t_cdf n X = 1 - t_cdf n (- X)) by (rewrite t_cdf_sym by lra; ring). rewrite Sy.
    pose proof (t_cdf_range n ltac:(lra) (- X)) as R. pose proof (within_Z 1 ltac:(sm)) as W1.
    eapply within_le; [apply (within_sub _ _ _ _ _ _ 1 W1 W); [apply Rabs_le; lra|lra|lra]|]. lra.
  - apply bltb_R_f in S; auto. rewrite A0 in S. fold X in S. rewrite Rabs_left1, Ropp_involutive in W by lra. eapply within_le; [exact W|lra].
Qed.
(** far in the lower tail the error is relative *)
Lemma pt_tail_acc : X < 0 -> 2 * n <= X ^ 2 -> near (e + ulp1 + 14 * n * ulp1) (5 * tiny) (pt (N:=NB) x dof false) (t_cdf n X).
Proof.
  intros S B. destruct dof_ok as (D1 & D2 & D3). rewrite pt_val by auto. pose proof ulp1_val as U. destruct He as [E1 E2]. destruct (bofZ_R 0 ltac:(sm)) as [A0 F0]. assert (Pn : 0 < n) by lra. destruct ranges as (_ & _ & R3).
  rewrite (proj2 (bltb_R_f _ _ F0 Fx)) by (rewrite A0; fold X; lra).
  assert (L : Bltb (bmul x x) dof = false).
  { pose proof sq_near as (Fz & t & s & T & Z & E). apply abs_le0 in Z. subst s. rewrite Rplus_0_r in E. apply bltb_R_f; auto. fold n. rewrite E. pose proof (exp_m1 t _ T ltac:(lra)) as Q. apply Rabs_le_inv in Q.
    assert (X ^ 2 * (999 / 1000) <= X ^ 2 * exp t) by (apply Rmult_le_compat_l; lra). lra. }
  unfold lower. rewrite L. destruct tcdf_low as [_ C]. rewrite Rabs_left, Ropp_involutive in C by lra. rewrite C.
  assert (Q2 : 0 < n / (n + X ^ 2) < 1). { split; [apply Rdiv_lt_0_compat; lra|]. apply Rmult_lt_reg_r with (n + X ^ 2); [lra|]. unfold Rdiv. rewrite Rmult_assoc, Rinv_l by lra. lra. }
  assert (NU : 0 < n * ulp1 <= 1000000 * ulp1) by (split; [apply Rmult_lt_0_compat; lra|apply Rmult_le_compat_r; lra]).
  eapply near_le; [apply (half_near _ _ _ (low2 L)); [lra|apply IB_unit; lra]|lra|lra].
Qed.
End T.
