(** Accuracy of the F distribution function in double precision, and its round trip. *)
From Coq Require Import ZArith QArith Reals Bool Lra Lia.
From Verif Require Import RealElem RealAcc RealTrip2 RealTail GammaFn BetaFn NormR Spec SpecSF FamR.
From Verif Require Import Num Sanity Prob Dens Quant B64 B64R B64Ord SpecB64 SpecAcc SpecAccQ SpecAccD SpecTrip B64Cdf B64Cdf2 B64Cdf3 B64Acc B64AccCdf B64AccCdf2 B64AccCdf3 B64AccQ B64AccQ2 B64AccQ3 B64AccQ4 B64AccDens2 B64AccDens4 B64AccPois B64AccDf B64Trip B64Trip2 B64Trip3 B64AccT.
From Flocq Require Import Core IEEE754.BinarySingleNaN.
Local Open Scope R_scope.

Section F.
Variable F : TF.
Notation NB := (B64_Num F).
Variable e : R.
Hypothesis He : unit_ok e.
Lemma pf_fin x df1 df2 : big_eps x -> big_eps df1 -> big_eps df2 ->
  pf (N:=NB) x df1 df2 false = t_incbeta F (bdiv df1 (bofZ 2)) (bdiv df2 (bofZ 2)) (bdiv (bdiv (bmul df1 x) df2) (badd (bofZ 1) (bdiv (bmul df1 x) df2))).
Proof.
  intros Bx B1 B2. destruct (big_eps_pos _ Bx) as (_ & Px & Ex), (big_eps_pos _ B1) as (_ & Pd1 & Ed1), (big_eps_pos _ B2) as (_ & Pd2 & Ed2).
  unfold pf, f_sanity3, f_sanity2, any_nan2. rewrite (nan_nn F x), (nan_nn F df1), (nan_nn F df2) by (apply nn_fin; apply Px || apply Pd1 || apply Pd2). cbn [orb negb andb].
  rewrite (proj2 (eps_lt_f F df1 (nn_fin _ (proj1 Pd1))) Ed1), (proj2 (eps_lt_f F df2 (nn_fin _ (proj1 Pd2))) Ed2). cbn [negb].
  rewrite (proj2 (eps_lt_f F x (nn_fin _ (proj1 Px))) Ex). unfold any_posinf2. rewrite !posinf_fin by (apply Px || apply Pd1 || apply Pd2). reflexivity.
Qed.
Lemma f_arg x df1 df2 : big_eps x -> big_eps df1 -> big_eps df2 -> B2R df1 <= big -> B2R df2 <= big -> let c := B2R df1 * B2R x / B2R df2 in 5000 * e * (1 + c) <= 1 ->
  near (11 * ulp1) 0 (bdiv (bdiv (bmul df1 x) df2) (badd (bofZ 1) (bdiv (bmul df1 x) df2))) (c / (1 + c)) /\ 0 < c /\ c / (1 + c) < 1 - 20 * ulp1.
Proof.
  intros Bx B1 B2 U1 U2 c HQ. destruct (big_eps_R _ Bx) as [Fx Lx], (big_eps_R _ B1) as [F1 L1], (big_eps_R _ B2) as [F2 L2]. pose proof ulp1_val as U. destruct He as [E1 E2].
  set (d1 := B2R df1) in *. set (d2 := B2R df2) in *. set (X := B2R x) in *. unfold big in U1, U2. assert (C0 : 0 < c) by (unfold c; apply Rdiv_lt_0_compat; [apply Rmult_lt_0_compat|]; lra).
  assert (Lx' : bpow radix2 (-52) <= X) by exact Lx. assert (L1' : bpow radix2 (-52) <= d1) by exact L1. assert (L2' : bpow radix2 (-52) <= d2) by exact L2.
  assert (UC : 5000 * (ulp1 * (1 + c)) <= 1). { assert (ulp1 * (1 + c) <= e * (1 + c)) by (apply Rmult_le_compat_r; lra). lra. }
  assert (QU : 1 + c <= bpow radix2 52). { apply Rmult_le_reg_l with ulp1; [lra|]. apply Rle_trans with 1; [lra|]. unfold ulp1. rewrite <- bpow_plus. simpl. lra. }
  assert (EC : d1 * X = c * d2) by (unfold c; field; lra).
  assert (M1 : bpow radix2 (-104) <= d1 * X <= bpow radix2 452).
  { split; [apply (pow_prod (-52) (-52)); lra|]. rewrite EC. apply (pow_prodU 52 400); lra. }
  assert (I2 : bpow radix2 (- (400)) <= / d2) by (apply pow_inv; lra).
  assert (M2 : bpow radix2 (-504) <= c <= bpow radix2 52). { split; [unfold c, Rdiv; apply (pow_prod (-104) (-400)); [apply M1|exact I2]|lra]. }
  assert (M3 : bpow radix2 (-556) <= c / (1 + c)). { unfold Rdiv. apply (pow_prod (-504) (-52)); [apply M2|]. apply (pow_inv 52). lra. }
  assert (V : c / (1 + c) = 1 - / (1 + c)) by (field; lra).
  assert (V2 : 20 * ulp1 < / (1 + c)). { apply Rmult_lt_reg_r with (1 + c); [lra|]. rewrite Rinv_l by lra. lra. }
  assert (X1 : forall a b r, (-900 <= a)%Z -> (b <= 900)%Z -> bpow radix2 a <= r <= bpow radix2 b -> mid r).
  { intros a b r Ha Hb [Hr1 Hr2]. apply mid_pos. split; [eapply Rle_trans; [apply bpow_le, Ha|exact Hr1]|eapply Rle_trans; [exact Hr2|apply bpow_le, Hb]]. }
  assert (N1 : near (2 * ulp1) 0 (bmul df1 x) (d1 * X)) by (eapply near_le; [apply (nmul 0 0); try (now apply near_exact); try lra; apply (X1 (-104)%Z 452%Z); auto; lia|lra|lra]).
  assert (N2 : near (4 * ulp1) 0 (bdiv (bmul df1 x) df2) c) by (eapply near_le; [apply (ndiv (2 * ulp1) 0); [exact N1|now apply near_exact|lra|lra|lra|fold d2; lra|apply (X1 (-504)%Z 52%Z); auto; lia]|lra|lra]).
  assert (N3 : near (5 * ulp1) 0 (badd (bofZ 1) (bdiv (bmul df1 x) df2)) (1 + c)).
  { eapply near_le; [apply (near_plus 0 0 (4 * ulp1) 0); [apply (near_Z 1); sm|exact N2|..]; try lra|lra|lra]. eapply Rle_trans; [exact QU|unfold huge; apply bpow_le; lia]. }
  split; [|split; [auto|lra]]. eapply near_le; [apply (ndiv (4 * ulp1) (5 * ulp1)); auto; try lra; apply (X1 (-556)%Z 0%Z); [lia|lia|split; [auto|change (bpow radix2 0) with 1; lra]]|lra|lra].
Qed.
Lemma f_half d : big_eps d -> B2R d <= big -> bpos (bdiv d (bofZ 2)) /\ B2R (bdiv d (bofZ 2)) = B2R d / 2.
Proof.
  intros B H. destruct (big_eps_R _ B) as [Fd L]. pose proof ulp1_val. assert (HI : / huge <= ulp1) by (unfold huge, ulp1; rewrite <- bpow_opp; apply bpow_le; lia). assert (HH : big <= huge) by (unfold big, huge; apply bpow_le; lia).
  destruct (half_div d Fd ltac:(lra)) as [A C]. split; [split; [exact A|rewrite C; lra]|exact C].
Qed.
Lemma f_cdf_arg d1 d2 X : 0 < d1 -> 0 < d2 -> 0 < X -> f_cdf d1 d2 X = IB (d1 / 2) (d2 / 2) (d1 * X / d2 / (1 + d1 * X / d2)).
Proof. intros A B C. unfold f_cdf. f_equal. assert (0 < d1 * X) by nra. field. lra. Qed.
(** second degrees of freedom at least two *)
Lemma pf_acc x df1 df2 : incbeta_acc F e -> big_eps x -> big_eps df1 -> big_eps df2 -> B2R df1 <= big -> 2 <= B2R df2 <= big -> 5000 * e * (1 + B2R df1 * B2R x / B2R df2) <= 1 ->
  near (e + 6 * B2R df1 * ulp1) tiny (pf (N:=NB) x df1 df2 false) (f_cdf (B2R df1) (B2R df2) (B2R x)).
Proof.
  intros HB Bx B1 B2 U1 U2 HQ. destruct (f_arg x df1 df2 Bx B1 B2 U1 (proj2 U2) HQ) as ((Fv & t & s & T & S & E) & C0 & C1). apply abs_le0 in S. subst s. rewrite Rplus_0_r in E. pose proof ulp1_val as U.
  destruct (big_eps_R _ Bx) as [Fx Lx], (big_eps_R _ B1) as [F1 L1]. rewrite pf_fin, f_cdf_arg by (auto; lra).
  destruct (f_half _ B1 U1) as [[Fa Pa] Ea]. destruct (f_half _ B2 (proj2 U2)) as [[Fb Pb] Eb]. set (c := B2R df1 * B2R x / B2R df2) in *.
  pose proof (exp_m1 t _ T ltac:(lra)) as Q. apply Rabs_le_inv in Q. pose proof (exp_pos t) as Xp. assert (V0 : 0 < c / (1 + c)) by (apply Rdiv_lt_0_compat; lra).
  assert (V : 0 < c / (1 + c) * exp t < 1).
  { split; [apply Rmult_lt_0_compat; lra|]. apply Rle_lt_trans with ((1 - 20 * ulp1) * (1 + 12 * ulp1)); [apply Rmult_le_compat; lra|]. assert (0 < ulp1 * ulp1) by (apply Rmult_lt_0_compat; lra). lra. }
  pose proof (HB _ _ Fa Fb Pa Pb _ Fv ltac:(rewrite E; exact V)) as N. rewrite E, Ea, Eb in N.
  destruct (beta_shift (B2R df1 / 2) (B2R df2 / 2) (c / (1 + c)) t ltac:(lra) ltac:(lra) ltac:(lra) (proj2 V)) as (u & Hu & Eu). rewrite Eu in N.
  assert (Hu' : Rabs u <= 6 * B2R df1 * ulp1). { eapply Rle_trans; [exact Hu|]. assert (B2R df1 / 2 * Rabs t <= B2R df1 / 2 * (11 * ulp1)) by (apply Rmult_le_compat_l; lra). assert (0 < B2R df1 * ulp1) by (apply Rmult_lt_0_compat; lra). lra. }
  exact (B64AccDf.near_shift _ _ _ _ _ u N Hu').
Qed.
(** any degrees of freedom, argument not far above the median *)
Lemma pf_acc_low x df1 df2 : incbeta_acc F e -> big_eps x -> big_eps df1 -> big_eps df2 -> B2R df1 <= big -> B2R df2 <= big -> B2R df1 * B2R x / B2R df2 <= 2 ->
  near (e + 22 * B2R df1 * ulp1) tiny (pf (N:=NB) x df1 df2 false) (f_cdf (B2R df1) (B2R df2) (B2R x)).
Proof.
  intros HB Bx B1 B2 U1 U2 HQ. pose proof ulp1_val as U. destruct He as [E1 E2]. destruct (f_arg x df1 df2 Bx B1 B2 U1 U2) as ((Fv & t & s & T & S & E) & C0 & C1).
  { apply Rle_trans with (5000 * e * 3); [apply Rmult_le_compat_l; lra|lra]. } apply abs_le0 in S. subst s. rewrite Rplus_0_r in E.
  destruct (big_eps_R _ Bx) as [Fx Lx], (big_eps_R _ B1) as [F1 L1], (big_eps_R _ B2) as [F2 L2]. rewrite pf_fin, f_cdf_arg by (auto; lra).
  destruct (f_half _ B1 U1) as [[Fa Pa] Ea]. destruct (f_half _ B2 U2) as [[Fb Pb] Eb]. set (c := B2R df1 * B2R x / B2R df2) in *.
  pose proof (exp_m1 t _ T ltac:(lra)) as Q. apply Rabs_le_inv in Q. pose proof (exp_pos t) as Xp. assert (V0 : 0 < c / (1 + c)) by (apply Rdiv_lt_0_compat; lra).
  assert (V1 : c / (1 + c) <= 2 / 3) by (apply Rmult_le_reg_r with (1 + c); [lra|]; unfold Rdiv at 1; rewrite Rmult_assoc, Rinv_l by lra; lra).
  assert (V : 0 < c / (1 + c) * exp t <= 3 / 4).
  { split; [apply Rmult_lt_0_compat; lra|]. apply Rle_trans with (2 / 3 * (1 + 12 * ulp1)); [apply Rmult_le_compat; lra|lra]. }
  pose proof (HB _ _ Fa Fb Pa Pb _ Fv ltac:(rewrite E; lra)) as N. rewrite E, Ea, Eb in N.
  destruct (beta_shift4 (B2R df1 / 2) (B2R df2 / 2) (c / (1 + c)) t ltac:(lra) ltac:(lra) ltac:(lra) (proj2 V)) as (u & Hu & Eu). rewrite Eu in N.
  assert (Hu' : Rabs u <= 22 * B2R df1 * ulp1). { eapply Rle_trans; [exact Hu|]. assert (4 * (B2R df1 / 2) * Rabs t <= 4 * (B2R df1 / 2) * (11 * ulp1)) by (apply Rmult_le_compat_l; lra). lra. }
  exact (B64AccDf.near_shift _ _ _ _ _ u N Hu').
Qed.
(** round trip *)
Lemma f_trip64 p df1 df2 q : incbeta_acc F e -> incbeta_inv_acc F e -> prob p -> big_eps df1 -> big_eps df2 -> B2R df1 <= big -> 2 <= B2R df2 <= big -> 2 * ulp1 <= q -> 6000 * e * (1 + B2R df1 * q / B2R df2) <= 1 ->
  f_cdf (B2R df1) (B2R df2) q = B2R p -> near (e + 12 * B2R df1 * e) tiny (pf (N:=NB) (qf (N:=NB) p df1 df2) df1 df2 false) (B2R p).
Proof.
  intros HB HBI O B1 B2 U1 U2 Hq HQ Hc. pose proof ulp1_val as U. destruct He as [E1 E2]. destruct (big_eps_R _ B1) as [F1 L1], (big_eps_R _ B2) as [F2 L2].
  set (d1 := B2R df1) in *. set (d2 := B2R df2) in *. set (c := d1 * q / d2) in *. assert (C0 : 0 < c) by (unfold c; apply Rdiv_lt_0_compat; [apply Rmult_lt_0_compat|]; lra).
  assert (UC : 6000 * (ulp1 * (1 + c)) <= 1). { assert (ulp1 * (1 + c) <= e * (1 + c)) by (apply Rmult_le_compat_r; lra). lra. }
  assert (QU : 1 + c <= bpow radix2 52). { apply Rmult_le_reg_l with ulp1; [lra|]. apply Rle_trans with 1; [lra|]. unfold ulp1. rewrite <- bpow_plus. simpl. lra. }
  assert (L1' : bpow radix2 (-52) <= d1) by exact L1. assert (L2' : bpow radix2 1 <= d2) by (simpl; lra). assert (V1 : d1 <= bpow radix2 400) by exact U1. assert (V2 : d2 <= bpow radix2 400) by apply U2. assert (Lq : bpow radix2 (-52) <= q) by (change (bpow radix2 (-52)) with ulp1; lra).
  assert (Eq : q = c * d2 * / d1) by (unfold c; field; lra).
  assert (I1 : / d1 <= bpow radix2 (- (-52))) by (apply pow_invU; auto). assert (I2 : bpow radix2 (- (400)) <= / d2) by (apply pow_inv; lra). assert (I3 : / d2 <= bpow radix2 (- (1))) by (apply pow_invU; auto).
  assert (J1 : 0 < / d1) by (apply Rinv_0_lt_compat; lra). assert (J2 : 0 < / d2) by (apply Rinv_0_lt_compat; lra).
  assert (CD : 0 < c * d2) by (apply Rmult_lt_0_compat; lra).
  assert (Mq : q <= bpow radix2 504). { rewrite Eq. apply (pow_prodU 452 52); [split; [auto|apply (pow_prodU 52 400); lra]|split; [auto|exact I1]]. }
  assert (M1 : bpow radix2 (-452) <= d1 / d2 <= bpow radix2 399). { unfold Rdiv. split; [apply (pow_prod (-52) (-400)); auto|apply (pow_prodU 400 (-1)); split; auto; lra]. }
  assert (M2 : bpow radix2 (-504) <= c). { unfold c. replace (d1 * q / d2) with (d1 / d2 * q) by (field; lra). apply (pow_prod (-452) (-52)); [apply M1|auto]. }
  assert (I4 : bpow radix2 (- (52)) <= / (1 + c)) by (apply pow_inv; lra).
  assert (M3 : bpow radix2 (-556) <= c / (1 + c)) by (unfold Rdiv; apply (pow_prod (-504) (-52)); auto).
  assert (M4 : bpow radix2 (-504) <= d1 / d2 / (1 + c)) by (unfold Rdiv; apply (pow_prod (-452) (-52)); [apply M1|auto]).
  assert (HI : forall k, (-1000 <= k)%Z -> / huge <= bpow radix2 k) by (intros k Hk; unfold huge; rewrite <- bpow_opp; apply bpow_le; lia). assert (HH : forall k, (k <= 1000)%Z -> bpow radix2 k <= huge) by (intros k Hk; unfold huge; apply bpow_le; lia).
  pose proof (HI (-452)%Z ltac:(lia)). pose proof (HI (-504)%Z ltac:(lia)). pose proof (HI (-556)%Z ltac:(lia)). pose proof (HH 400%Z ltac:(lia)). pose proof (HH 399%Z ltac:(lia)). pose proof (HH 504%Z ltac:(lia)).
  assert (EC : 0 < e * (1 + c)) by (apply Rmult_lt_0_compat; lra).
  pose proof (qf_acc F e He p df1 df2 q HBI O B1 B2) as A. cbv zeta in A. fold d1 d2 in A. fold c in A. specialize (A ltac:(lra) ltac:(lra) ltac:(lra) ltac:(lra) ltac:(lra) ltac:(lra) ltac:(lra) Hc).
  assert (T8 : 8 * tiny <= ulp1 * q). { apply Rle_trans with (ulp1 * (2 * ulp1)); [|apply Rmult_le_compat_l; lra]. unfold tiny, ulp1. replace 8 with (bpow radix2 3) by reflexivity. rewrite <- bpow_plus. apply Rle_trans with (bpow radix2 (-104)); [apply bpow_le; lia|]. replace (-104)%Z with (-52 + -52)%Z by lia. rewrite bpow_plus. pose proof (bpow_gt_0 radix2 (-52)). nra. }
  destruct (near_rel' _ _ _ _ A ltac:(lra) T8 ltac:(lra)) as (Fx & t & T & Ex). set (x := qf (N:=NB) p df1 df2) in *.
  assert (EU : ulp1 <= e * (1 + c)). { apply Rle_trans with e; [lra|]. rewrite <- (Rmult_1_r e) at 1. apply Rmult_le_compat_l; lra. }
  assert (T' : Rabs t <= 11 * (e * (1 + c))) by lra.
  pose proof (exp_m1 t _ T' ltac:(lra)) as Q. apply Rabs_le_inv in Q. pose proof (exp_pos t) as Xp.
  assert (Bx : big_eps x). { apply is_big; auto. rewrite Ex. apply Rle_trans with (2 * ulp1 * (1 / 2)); [lra|]. apply Rmult_le_compat; lra. }
  assert (Ec : d1 * B2R x / d2 = c * exp t) by (rewrite Ex; unfold c; field; lra).
  assert (EX : exp t <= 101 / 100) by lra.
  assert (HQ' : 5000 * e * (1 + d1 * B2R x / d2) <= 1).
  { rewrite Ec. assert (c * exp t <= c * (101 / 100)) by (apply Rmult_le_compat_l; lra). assert (e * (c * exp t) <= e * (c * (101 / 100))) by (apply Rmult_le_compat_l; lra). lra. }
  pose proof (pf_acc x df1 df2 HB Bx B1 B2 U1 U2 HQ') as N. fold d1 d2 in N. rewrite f_cdf_arg in N by (try lra; rewrite Ex; apply Rmult_lt_0_compat; lra). rewrite Ec in N.
  destruct (frac_shift c t C0 ltac:(lra)) as (u & Hu & Eu). rewrite Eu in N.
  assert (Hu' : Rabs u <= 1123 / 100 * e).
  { eapply Rle_trans; [exact Hu|]. apply Rmult_le_reg_r with (1 + c); [lra|]. unfold Rdiv at 1. rewrite Rmult_assoc, Rinv_l by lra. lra. }
  pose proof (exp_m1 u _ Hu' ltac:(lra)) as Q2. apply Rabs_le_inv in Q2. pose proof (exp_pos u) as Xu.
  assert (V0 : 0 < c / (1 + c) < 1) by (split; [apply Rdiv_lt_0_compat; lra|]; apply Rmult_lt_reg_r with (1 + c); [lra|]; unfold Rdiv; rewrite Rmult_assoc, Rinv_l by lra; lra).
  assert (V : c / (1 + c) * exp u < 1).
  { rewrite <- Eu. assert (0 < c * exp t) by (apply Rmult_lt_0_compat; lra). apply Rmult_lt_reg_r with (1 + c * exp t); [lra|]; unfold Rdiv; rewrite Rmult_assoc, Rinv_l by lra; lra. }
  destruct (beta_shift (d1 / 2) (d2 / 2) (c / (1 + c)) u ltac:(lra) ltac:(lra) V0 V) as (w & Hw & Ew). rewrite Ew in N. rewrite (f_cdf_arg d1 d2 q) in Hc by lra. fold c in Hc. rewrite Hc in N.
  eapply near_le; [exact (B64AccDf.near_shift _ (d1 / 2 * (1123 / 100 * e)) _ _ _ w N ltac:(eapply Rle_trans; [exact Hw|apply Rmult_le_compat_l; lra]))| |lra].
  assert (d1 * ulp1 <= d1 * e) by (apply Rmult_le_compat_l; lra). assert (0 < d1 * e) by (apply Rmult_lt_0_compat; lra). lra.
Qed.
End F.
