(** Accuracy of the inverse Gaussian distribution function in double precision, and where it is lost. *)
From Coq Require Import ZArith QArith Reals Bool Lra Lia.
From Coquelicot Require Import Derive AutoDerive.
From Verif Require Import RealElem RealAcc RealTrip RealTrip2 Erf GammaFn BetaFn NormR Spec SpecSF FamR.
From Verif Require Import Num Sanity Prob Dens Quant B64 B64R B64Ord SpecB64 SpecAcc SpecAccQ SpecAccD SpecTrip B64Cdf B64Cdf2 B64Cdf3 B64CR B64CdfBad B64Acc B64AccCdf B64AccCdf2 B64AccCdf3 B64AccW B64AccW4 B64AccQ B64AccQ2 B64AccQ3 B64AccQ4 B64AccDens2 B64AccDens4 B64AccPois B64AccDf B64Trip B64Trip2 B64Trip3 B64AccT.
From Flocq Require Import Core IEEE754.BinarySingleNaN.
Local Open Scope R_scope.

Lemma sqrt_lx l x : 0 < l -> 0 < x -> R_sqrt.sqrt (l / x) * x = R_sqrt.sqrt (l * x).
Proof.
  intros Hl Hx. rewrite <- (sqrt_Rsqr x) at 2 by lra. rewrite <- sqrt_mult by (try apply Rlt_le, Rdiv_lt_0_compat; auto; apply Rle_0_sqr). f_equal. unfold Rsqr. field. lra.
Qed.
Lemma exp_64 y : exp y <= bpow radix2 64 -> y <= 64.
Proof.
  intros H. destruct (Rle_lt_dec y 64) as [|L]; auto. exfalso. destruct exp_m64 as [A B]. apply exp_increasing in L.
  assert (C : exp 64 * exp (- (64)) = 1) by (rewrite <- exp_plus, Rplus_opp_r; apply exp_0).
  assert (D : bpow radix2 64 * bpow radix2 (-64) = 1) by (rewrite <- bpow_plus; reflexivity).
  pose proof (bpow_gt_0 radix2 64). pose proof (bpow_gt_0 radix2 (-64)). assert (exp 64 * exp (- (64)) < bpow radix2 64 * bpow radix2 (-64)); [|lra].
  apply Rlt_le_trans with (bpow radix2 64 * exp (- (64))); [apply Rmult_lt_compat_r; lra|apply Rmult_le_compat_l; lra].
Qed.

Section IG.
Variable F : TF.
Notation NB := (B64_Num F).
Variable e : R.
Hypothesis He : unit_ok e.
Lemma pinvgauss_fin x mu l : bpos x -> bpos mu -> bpos l ->
  pinvgauss (N:=NB) x mu l false =
  badd (pnorm (N:=NB) (bmul (Bsqrt mode_NE (bdiv l x)) (bsub (bdiv x mu) (bofZ 1))) (bofZ 0) (bofZ 1) false)
       (bmul (t_exp F (bdiv (bmul (bofZ 2) l) mu)) (pnorm (N:=NB) (bmul (Bopp (Bsqrt mode_NE (bdiv l x))) (badd (bdiv x mu) (bofZ 1))) (bofZ 0) (bofZ 1) false)).
Proof.
  intros Px Pm Pl. unfold pinvgauss, invgauss_sanity3, invgauss_sanity2, any_nan2.
  rewrite (nan_nn F x), (nan_nn F mu), (nan_nn F l) by (apply nn_fin; apply Px || apply Pm || apply Pl).
  change (ltb mu (ofZ 0)) with (Bltb mu (bofZ 0)). change (ltb l (ofZ 0)) with (Bltb l (bofZ 0)). change (ltb x (ofZ 0)) with (Bltb x (bofZ 0)).
  rewrite !lt0_f by (try apply Px; try apply Pm; try apply Pl; left; apply Px || apply Pm || apply Pl). cbn [orb negb andb].
  unfold any_inf3. rewrite !inf_fin by (apply Px || apply Pm || apply Pl).
  change (eqb x (ofZ 0)) with (Beqb x (bofZ 0)). change (eqb mu (ofZ 0)) with (Beqb mu (bofZ 0)). change (eqb l (ofZ 0)) with (Beqb l (bofZ 0)).
  rewrite !eq0_f by auto. reflexivity.
Qed.
(** the standard normal distribution function of a rounded argument *)
Lemma std_acc a z A B : const_acc e (t_SQRT_2 F) (R_sqrt.sqrt 2) -> erf_acc F e -> bfin a -> 0 <= A <= / 100 -> 0 <= B <= 1 -> Rabs z <= huge / 4 -> Rabs (B2R a - z) <= A * Rabs z + B ->
  within (6 * e + A / 3 + / 2 * B) (pnorm (N:=NB) a (bofZ 0) (bofZ 1) false) (norm_cdf 0 1 z).
Proof.
  intros C HF Fa HA HB Hz D. destruct (bofZ_R 0 ltac:(sm)) as [Z0 F0]. destruct (bofZ_R 1 ltac:(sm)) as [Z1 F1]. pose proof huge_1.
  assert (Ha : Rabs (B2R a) <= huge).
  { replace (B2R a) with ((B2R a - z) + z) by ring. eapply Rle_trans; [apply Rabs_triang|]. assert (A * Rabs z <= / 100 * Rabs z) by (apply Rmult_le_compat_r; [apply Rabs_pos|lra]). lra. }
  pose proof (pnorm_acc F e He a (bofZ 0) (bofZ 1) C HF Fa F0 ltac:(split; auto; lra)) as P. rewrite Z0, Z1 in P.
  replace (B2R a - IZR 0) with (B2R a) in P by ring. replace (B2R a / IZR 1) with (B2R a) in P by field. specialize (P Ha Ha).
  rewrite Rplus_assoc. eapply within_tri; [exact P|]. replace B with (B / 1) by field. apply norm_trip; try lra. rewrite Rminus_0_r. auto.
Qed.
Lemma pinvgauss_acc x mu l : const_acc e (t_SQRT_2 F) (R_sqrt.sqrt 2) -> erf_acc F e -> exp_up_acc F e -> bfin x -> bfin mu -> bfin l ->
  / big <= B2R x <= big -> / big <= B2R mu <= big -> / big <= B2R l <= big ->
  let V := Rtrigo_def.exp (2 * B2R l / B2R mu) in let G := R_sqrt.sqrt (B2R l * B2R x) / B2R mu in e * (V + G) <= / 1000 ->
  within ((12 + 5 * G + 14 * V) * e) (pinvgauss (N:=NB) x mu l false) (invgauss_cdf (B2R mu) (B2R l) (B2R x)).
Proof.
  intros C HF HE Fx Fm Fl Bx Bm Bl V G HQ. pose proof ulp1_val as U. pose proof huge_1 as HG1. pose proof tiny_pos as T0. pose proof tiny_small as T1. pose proof tiny_ulp as T2. destruct He as [E1 E2].
  set (X := B2R x) in *. set (M := B2R mu) in *. set (L := B2R l) in *.
  assert (B0 : 0 < / big) by (apply Rinv_0_lt_compat; unfold big; apply bpow_gt_0).
  assert (IB : / big = bpow radix2 (-400)) by (unfold big; rewrite <- bpow_opp; reflexivity). rewrite IB in *. unfold big in Bx, Bm, Bl.
  assert (Ix : bpow radix2 (-400) <= / X <= bpow radix2 400) by (split; [apply (pow_inv 400)|apply (pow_invU (-400))]; lra).
  assert (Im : bpow radix2 (-400) <= / M <= bpow radix2 400) by (split; [apply (pow_inv 400)|apply (pow_invU (-400))]; lra).
  rewrite pinvgauss_fin by (split; auto; fold X M L; lra).
  set (S := R_sqrt.sqrt (L / X)). set (R := X / M). set (Y := 2 * L / M) in *.
  assert (GE : G = S * R). { unfold G, S, R. rewrite <- sqrt_lx by lra. field. lra. }
  assert (Y0 : 0 < Y) by (unfold Y; apply Rdiv_lt_0_compat; lra).
  assert (R0 : bpow radix2 (-800) <= R <= bpow radix2 800) by (unfold R, Rdiv; split; [apply (pow_prod (-400) (-400))|apply (pow_prodU 400 400)]; lra).
  assert (Q0 : bpow radix2 (-800) <= L / X <= bpow radix2 800) by (unfold Rdiv; split; [apply (pow_prod (-400) (-400))|apply (pow_prodU 400 400)]; lra).
  assert (Rp : 0 < R) by (pose proof (bpow_gt_0 radix2 (-800)); lra).
  assert (SQ : forall k, R_sqrt.sqrt (bpow radix2 (k + k)) = bpow radix2 k) by (intros k; rewrite bpow_plus; apply sqrt_square, bpow_ge_0).
  assert (S0 : bpow radix2 (-400) <= S <= bpow radix2 400).
  { unfold S. pose proof (bpow_gt_0 radix2 (-800)). split; [rewrite <- (SQ (-400)%Z)|rewrite <- (SQ 400%Z)]; apply sqrt_le_1; simpl (_ + _)%Z; try lra; apply bpow_ge_0. }
  assert (Sp : 0 < S) by (pose proof (bpow_gt_0 radix2 (-400)); lra).
  assert (V1 : 1 + Y <= V) by (unfold V; apply exp_ineq1_le).
  assert (G0 : 0 < G) by (rewrite GE; apply Rmult_lt_0_compat; auto).
  assert (EV : 0 < e * V /\ 0 < e * G) by (split; apply Rmult_lt_0_compat; lra).
  assert (UG : ulp1 * G <= e * G /\ ulp1 * V <= e * V /\ ulp1 * Y <= e * Y /\ e * Y <= e * V) by (repeat split; try (apply Rmult_le_compat_r; lra); apply Rmult_le_compat_l; lra).
  assert (UG0 : 0 < ulp1 * G) by (apply Rmult_lt_0_compat; lra).
  assert (VB : V <= bpow radix2 52 /\ G <= bpow radix2 52).
  { assert (ulp1 * bpow radix2 52 = 1) by (unfold ulp1; rewrite <- bpow_plus; reflexivity). split; apply (Rmult_le_reg_l ulp1); lra. }
  assert (Y64 : Y <= 64). { apply exp_64. fold V. eapply Rle_trans; [apply VB|apply bpow_le; lia]. }
  assert (BH : forall k, (k <= 990)%Z -> bpow radix2 k <= huge / 4). { intros k Hk. unfold huge. replace (bpow radix2 1000 / 4) with (bpow radix2 998) by (change 4 with (bpow radix2 2); unfold Rdiv; rewrite <- bpow_opp, <- bpow_plus; reflexivity). apply bpow_le. lia. }
  assert (SB : S <= huge / 16). { unfold huge. replace (bpow radix2 1000 / 16) with (bpow radix2 996) by (change 16 with (bpow radix2 4); unfold Rdiv; rewrite <- bpow_opp, <- bpow_plus; reflexivity). eapply Rle_trans; [apply S0|apply bpow_le; lia]. }
  assert (GB : G <= huge / 16). { unfold huge. replace (bpow radix2 1000 / 16) with (bpow radix2 996) by (change 16 with (bpow radix2 4); unfold Rdiv; rewrite <- bpow_opp, <- bpow_plus; reflexivity). eapply Rle_trans; [apply VB|apply bpow_le; lia]. }
  assert (X1 : forall a b r, (-900 <= a)%Z -> (b <= 900)%Z -> bpow radix2 a <= r <= bpow radix2 b -> mid r).
  { intros a b r Ha Hb [Hr1 Hr2]. apply mid_pos. split; [eapply Rle_trans; [apply bpow_le, Ha|exact Hr1]|eapply Rle_trans; [exact Hr2|apply bpow_le, Hb]]. }
  (* the two factors of the arguments *)
  assert (N1 : near (2 * ulp1) 0 (bdiv x mu) R) by (eapply near_le; [apply (ndiv 0 0); try (now apply near_exact); try lra; try (fold M; lra); apply (X1 (-800)%Z 800%Z); auto; lia|lra|lra]).
  assert (N2 : near (2 * ulp1) 0 (bdiv l x) (L / X)) by (eapply near_le; [apply (ndiv 0 0); try (now apply near_exact); try lra; try (fold X; lra); apply (X1 (-800)%Z 800%Z); auto; lia|lra|lra]).
  assert (N3 : near (3 * ulp1) 0 (Bsqrt mode_NE (bdiv l x)) S).
  { eapply near_le; [apply (sqrt_near e He (2 * ulp1)); [exact N2|lra|]|lra|lra]. destruct (X1 (-800)%Z 800%Z (L / X) ltac:(lia) ltac:(lia) Q0) as [Q1 Q2]. rewrite Rabs_pos_eq in Q1, Q2 by (pose proof (bpow_gt_0 radix2 (-800)); lra). split; auto. }
  destruct (bofZ_R 1 ltac:(sm)) as [Z1 F1].
  assert (RB : R <= huge / 4) by (eapply Rle_trans; [apply R0|apply BH; lia]).
  pose proof (near_within _ _ _ _ N1 ltac:(lra)) as [Fr Dr]. rewrite (Rabs_pos_eq R) in Dr by lra.
  set (r := bdiv x mu) in *. set (s := Bsqrt mode_NE (bdiv l x)) in *.
  assert (ur : 0 <= ulp1 * R) by (apply Rmult_le_pos; lra). assert (ur2 : ulp1 * R <= / 1000 * R) by (apply Rmult_le_compat_r; lra).
  assert (N4 : near ulp1 (21 / 10 * ulp1 * R) (bsub r (bofZ 1)) (R - 1)).
  { destruct (near_sub r (bofZ 1) Fr F1) as (Fd & t & s0 & T & S1 & Ed). { rewrite Z1. apply Rabs_le_inv in Dr. apply Rabs_le. lra. }
    split; auto. apply abs_le0 in S1. subst s0. exists t, ((B2R r - R) * Rtrigo_def.exp t). split; auto. split; [|rewrite Ed, Z1; ring].
    rewrite Rabs_mult. rewrite (Rabs_pos_eq (Rtrigo_def.exp t)) by apply Rlt_le, exp_pos. assert (Rtrigo_def.exp t <= 101 / 100) by (pose proof (exp_m1 t ulp1 T ltac:(lra)) as W; apply Rabs_le_inv in W; lra).
    apply Rle_trans with ((101 / 100 * (2 * ulp1) * R + 0) * (101 / 100)); [|lra]. apply Rmult_le_compat; try apply Rabs_pos; auto; apply Rlt_le, exp_pos. }
  assert (Z1B : Rabs (S * (R - 1)) <= G + S). { rewrite GE. replace (S * (R - 1)) with (S * R - S) by ring. assert (0 < S * R) by (rewrite <- GE; auto). apply Rabs_le. lra. }
  assert (N5 : near (5 * ulp1) (85 / 10 * (ulp1 * G) + tiny) (bmul s (bsub r (bofZ 1))) (S * (R - 1))).
  { rewrite bmul_comm, (Rmult_comm S). eapply near_le; [apply (near_mul ulp1 (21 / 10 * ulp1 * R) (3 * ulp1) (42 / 10 * (ulp1 * G))); [exact N4|exact N3|lra| | |]|lra|lra].
    - rewrite Rmult_comm. eapply Rle_trans; [exact Z1B|lra].
    - rewrite Rabs_pos_eq by lra. rewrite GE. right. field.
    - lra. }
  pose proof (near_within _ _ _ _ N5 ltac:(lra)) as [Fa Da].
  assert (W1 : within ((8 + 5 * G) * e) (pnorm (N:=NB) (bmul s (bsub r (bofZ 1))) (bofZ 0) (bofZ 1) false) (norm_cdf 0 1 (S * (R - 1)))).
  { eapply within_le; [apply (std_acc _ _ (101 / 100 * (5 * ulp1)) (85 / 10 * (ulp1 * G) + tiny) C HF Fa); try lra; exact Da|]. lra. }
  assert (N6 : near (3 * ulp1) 0 (badd r (bofZ 1)) (R + 1)).
  { eapply near_le; [apply (near_plus (2 * ulp1) 0 (2 * ulp1) 0); [exact N1|eapply near_le; [apply (near_Z 1); sm|lra|lra]|..]; lra|lra|lra]. }
  assert (ZE : - S * (R + 1) = - (G + S)) by (rewrite GE; ring).
  assert (N7 : near (8 * ulp1) 0 (bmul (Bopp s) (badd r (bofZ 1))) (- S * (R + 1))).
  { eapply near_le; [apply (nmul (3 * ulp1) (3 * ulp1)); [apply near_opp; exact N3|exact N6|lra|lra|lra|]|lra|lra].
    rewrite ZE. unfold mid. rewrite Rabs_Ropp, Rabs_pos_eq by lra. split; [|lra]. apply Rle_trans with (bpow radix2 (-400)); [unfold huge; rewrite <- bpow_opp; apply bpow_le; lia|lra]. }
  pose proof (near_within _ _ _ _ N7 ltac:(lra)) as [Fb Db].
  assert (W2 : within (9 * e) (pnorm (N:=NB) (bmul (Bopp s) (badd r (bofZ 1))) (bofZ 0) (bofZ 1) false) (norm_cdf 0 1 (- S * (R + 1)))).
  { eapply within_le; [apply (std_acc _ _ (101 / 100 * (8 * ulp1)) 0 C HF Fb); try lra; rewrite ZE, Rabs_Ropp, Rabs_pos_eq by lra; lra|]. lra. }
  (* the exponential *)
  assert (Y1 : mid (2 * L) /\ mid Y).
  { pose proof (bpow_gt_0 radix2 1) as B1. split; [apply (X1 (-399)%Z 401%Z)|apply (X1 (-799)%Z 801%Z)]; try lia.
    - change 2 with (bpow radix2 1). split; [apply (pow_prod 1 (-400))|apply (pow_prodU 1 400)]; lra.
    - unfold Y, Rdiv. change 2 with (bpow radix2 1). assert (bpow radix2 (-399) <= bpow radix2 1 * L <= bpow radix2 401) by (split; [apply (pow_prod 1 (-400))|apply (pow_prodU 1 400)]; lra).
      pose proof (bpow_gt_0 radix2 (-399)). split; [apply (pow_prod (-399) (-400))|apply (pow_prodU 401 400)]; lra. }
  assert (N8 : near (2 * ulp1) 0 (bmul (bofZ 2) l) (2 * L)) by (eapply near_le; [apply (nmul 0 0); [apply (near_Z 2); sm|now apply near_exact|lra|lra|lra|apply Y1]|lra|lra]).
  assert (N9 : near (4 * ulp1) 0 (bdiv (bmul (bofZ 2) l) mu) Y) by (eapply near_le; [apply (ndiv (2 * ulp1) 0); [exact N8|now apply near_exact|lra|lra|lra|fold M; lra|apply Y1]|lra|lra]).
  pose proof (near_within _ _ _ _ N9 ltac:(lra)) as [Fy Dy]. rewrite (Rabs_pos_eq Y) in Dy by lra. set (y := bdiv (bmul (bofZ 2) l) mu) in *.
  assert (uy : 0 < ulp1 * Y) by (apply Rmult_lt_0_compat; lra). assert (uy2 : ulp1 * Y <= ulp1 * 64) by (apply Rmult_le_compat_l; lra).
  assert (Hy : B2R y <= 610) by (apply Rabs_le_inv in Dy; lra).
  assert (N10 : near (e + 405 / 100 * (ulp1 * Y)) tiny (t_exp F y) V).
  { apply (B64AccDf.near_shift e (405 / 100 * (ulp1 * Y)) tiny _ _ (B2R y - Y)); [|lra]. unfold V. fold Y. rewrite <- exp_plus. replace (Y + (B2R y - Y)) with (B2R y) by ring. apply HE; auto. }
  pose proof (near_within _ _ _ _ N10 ltac:(lra)) as [Fv Dv]. rewrite (Rabs_pos_eq V) in Dv by lra. set (v := t_exp F y) in *.
  assert (CD : invgauss_cdf M L X = norm_cdf 0 1 (S * (R - 1)) + V * norm_cdf 0 1 (- S * (R + 1))) by reflexivity.
  assert (LT : invgauss_cdf M L X < 1) by (apply invgauss_cdf_lt1; lra).
  pose proof (norm_cdf_range 0 1 (S * (R - 1))) as P1. pose proof (norm_cdf_range 0 1 (- S * (R + 1))) as P2.
  set (p1 := norm_cdf 0 1 (S * (R - 1))) in *. set (p2 := norm_cdf 0 1 (- S * (R + 1))) in *.
  assert (VP : 0 < V * p2 < 1) by (split; [apply Rmult_lt_0_compat; lra|lra]).
  set (b1 := pnorm (N:=NB) (bmul s (bsub r (bofZ 1))) (bofZ 0) (bofZ 1) false) in *. set (b2 := pnorm (N:=NB) (bmul (Bopp s) (badd r (bofZ 1))) (bofZ 0) (bofZ 1) false) in *.
  assert (W3 : within ((14 * V + 11 / 10) * e) (bmul v b2) (V * p2)).
  { destruct W2 as [F2 D2]. set (k := e + 405 / 100 * (ulp1 * Y)) in *. assert (K : 0 < k <= / 200) by (unfold k; lra).
    assert (D3 : Rabs (B2R v * B2R b2 - V * p2) <= 101 / 100 * k * (1 + 9 * (e * V)) + 2 * tiny + 9 * (e * V)).
    { replace (B2R v * B2R b2 - V * p2) with ((B2R v - V) * B2R b2 + V * (B2R b2 - p2)) by ring. eapply Rle_trans; [apply Rabs_triang|]. rewrite !Rabs_mult, (Rabs_pos_eq V) by lra.
      assert (A1 : V * Rabs (B2R b2 - p2) <= 9 * (e * V)) by (replace (9 * (e * V)) with (V * (9 * e)) by ring; apply Rmult_le_compat_l; lra).
      assert (A2 : Rabs (B2R b2) <= p2 + 9 * e) by (apply Rabs_le_inv in D2; apply Rabs_le; lra).
      assert (A3 : Rabs (B2R v - V) * Rabs (B2R b2) <= (101 / 100 * k * V + tiny) * (p2 + 9 * e)) by (apply Rmult_le_compat; auto; apply Rabs_pos).
      assert (A4 : k * (V * p2) <= k * 1) by (apply Rmult_le_compat_l; lra). assert (A5 : tiny * (p2 + 9 * e) <= tiny * 2) by (apply Rmult_le_compat_l; lra).
      replace ((101 / 100 * k * V + tiny) * (p2 + 9 * e)) with (101 / 100 * (k * (V * p2)) + 101 / 100 * k * (9 * (e * V)) + tiny * (p2 + 9 * e)) in A3 by ring. lra. }
    assert (KV : k * (9 * (e * V)) <= k * (9 / 1000)) by (apply Rmult_le_compat_l; lra).
    assert (D4 : Rabs (B2R v * B2R b2 - V * p2) <= 102 / 100 * k + 2 * tiny + 9 * (e * V)) by lra.
    assert (M4 : Rabs (B2R v * B2R b2) <= 103 / 100). { apply Rabs_le_inv in D4. apply Rabs_le. unfold k in *. lra. }
    pose proof (near_mul0 v b2 Fv F2 ltac:(lra)) as N11. apply near_within in N11; [|lra]. destruct N11 as [F3 D5]. split; auto.
    replace (B2R (bmul v b2) - V * p2) with ((B2R (bmul v b2) - B2R v * B2R b2) + (B2R v * B2R b2 - V * p2)) by ring. eapply Rle_trans; [apply Rabs_triang|].
    assert (A6 : ulp1 * Rabs (B2R v * B2R b2) <= ulp1 * (103 / 100)) by (apply Rmult_le_compat_l; lra). pose proof tiny_ulp. assert (e * (1 + Y) <= e * V) by (apply Rmult_le_compat_l; lra). unfold k in *. lra. }
  rewrite CD. eapply within_le; [apply (within_add _ _ _ _ _ _ 1 W1 W3); try lra; rewrite Rabs_pos_eq; lra|]. lra.
Qed.
End IG.

(** mu = 1, lambda = 36, x = 1: the second term is lost, although it is more than 7/1000 *)
Notation NR := (B64_Num TFR).
Lemma erf_low_h z h : 0 <= z -> 0 <= h -> h * Rtrigo_def.exp (- (z + h) ^ 2) <= 1 - erfR z.
Proof.
  intros Hz Hh. pose proof (erfR_range (z + h)).
  assert (C : 1 <= 2 / R_sqrt.sqrt Rtrigo1.PI).
  { pose proof sqrt_PI_ge. assert (R_sqrt.sqrt Rtrigo1.PI <= 2). { pose proof PI_4. pose proof PI_RGT_0. rewrite <- (sqrt_Rsqr 2) by lra. apply sqrt_le_1; unfold Rsqr; lra. }
    apply (Rmult_le_reg_r (R_sqrt.sqrt Rtrigo1.PI)); [lra|]. unfold Rdiv. rewrite Rmult_assoc, Rinv_l by lra. lra. }
  destruct (MVT_gen erfR z (z + h) (fun x => 2 / R_sqrt.sqrt Rtrigo1.PI * Rtrigo_def.exp (- x ^ 2))) as (x & Hx & E).
  - intros x _. apply erfR_derive.
  - intros x _. apply erfR_cont.
  - rewrite Rmin_left, Rmax_right in Hx by lra. assert (D : Rtrigo_def.exp (- (z + h) ^ 2) <= Rtrigo_def.exp (- x ^ 2)) by (apply exp_le; assert (x ^ 2 <= (z + h) ^ 2) by (apply pow_incr; lra); lra).
    pose proof (exp_pos (- x ^ 2)) as P. pose proof (exp_pos (- (z + h) ^ 2)) as P'. replace (z + h - z) with h in E by ring.
    assert (A : 1 * Rtrigo_def.exp (- (z + h) ^ 2) <= 2 / R_sqrt.sqrt Rtrigo1.PI * Rtrigo_def.exp (- x ^ 2)) by (apply Rmult_le_compat; lra).
    apply (Rmult_le_compat_r h) in A; [|lra]. lra.
Qed.
Lemma invgauss_36 : 1 / 2 + 7 / 1000 <= invgauss_cdf 1 36 1.
Proof.
  unfold invgauss_cdf. replace (R_sqrt.sqrt (36 / 1)) with 6 by (replace (36 / 1) with (6 * 6) by lra; rewrite sqrt_square; lra).
  replace (6 * (1 / 1 - 1)) with 0 by field. replace (- (6) * (1 / 1 + 1)) with (-12) by field. replace (2 * 36 / 1) with 72 by field.
  unfold norm_cdf. replace ((0 - 0) / (R_sqrt.sqrt 2 * 1)) with 0 by (unfold Rdiv; ring). rewrite erfR_0. pose proof sqrt2_b as Q.
  replace ((-12 - 0) / (R_sqrt.sqrt 2 * 1)) with (- (12 / R_sqrt.sqrt 2)) by (field; lra). rewrite erfR_odd.
  assert (D : 0 <= 12 / R_sqrt.sqrt 2 <= 852 / 100). { split; [apply Rle_mult_inv_pos; lra|]. apply (Rmult_le_reg_r (R_sqrt.sqrt 2)); [lra|]. unfold Rdiv at 1. rewrite Rmult_assoc, Rinv_l; lra. }
  assert (ZZ : (12 / R_sqrt.sqrt 2) ^ 2 = 72). { replace ((12 / R_sqrt.sqrt 2) ^ 2) with (144 / (R_sqrt.sqrt 2 * R_sqrt.sqrt 2)) by (field; lra). rewrite sqrt_sqrt; lra. }
  set (z := 12 / R_sqrt.sqrt 2) in *. pose proof (erf_low_h z (/ 36) ltac:(lra) ltac:(lra)) as L. replace (- (z + / 36) ^ 2) with (- (72) + - (2 * z * / 36 + / 36 ^ 2)) in L by (rewrite <- ZZ; field).
  rewrite exp_plus in L. set (w := 2 * z * / 36 + / 36 ^ 2) in *. assert (W : w <= 475 / 1000) by (unfold w; lra). pose proof (exp_ineq1_le (- w)) as X.
  assert (K : Rtrigo_def.exp 72 * Rtrigo_def.exp (- (72)) = 1) by (rewrite <- exp_plus, Rplus_opp_r; apply exp_0). pose proof (exp_pos 72) as P.
  apply (Rmult_le_compat_l (Rtrigo_def.exp 72)) in L; [|lra].
  replace (Rtrigo_def.exp 72 * (/ 36 * (Rtrigo_def.exp (- (72)) * Rtrigo_def.exp (- w)))) with (Rtrigo_def.exp 72 * Rtrigo_def.exp (- (72)) * (/ 36 * Rtrigo_def.exp (- w))) in L by ring. rewrite K in L. lra.
Qed.
Lemma pinvgauss_lost : B2R (pinvgauss (N:=NR) (bofZ 1) (bofZ 1) (bofZ 36) false) <= 1 / 2 + / 1000.
Proof.
  destruct (bofZ_R 1 ltac:(sm)) as [Z1 F1]. destruct (bofZ_R 36 ltac:(sm)) as [Z36 F36]. destruct (bofZ_R 0 ltac:(sm)) as [Z0 F0]. pose proof ulp1_val as U. pose proof huge_1. pose proof tiny_pos. pose proof tiny_small.
  rewrite pinvgauss_fin by (split; auto; lra).
  replace (bmul (Bsqrt mode_NE (bdiv (bofZ 36) (bofZ 1))) (bsub (bdiv (bofZ 1) (bofZ 1)) (bofZ 1))) with (bofZ 0) by (apply b64_eq; vm_compute; reflexivity).
  replace (bmul (Bopp (Bsqrt mode_NE (bdiv (bofZ 36) (bofZ 1)))) (badd (bdiv (bofZ 1) (bofZ 1)) (bofZ 1))) with (bofZ (-12)) by (apply b64_eq; vm_compute; reflexivity).
  replace (bdiv (bmul (bofZ 2) (bofZ 36)) (bofZ 1)) with (bofZ 72) by (apply b64_eq; vm_compute; reflexivity).
  pose proof (pnorm_acc TFR e2 e2_ok (bofZ 0) (bofZ 0) (bofZ 1) TFR_SQRT_2_acc TFR_erf_acc F0 F0 ltac:(split; auto; lra)) as W. rewrite Z0, Z1 in W.
  destruct W as [Fp Dp]; [rewrite Rminus_0_r, Rabs_R0; lra|unfold Rdiv; rewrite Rminus_0_r, Rmult_0_l, Rabs_R0; lra|].
  unfold norm_cdf in Dp. replace ((0 - 0) / (R_sqrt.sqrt 2 * 1)) with 0 in Dp by (unfold Rdiv; ring). rewrite erfR_0 in Dp. apply Rabs_le_inv in Dp. unfold e2 in Dp.
  destruct pnorm_tail_zero as [T0 _].
  set (b := pnorm (N:=NR) (bofZ (-12)) (bofZ 0) (bofZ 1) false) in *. set (a := pnorm (N:=NR) (bofZ 0) (bofZ 0) (bofZ 1) false) in *.
  assert (Fb : bfin b).
  { destruct (bofZ_R (-12) ltac:(sm)) as [Z12 F12]. pose proof (pnorm_acc TFR e2 e2_ok (bofZ (-12)) (bofZ 0) (bofZ 1) TFR_SQRT_2_acc TFR_erf_acc F12 F0 ltac:(split; auto; lra)) as W. rewrite Z0, Z1, Z12 in W.
    apply W; apply Rabs_le; lra. }
  destruct (bofZ_R 72 ltac:(sm)) as [Z72 F72]. destruct (TFR_exp_up_acc (bofZ 72) F72 ltac:(rewrite Z72; lra)) as [Fv _].
  set (v := t_exp TFR (bofZ 72)) in *.
  destruct (bmul_R v b Fv Fb) as [Em Fm]; [apply rnd_bound; rewrite T0, Rmult_0_r, Rabs_R0; lra|]. rewrite T0, Rmult_0_r, rnd_0 in Em.
  pose proof (near_add a (bmul v b) Fp Fm) as N. rewrite Em, Rplus_0_r in N. specialize (N ltac:(apply Rabs_le; lra)). apply near_within in N; [|lra]. destruct N as [_ D].
  assert (ulp1 * Rabs (B2R a) <= ulp1 * 1) by (apply Rmult_le_compat_l; [lra|apply Rabs_le; lra]). apply Rabs_le_inv in D. lra.
Qed.
Lemma pinvgauss_refuted : exists x mu l : b64, positive x /\ positive mu /\ positive l /\ ~ within (/ 200) (pinvgauss (N:=NR) x mu l false) (invgauss_cdf (B2R mu) (B2R l) (B2R x)).
Proof.
  destruct (bofZ_R 1 ltac:(sm)) as [Z1 F1]. destruct (bofZ_R 36 ltac:(sm)) as [Z36 F36].
  exists (bofZ 1), (bofZ 1), (bofZ 36). repeat split; auto; try lra. rewrite Z1, Z36. intros [_ D]. pose proof invgauss_36. pose proof pinvgauss_lost. apply Rabs_le_inv in D. lra.
Qed.
