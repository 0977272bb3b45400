(** Accuracy of the distribution functions in binary64: the families with a relative error bound, and the Laplace family. *)
From Coq Require Import ZArith QArith Reals Bool Lra Lia.
From Verif Require Import RealElem RealAcc Erf GammaFn BetaFn NormR Spec SpecSF.
From Verif Require Import Num Sanity Prob B64 B64R B64Ord SpecB64 SpecAcc B64Cdf B64Cdf2 B64Cdf3 B64Acc B64AccCdf.
From Flocq Require Import Core IEEE754.BinarySingleNaN.
Local Open Scope R_scope.

Lemma half_sgn k : (k = 1 \/ k = 0 \/ k = -1)%Z -> finite (bmul (blit (1#2)) (bofZ k)) /\ B2R (bmul (blit (1#2)) (bofZ k)) = / 2 * IZR k.
Proof.
  intros Hk. destruct half_R as [Hf Hr]. assert (Hz : (Z.abs k <= 2 ^ 53)%Z) by (destruct Hk as [->|[->| ->]]; cbn; lia).
  destruct (bofZ_R k Hz) as [A B]. pose proof huge_1.
  assert (B3 : Rabs (IZR k) <= 1) by (destruct Hk as [->|[->| ->]]; rewrite <- abs_IZR; apply IZR_le; cbn; lia).
  destruct (bmul_R (blit (1#2)) (bofZ k) Hf B) as [E G].
  { apply rnd_bound. rewrite Hr, A, Rabs_mult, (Rabs_pos_eq (/ 2)) by lra. lra. }
  split; auto. rewrite E, Hr, A. replace (/ 2 * IZR k) with (IZR k * bpow radix2 (-1)) by (cbn; lra). apply rnd_dyadic; lia.
Qed.
Lemma Bpos_R x : bfin x -> 0 < B2R x -> bpos x. Proof. split; auto. Qed.

Section A2.
Variable F : TF.
Notation NB := (B64_Num F).
Variable e : R.
Hypothesis He : unit_ok e.
Local Notation e_pos := (e_pos e He).

(** *** Laplace *)
Lemma plaplace_fin x mu sigma : bfin x -> bfin mu -> bpos sigma ->
  plaplace (N:=NB) x mu sigma false = badd (blit (1#2)) (bmul (bmul (blit (1#2)) (bofZ (sgn (N:=NB) (bsub x mu)))) (bsub (bofZ 1) (t_exp F (bdiv (Bopp (Babs (bsub x mu))) sigma)))).
Proof.
  intros Fx Fm Ps. unfold plaplace, laplace_sanity3. change (laplace_sanity2 (N:=NB) mu sigma) with (norm_sanity2 (N:=NB) mu sigma). rewrite ls_sanity, (nan_nn F x) by (auto; now apply nn_fin). cbn [negb andb].
  unfold any_inf3. rewrite !inf_fin by (auto; apply Ps). cbn [orb]. change (eqb sigma (ofZ 0)) with (Beqb sigma (bofZ 0)). rewrite eq0_f by auto. reflexivity.
Qed.
Lemma near_abs k h y r : near k h y r -> near k h (Babs y) (Rabs r).
Proof.
  intros (Fy & t & s & T & S & E). split; [unfold finite; now rewrite is_finite_Babs|]. rewrite B2R_Babs, E. exists t.
  exists (Rabs (r * exp t + s) - Rabs r * exp t). split; auto. split; [|ring].
  replace (Rabs r * exp t) with (Rabs (r * exp t)) by (rewrite Rabs_mult, (Rabs_pos_eq (exp t)); auto; left; apply exp_pos).
  eapply Rle_trans; [apply Rabs_triang_inv2|]. replace (r * exp t + s - r * exp t) with s by ring. auto.
Qed.
Lemma plaplace_acc x mu sigma : exp_acc F e -> bfin x -> bfin mu -> bpos sigma ->
  Rabs (B2R x - B2R mu) <= huge -> Rabs ((B2R x - B2R mu) / B2R sigma) <= huge ->
  within (8 * e) (plaplace (N:=NB) x mu sigma false) (laplace_cdf (B2R mu) (B2R sigma) (B2R x)).
Proof.
  intros HF Fx Fm Ps H1 H2. rewrite plaplace_fin by auto. pose proof e_pos as (E1 & E2 & E3). pose proof tiny_pos. pose proof He as [_ Hb]. pose proof huge_1. pose proof ulp1_val.
  pose proof (near_sub x mu Fx Fm ltac:(lra)) as N0. pose proof Ps as [Fs Ps'].
  assert (Sg : (sgn (N:=NB) (bsub x mu) = 1 \/ sgn (N:=NB) (bsub x mu) = 0 \/ sgn (N:=NB) (bsub x mu) = -1)%Z /\ IZR (sgn (N:=NB) (bsub x mu)) = Rsign (B2R x - B2R mu)).
  { destruct N0 as (Fz & t & s & T & S & E). apply abs_le0 in S. subst s. rewrite Rplus_0_r in E. pose proof (exp_pos t).
    pose proof (sgn_cases F (bsub x mu) (nn_fin _ Fz)) as C. rewrite ev_fin, E in C by auto. unfold Rsign.
    destruct C as [[-> C]|[[-> C]|[-> C]]]; (split; [auto|]); repeat destruct Rlt_dec; try reflexivity; exfalso; nra. }
  destruct Sg as [Sg1 Sg2]. set (k := sgn (N:=NB) (bsub x mu)) in *. destruct (half_sgn k Sg1) as [Fh Vh].
  pose proof (near_opp _ _ _ _ (near_abs _ _ _ _ N0)) as N1.
  set (y := Rabs (B2R x - B2R mu) / B2R sigma).
  assert (Y : 0 <= y <= huge).
  { unfold y. split; [apply Rle_mult_inv_pos; [apply Rabs_pos|auto]|]. eapply Rle_trans; [|exact H2]. unfold Rdiv. rewrite Rabs_mult, (Rabs_pos_eq (/ B2R sigma)); [lra|]. left. now apply Rinv_0_lt_compat. }
  assert (Ey : - Rabs (B2R x - B2R mu) / B2R sigma = - y) by (unfold y; field; lra).
  assert (N2 : near (2 * ulp1) tiny (bdiv (Bopp (Babs (bsub x mu))) sigma) (- y)).
  { pose proof (near_div ulp1 0 0 0 _ _ _ _ N1 (near_exact sigma Fs) ltac:(lra) ltac:(lra)) as N2. rewrite Ey in N2.
    eapply near_le; [apply N2|lra|lra]; [rewrite Rabs_Ropp, Rabs_pos_eq; lra|unfold Rdiv; lra|lra]. }
  destruct (lap_arg sigma (bsub x mu) Ps (nn_fin _ (proj1 N0))) as (_ & Wn & _).
  rewrite ev_fin in Wn by apply N2.
  pose proof (lib_within e 1 _ _ (/ 2) 2 (t_exp F) exp nonpos _ _ HF N2 Wn E1 ltac:(lra) ltac:(lra)) as W.
  assert (W1 : within (3 * e) (t_exp F (bdiv (Bopp (Babs (bsub x mu))) sigma)) (exp (- y))).
  { eapply within_le; [apply W|lra].
    - intros t s T S. apply cond_exp; lra.
    - pose proof (exp_np _ Wn). rewrite Rabs_pos_eq; lra. }
  pose proof (exp_np (- y) ltac:(lra)) as Xy.
  assert (W2 : within (6 * e) (bsub (bofZ 1) (t_exp F (bdiv (Bopp (Babs (bsub x mu))) sigma))) (1 - exp (- y))).
  { eapply within_le; [apply (within_sub 0 (3 * e) _ _ 1 _ 1 (within_Z 1 ltac:(sm)) W1); try lra; rewrite Rabs_pos_eq; lra|lra]. }
  assert (B3 : Rabs (IZR k) <= 1) by (destruct Sg1 as [->|[->| ->]]; rewrite <- abs_IZR; apply IZR_le; cbn; lia).
  assert (Bh : Rabs (/ 2 * IZR k) <= / 2) by (rewrite Rabs_mult, (Rabs_pos_eq (/ 2)) by lra; lra).
  assert (B4 : Rabs (/ 2 * IZR k * (1 - exp (- y))) <= / 2).
  { rewrite Rabs_mult, (Rabs_pos_eq (1 - _)) by lra. pose proof (Rabs_pos (/ 2 * IZR k)). nra. }
  assert (W3 : within (5 * e) (bmul (bmul (blit (1#2)) (bofZ k)) (bsub (bofZ 1) (t_exp F (bdiv (Bopp (Babs (bsub x mu))) sigma)))) (/ 2 * IZR k * (1 - exp (- y)))).
  { rewrite <- Vh in *. eapply within_le; [apply (within_mulc (6 * e) _ _ _ (/ 2) W2 Fh); try lra; nra|]. nra. }
  unfold laplace_cdf. fold y. rewrite Ey, <- Sg2. replace (1 / 2 + 1 / 2 * IZR k * (1 - exp (- y))) with (/ 2 + / 2 * IZR k * (1 - exp (- y))) by lra.
  eapply within_le; [apply (within_add 0 (5 * e) _ _ _ _ 1 half_within W3); try lra|lra].
  apply Rabs_le. apply Rabs_le_inv in B4. lra.
Qed.

(** *** uniform *)
Lemma punif_acc x a b : bfin x -> bfin a -> bfin b -> B2R a < B2R x < B2R b -> B2R b - B2R a <= huge ->
  near (3 * ulp1) tiny (punif (N:=NB) x a b false) (unif_cdf (B2R a) (B2R b) (B2R x)).
Proof.
  intros Fx Fa Fb [H1 H2] H. pose proof ulp1_val. pose proof huge_1. pose proof tiny_pos.
  assert (S : punif (N:=NB) x a b false = bdiv (bsub x a) (bsub b a)).
  { unfold punif, unif_sanity3, unif_sanity2, any_nan2. rewrite (nan_nn F x), (nan_nn F a), (nan_nn F b) by (auto; now apply nn_fin).
    change (leb b a) with (Bleb b a). rewrite (proj2 (bleb_R_f b a Fb Fa)) by lra. cbn [orb negb andb].
    unfold all_inf2. rewrite inf_fin by auto. cbn [andb log_if]. unfold punif_compute.
    change (leb x a) with (Bleb x a). change (leb b x) with (Bleb b x). rewrite (proj2 (bleb_R_f x a Fx Fa)) by lra. rewrite (proj2 (bleb_R_f b x Fb Fx)) by lra. reflexivity. }
  rewrite S. unfold unif_cdf.
  assert (Q : 0 <= (B2R x - B2R a) / (B2R b - B2R a) <= 1).
  { split; [apply Rle_mult_inv_pos; lra|]. apply (Rmult_le_reg_r (B2R b - B2R a)); [lra|]. unfold Rdiv. rewrite Rmult_assoc, Rinv_l by lra. lra. }
  pose proof (near_sub x a Fx Fa ltac:(rewrite Rabs_pos_eq; lra)) as N1. pose proof (near_sub b a Fb Fa ltac:(rewrite Rabs_pos_eq; lra)) as N2.
  pose proof (near_div ulp1 0 ulp1 0 _ _ _ _ N1 N2 ltac:(lra) ltac:(lra) ltac:(rewrite Rabs_pos_eq; lra) ltac:(unfold Rdiv; lra) ltac:(lra)) as N3.
  eapply near_le; [exact N3|lra|lra].
Qed.

(** *** minus expm1 of an approximation *)
Lemma expm1_near k h v p : expm1_acc F e -> near k h v (- p) -> 0 <= p -> B2R v <= 0 -> 0 <= k <= / 200 -> 0 <= h <= / 100 ->
  near (e + k) (3 * h + tiny) (Bopp (t_expm1 F v)) (1 - exp (- p)).
Proof.
  intros HF (Fv & t & s & T & S & E) Hp Hv Hk Hh. pose proof e_pos as (E1 & E2 & E3). pose proof tiny_pos.
  destruct (HF v Fv Hv) as (Fw & t2 & s2 & T2 & S2 & E4). split; [unfold finite; now rewrite is_finite_Bopp|]. rewrite B2R_Bopp, E4.
  pose proof (exp_pos t2) as P2. pose proof (exp_2 t2 e T2 ltac:(lra)) as X2.
  destruct (cond_expm1 p t Hp) as (u & U & EU).
  set (d := exp (B2R v) - exp (- (p * exp t))).
  assert (D : Rabs d <= 3 / 2 * h).
  { unfold d. replace (B2R v) with (- (p * exp t) + s) by (rewrite E; ring). rewrite exp_plus.
    replace (exp (- (p * exp t)) * exp s - exp (- (p * exp t))) with (exp (- (p * exp t)) * (exp s - 1)) by ring. rewrite Rabs_mult.
    pose proof (exp_pos t). pose proof (exp_np (- (p * exp t)) ltac:(nra)) as Y. rewrite (Rabs_pos_eq (exp (- _))) by lra.
    pose proof (exp_abs s h S) as A. assert (B : exp h - 1 <= 3 / 2 * h).
    { assert (Q : exp h <= / (1 - h)). { pose proof (exp_ineq1_le (- h)) as Q. rewrite exp_Ropp in Q. rewrite <- (Rinv_inv (exp h)). apply Rinv_le_contravar; lra. }
      assert (/ (1 - h) <= 1 + 3 / 2 * h); [|lra]. apply (Rmult_le_reg_r (1 - h)); [lra|]. rewrite Rinv_l by lra. nra. }
    pose proof (Rabs_pos (exp s - 1)). nra. }
  exists (u + t2), (- d * exp t2 - s2). split; [|split].
  - replace (e + k) with (k + e) by ring. apply abs_sum; auto. lra.
  - eapply Rle_trans; [apply abs_tri3|]. rewrite Rabs_mult, Rabs_Ropp, (Rabs_pos_eq (exp t2)) by lra. pose proof (Rabs_pos d). nra.
  - rewrite exp_plus, <- Rmult_assoc, <- EU. unfold d. ring.
Qed.
(** *** exponential *)
Lemma pexp_acc x rate : expm1_acc F e -> bfin x -> 0 < B2R x -> bpos rate -> B2R rate * B2R x <= huge ->
  near (2 * e) (4 * tiny) (pexp (N:=NB) x rate false) (exp_cdf (B2R rate) (B2R x)).
Proof.
  intros HF Fx Px Pr H. pose proof e_pos as (E1 & E2 & E3). pose proof tiny_pos. pose proof huge_1. pose proof ulp1_val. pose proof He as [_ Hb]. pose proof Pr as [Fr Pr'].
  assert (S : pexp (N:=NB) x rate false = Bopp (t_expm1 F (bmul (Bopp rate) x))).
  { unfold pexp, exp_sanity2, exp_sanity1. rewrite (nan_nn F x), (nan_nn F rate) by (auto; now apply nn_fin).
    change (ltb rate (ofZ 0)) with (Bltb rate (bofZ 0)). rewrite lt0_f by (auto; lra). cbn [negb andb log_if].
    unfold pexp_compute. rewrite posinf_fin by auto. change (leb x (ofZ 0)) with (Bleb x (bofZ 0)). destruct (bofZ_R 0 ltac:(sm)) as [Z0 Zf].
    rewrite (proj2 (bleb_R_f x (bofZ 0) Fx Zf)) by lra. reflexivity. }
  rewrite S. unfold exp_cdf. rewrite Ropp_mult_distr_l_reverse.
  assert (Fo : bfin (Bopp rate)) by (now rewrite is_finite_Bopp).
  assert (N : near ulp1 tiny (bmul (Bopp rate) x) (- (B2R rate * B2R x))).
  { replace (- (B2R rate * B2R x)) with (B2R (Bopp rate) * B2R x) by (rewrite B2R_Bopp; ring). apply near_mul0; auto.
    rewrite B2R_Bopp, Rabs_mult, Rabs_Ropp, !Rabs_pos_eq by lra. lra. }
  eapply near_le; [apply (expm1_near ulp1 tiny _ _ HF N); try lra; try nra|lra|lra].
  destruct (neg_mul rate x Pr (nn_fin _ Fx)) as [A B]; [now rewrite ev_fin|]. rewrite ev_fin in B by apply N. auto.
Qed.
End A2.
