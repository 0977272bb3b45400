(** Magnitudes of binary64 expressions: which sums and products stay finite, and which never become
    NaN. *)
From Coq Require Import ZArith QArith Reals Bool Lra Lia.
From Verif Require Import Num Sanity Prob B64 B64R B64Ord SpecB64 B64Cdf SpecB64D.
From Flocq Require Import Core IEEE754.BinarySingleNaN.
Local Open Scope R_scope.

Definition bmg (k : Z) (x : b64) : Prop := bfin x /\ Rabs (B2R x) <= bpow radix2 k.
Lemma bmg_fin k x : bmg k x -> bfin x. Proof. now intros []. Qed.
Lemma bmg_nn k x : bmg k x -> nn x. Proof. intros []. now apply nn_fin. Qed.
Lemma bmg_le j k x : (j <= k)%Z -> bmg j x -> bmg k x.
Proof. intros H [F A]. split; auto. apply Rle_trans with (1 := A). now apply bpow_le. Qed.
Lemma rnd_bpow k : (-1074 <= k)%Z -> rnd (bpow radix2 k) = bpow radix2 k.
Proof. intros H. pose proof (rnd_dyadic 1 k ltac:(cbn; lia) H) as Q. now rewrite Rmult_1_l in Q. Qed.
Lemma rc_bmg r k : (-1074 <= k < 1024)%Z -> Rabs r <= bpow radix2 k -> Rabs (rc r) <= bpow radix2 k /\ Rabs (rc r) < maxR.
Proof.
  intros H A. assert (L : bpow radix2 k < maxR) by (apply bpow_lt; lia).
  assert (K : rc (bpow radix2 k) = bpow radix2 k).
  { rewrite rc_in; rewrite rnd_bpow; auto; try lia. rewrite Rabs_pos_eq; auto. apply bpow_ge_0. }
  assert (K' : rc (- bpow radix2 k) = - bpow radix2 k).
  { assert (Q : rnd (- bpow radix2 k) = - bpow radix2 k).
    { pose proof (rnd_dyadic (-1) k ltac:(cbn; lia) ltac:(lia)) as Q. replace (-1 * bpow radix2 k) with (- bpow radix2 k) in Q by ring. exact Q. }
    rewrite rc_in; rewrite Q; auto. rewrite Rabs_Ropp, Rabs_pos_eq; auto. apply bpow_ge_0. }
  apply Rabs_le_inv in A. assert (B : - bpow radix2 k <= rc r <= bpow radix2 k).
  { rewrite <- K' at 1. rewrite <- K at 2. split; apply rc_mono; lra. }
  apply Rabs_le in B. split; lra.
Qed.
Lemma bmg_of x k r : nn x -> ev x = rc r -> (-1074 <= k < 1024)%Z -> Rabs r <= bpow radix2 k -> bmg k x.
Proof.
  intros N E H A. destruct (rc_bmg r k H A) as [U V]. rewrite <- E in *. apply Rabs_def2 in V.
  assert (F : bfin x) by (apply ev_lt_fin; auto; lra). split; auto. now rewrite <- ev_fin.
Qed.
Lemma bmg_add k x y : (-1074 <= k < 1023)%Z -> bmg k x -> bmg k y -> bmg (k + 1) (badd x y).
Proof.
  intros H [Fx Ax] [Fy Ay]. destruct (add_ff x y Fx Fy) as [N E]. apply bmg_of with (r := B2R x + B2R y); auto; try lia.
  rewrite bpow_plus_1. apply Rle_trans with (1 := Rabs_triang _ _). change (IZR radix2) with 2. lra.
Qed.
Lemma bmg_sub k x y : (-1074 <= k < 1023)%Z -> bmg k x -> bmg k y -> bmg (k + 1) (bsub x y).
Proof.
  intros H [Fx Ax] [Fy Ay]. destruct (sub_ff x y Fx Fy) as [N E]. apply bmg_of with (r := B2R x - B2R y); auto; try lia.
  rewrite bpow_plus_1. change (IZR radix2) with 2. unfold Rminus. apply Rle_trans with (1 := Rabs_triang _ _). rewrite Rabs_Ropp. lra.
Qed.
Lemma bmg_mul j k x y : (-1074 <= j + k < 1024)%Z -> bmg j x -> bmg k y -> bmg (j + k) (bmul x y).
Proof.
  intros H [Fx Ax] [Fy Ay]. destruct (mul_ff x y Fx Fy) as [N E]. apply bmg_of with (r := B2R x * B2R y); auto.
  rewrite Rabs_mult, bpow_plus. apply Rmult_le_compat; auto using Rabs_pos.
Qed.
Lemma bmg_opp k x : bmg k x -> bmg k (Bopp x).
Proof.
  intros [F A]. destruct (opp_ev x (nn_fin _ F)) as [N E]. pose proof (fin_lt x F). rewrite (ev_fin x F) in *.
  assert (F' : bfin (Bopp x)) by (apply ev_lt_fin; auto; lra). split; auto. rewrite <- ev_fin, E, Rabs_Ropp; auto.
Qed.
Lemma bmg_Z m k : (Z.abs m <= 2 ^ 53)%Z -> IZR (Z.abs m) <= bpow radix2 k -> bmg k (bofZ m).
Proof. intros H A. destruct (bofZ_R m H) as [E F]. split; auto. now rewrite E, <- abs_IZR. Qed.
Lemma bmg_half : bmg (-1) (blit (1#2)).
Proof. destruct half_R as [F E]. split; auto. rewrite E. rewrite Rabs_pos_eq by lra. cbn. lra. Qed.
Lemma bmg_half_l k x : (-1073 <= k < 1024)%Z -> bmg k x -> bmg (k - 1) (bmul (blit (1#2)) x).
Proof. intros H M. replace (k - 1)%Z with (-1 + k)%Z by lia. apply bmg_mul; auto; try lia. apply bmg_half. Qed.
Lemma bmg_half_div k x : (-1073 <= k < 1024)%Z -> bmg k x -> bmg (k - 1) (bdiv x (bofZ 2)).
Proof.
  intros H [F A]. destruct (bofZ_R 2 ltac:(sm)) as [E2 F2]. destruct (div_ff x (bofZ 2) F F2 ltac:(rewrite E2; lra)) as [N E].
  apply bmg_of with (r := B2R x / B2R (bofZ 2)); auto; try lia. rewrite E2. unfold Rdiv. rewrite Rabs_mult, (Rabs_pos_eq (/ 2)) by lra.
  unfold Z.sub. rewrite bpow_plus. change (bpow radix2 (- (1))) with (/ 2). lra.
Qed.
(** signs and absence of NaN *)
Lemma ge0_of x r : ev x = rc r -> 0 <= r -> 0 <= ev x.
Proof. intros -> H. rewrite <- rc_0. now apply rc_mono. Qed.
Lemma le0_of x r : ev x = rc r -> r <= 0 -> ev x <= 0.
Proof. intros -> H. rewrite <- rc_0. now apply rc_mono. Qed.
Lemma sq_ev x : nn x -> nn (bmul x x) /\ ev (bmul x x) = if is_finite x then rc (B2R x * B2R x) else maxR.
Proof.
  intros N. destruct (nn_cases x N) as [F | [-> | ->]]; [|split; reflexivity|split; reflexivity].
  rewrite (F : is_finite x = true). now apply mul_ff.
Qed.
Lemma sq_ge0 x : nn x -> 0 <= ev (bmul x x).
Proof.
  intros N. destruct (sq_ev x N) as [_ E]. rewrite E. pose proof maxR_pos. destruct (is_finite x); [|lra]. rewrite <- rc_0. apply rc_mono, Rle_0_sqr.
Qed.
(** the square is monotone in the absolute value *)
Lemma sq_mono x y : nn x -> nn y -> Rabs (ev x) <= Rabs (ev y) -> ev (bmul x x) <= ev (bmul y y).
Proof.
  intros Nx Ny L. pose proof maxR_pos as M. destruct (sq_ev x Nx) as [_ Ex], (sq_ev y Ny) as [_ Ey]. rewrite Ex, Ey. clear Ex Ey.
  destruct (nn_cases x Nx) as [F | [-> | ->]], (nn_cases y Ny) as [F' | [-> | ->]]; rewrite ?(F : is_finite x = true), ?(F' : is_finite y = true); cbn [is_finite];
    try lra; try (apply rc_bound).
  - apply rc_mono. rewrite !ev_fin in L by auto. apply Rsqr_le_abs_1 in L. exact L.
  - cbn [ev] in L. rewrite Rabs_pos_eq in L by lra. pose proof (fin_lt _ F') as B. assert (Rabs (ev y) < maxR) by (apply Rabs_def1; lra). lra.
  - cbn [ev] in L. rewrite Rabs_Ropp, Rabs_pos_eq in L by lra. pose proof (fin_lt _ F') as B. assert (Rabs (ev y) < maxR) by (apply Rabs_def1; lra). lra.
Qed.
Lemma div_ge0 x c : bpos c -> nn x -> 0 <= ev x -> 0 <= ev (bdiv x c).
Proof.
  intros P N H. destruct (nn_cases x N) as [F | [-> | ->]].
  - destruct P as [Fc Pc]. eapply ge0_of; [apply div_ff; auto; lra|]. rewrite ev_fin in H by auto. apply Rmult_le_pos; auto. left. now apply Rinv_0_lt_compat.
  - rewrite divr_inf by auto. auto.
  - pose proof maxR_pos. cbn [ev] in H. lra.
Qed.
Lemma div_le0 x c : bpos c -> nn x -> ev x <= 0 -> ev (bdiv x c) <= 0.
Proof.
  intros P N H. destruct (nn_cases x N) as [F | [-> | ->]].
  - destruct P as [Fc Pc]. eapply le0_of; [apply div_ff; auto; lra|]. rewrite ev_fin in H by auto. apply Rinv_0_lt_compat in Pc. unfold Rdiv. nra.
  - pose proof maxR_pos. cbn [ev] in H. lra.
  - rewrite divr_inf by auto. auto.
Qed.
Lemma mul_l_ge0 c x : bpos c -> nn x -> 0 <= ev x -> 0 <= ev (bmul c x).
Proof.
  intros P N H. destruct (nn_cases x N) as [F | [-> | ->]].
  - destruct P as [Fc Pc]. eapply ge0_of; [apply mul_ff; auto|]. rewrite ev_fin in H by auto. nra.
  - rewrite mull_inf by auto. auto.
  - pose proof maxR_pos. cbn [ev] in H. lra.
Qed.
Lemma mul_l_le0 c x : bpos c -> nn x -> ev x <= 0 -> ev (bmul c x) <= 0.
Proof.
  intros P N H. destruct (nn_cases x N) as [F | [-> | ->]].
  - destruct P as [Fc Pc]. eapply le0_of; [apply mul_ff; auto|]. rewrite ev_fin in H by auto. nra.
  - pose proof maxR_pos. cbn [ev] in H. lra.
  - rewrite mull_inf by auto. auto.
Qed.
(** minus infinity absorbs everything but plus infinity *)
Lemma add_low x y : nn x -> nn y -> ev x < maxR -> ev y < maxR -> nn (badd x y) /\ (ev (badd x y) < maxR \/ bfin x /\ bfin y).
Proof.
  intros Nx Ny Hx Hy. pose proof maxR_pos.
  destruct (nn_cases x Nx) as [F | [-> | ->]], (nn_cases y Ny) as [F' | [-> | ->]]; try (cbn [ev] in *; lra).
  - split; [now apply add_ff|]. now right.
  - rewrite addl_inf by auto. split; [reflexivity|]. left. cbn. lra.
  - rewrite addr_inf by auto. split; [reflexivity|]. left. cbn. lra.
  - split; [reflexivity|]. left. cbn. lra.
Qed.
(** a sum of a bounded number and a number that is not positive *)
Lemma add_mag_le0 k x y : (-1074 <= k < 1024)%Z -> bmg k x -> nn y -> ev y <= 0 -> nn (badd x y) /\ ev (badd x y) <= bpow radix2 k.
Proof.
  intros Hk M N H. pose proof M as [Fx Ax]. destruct (nn_cases y N) as [F' | [-> | ->]].
  - destruct (add_ff x y Fx F') as [U V]. split; auto. rewrite V. rewrite ev_fin in H by auto.
    assert (L : bpow radix2 k < maxR) by (apply bpow_lt; lia). apply Rabs_le_inv in Ax.
    apply Rle_trans with (rc (bpow radix2 k)); [apply rc_mono; lra|]. rewrite rc_in; rewrite rnd_bpow; try lia; try lra. rewrite Rabs_pos_eq; auto. apply bpow_ge_0.
  - pose proof maxR_pos. cbn [ev] in H. lra.
  - rewrite addl_inf by auto. split; [reflexivity|]. pose proof maxR_pos. pose proof (bpow_ge_0 radix2 k). cbn. lra.
Qed.
Lemma bpow_max k : (k < 1024)%Z -> bpow radix2 k < maxR. Proof. intros. apply bpow_lt. lia. Qed.
(** a sum of a number that is not plus infinity and another one *)
Lemma add_nn x y : nn x -> nn y -> ev x < maxR -> ev y < maxR -> nn (badd x y).
Proof. intros. now apply add_low. Qed.
Lemma sub_nn x y : nn x -> nn y -> ev x < maxR -> - maxR < ev y -> nn (bsub x y).
Proof.
  intros Nx Ny Hx Hy. pose proof maxR_pos.
  destruct (nn_cases x Nx) as [F | [-> | ->]], (nn_cases y Ny) as [F' | [-> | ->]]; try (cbn [ev] in *; lra); try reflexivity.
  - now apply sub_ff.
  - now rewrite subl_inf.
  - now rewrite subr_inf.
Qed.
Lemma bmg_ev k x : (-1074 <= k < 1024)%Z -> bmg k x -> nn x /\ - bpow radix2 k <= ev x <= bpow radix2 k /\ - maxR < ev x < maxR.
Proof. intros H [F A]. split; [now apply nn_fin|]. rewrite ev_fin by auto. apply Rabs_le_inv in A. pose proof (fin_lt x F) as Q. rewrite ev_fin in Q by auto. auto. Qed.
Lemma bmg_sym k x m : (Z.abs m <= 2 ^ 53)%Z -> IZR m <= bpow radix2 k -> (k < 1024)%Z -> nn x -> - IZR m <= ev x <= IZR m -> bmg k x.
Proof.
  intros _ B Hk N H. pose proof (bpow_max k Hk). assert (F : bfin x) by (apply ev_lt_fin; auto; lra). split; auto.
  rewrite ev_fin in H by auto. apply Rle_trans with (2 := B). now apply Rabs_le.
Qed.
(** powers of two *)
Lemma btwo_R k : (-1074 <= k < 1024)%Z -> bfin (btwo k) /\ B2R (btwo k) = bpow radix2 k.
Proof.
  intros H. pose proof (binary_normalize_correct 53 1024 b64_prec_gt_0 b64_prec_lt_emax mode_NE 1 k false) as C. cbv zeta in C.
  replace (F2R (Float radix2 1 k)) with (bpow radix2 k) in C by (unfold F2R; cbn [Fnum Fexp]; ring).
  change (round radix2 (SpecFloat.fexp 53 1024) (round_mode mode_NE) (bpow radix2 k)) with (rnd (bpow radix2 k)) in C.
  rewrite rnd_bpow in C by lia. change (bpow radix2 1024) with maxR in C. rewrite Rlt_bool_true in C.
  - destruct C as (A & B & _). split; auto.
  - rewrite Rabs_pos_eq by apply bpow_ge_0. apply bpow_max; lia.
Qed.
