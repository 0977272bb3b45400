(** C60: the Taylor refinement of extreme Student quantiles converges to the quantile, with order three. *)
From Coq Require Import Reals ZArith QArith Bool Lra Lia.
From Verif Require Import Num Sanity Prob Dens Quant ER Spec SpecER SpecSF FamR FamG FamB Witness WitnessSF SpecQt QtRefR QtRef4 QtRef Norm NormR QtMid.
Local Open Scope R_scope.
Notation refine S n p d v := (qt_y_2_loop (N:=ER_Num S) n (Fin p) (Fin d) (Fin v) (Fin 0)).


(** [refine S n p d v] is the code's loop (quant/qt.ipp 143-182) with n refinement steps from the
    starting value v, solving "upper tail beyond the result = p".  The code calls it with n = 6. *)

Theorem C60_fixed_point : forall S : SF, lgamma_spec S -> incbeta_spec S -> 0 < sf_eps S -> forall n p d vs, sf_eps S <= d -> t_cdf d vs = 1 - p -> refine S n p d vs = Fin vs.
Proof. exact loop_fixed. Qed.
Print Assumptions C60_fixed_point.
Example C60_fixed_point_ex : refine SFR 6 (1 / 4) 1 1 = Fin 1.
Proof. apply C60_fixed_point; try exact one_root; ex_sf. Qed.

Theorem C60_iteration : forall S : SF, lgamma_spec S -> incbeta_spec S -> 0 < sf_eps S -> forall n p d v, sf_eps S <= d -> refine S n p d v = Fin (taylor_iter n d (1 - p) v).
Proof. exact loop0. Qed.
Print Assumptions C60_iteration.
Example C60_iteration_ex : refine SFR 6 (1 / 100) 5 3 = Fin (taylor_iter 6 5 (1 - 1 / 100) 3).
Proof. apply C60_iteration; ex_sf. Qed.

Theorem C60_same_side : forall S : SF, lgamma_spec S -> incbeta_spec S -> 0 < sf_eps S -> forall n p d v vs, sf_eps S <= d -> t_cdf d vs = 1 - p ->
  exists w, refine S n p d v = Fin w /\ (v <= vs -> w <= vs) /\ (vs <= v -> vs <= w).
Proof. exact loop_side. Qed.
Print Assumptions C60_same_side.
Example C60_same_side_ex : exists w, refine SFR 6 (1 / 4) 1 (-3) = Fin w /\ (-3 <= 1 -> w <= 1) /\ (1 <= -3 -> 1 <= w).
Proof. apply C60_same_side; try exact one_root; ex_sf. Qed.

Theorem C60_from_below : forall S : SF, lgamma_spec S -> incbeta_spec S -> 0 < sf_eps S -> forall n p d v vs, sf_eps S <= d -> t_cdf d vs = 1 - p -> 0 <= v <= vs ->
  exists w, refine S n p d v = Fin w /\ v <= w <= vs /\
    vs - w <= (vs - v) * (cub_const d v * (vs - v) ^ 2) ^ cubexp n /\
    vs - w <= (vs - v) * (1 - t_pdf d vs / t_pdf d v) ^ n.
Proof. exact loop_below. Qed.
Print Assumptions C60_from_below.
(** one half below the upper quartile of the Cauchy distribution: after six steps the error is below 5^-364 / 2 *)
Example C60_from_below_ex : exists w, refine SFR 6 (1 / 4) 1 (1 / 2) = Fin w /\ 1 / 2 <= w <= 1 /\ 1 - w <= / 2 * (/ 5) ^ 364.
Proof.
  destruct (C60_from_below SFR ltac:(ex_sf) ltac:(ex_sf) ltac:(ex_sf) 6 (1 / 4) 1 (1 / 2) 1 ltac:(ex_sf) one_root ltac:(lra)) as (w & E & B & C & _).
  exists w. split; [exact E|]. split; [exact B|].
  replace (cub_const 1 (1 / 2) * (1 - 1 / 2) ^ 2) with (/ 5) in C by (unfold cub_const; field).
  change (cubexp 6) with 364%nat in C. replace (1 - 1 / 2) with (/ 2) in C by field. exact C.
Qed.

Theorem C60_converges : forall S : SF, lgamma_spec S -> incbeta_spec S -> 0 < sf_eps S -> forall p d v vs, sf_eps S <= d -> t_cdf d vs = 1 - p -> 0 <= v <= vs ->
  forall e, 0 < e -> exists N, forall n, (N <= n)%nat -> exists w, refine S n p d v = Fin w /\ Rabs (w - vs) < e.
Proof. exact loop_below_lim. Qed.
Print Assumptions C60_converges.
Example C60_converges_ex : exists N, forall n, (N <= n)%nat -> exists w, refine SFR n (1 / 4) 1 0 = Fin w /\ Rabs (w - 1) < / 1000.
Proof. apply C60_converges; try exact one_root; try lra; ex_sf. Qed.

Theorem C60_from_above : forall S : SF, lgamma_spec S -> incbeta_spec S -> 0 < sf_eps S -> forall n p d v vs, sf_eps S <= d -> t_cdf d vs = 1 - p -> 0 <= vs <= v ->
  cub_const d vs * (t_pdf d vs / t_pdf d v) ^ 2 * (v - vs) ^ 2 <= 1 ->
  exists w, refine S n p d v = Fin w /\ vs <= w <= v /\
    w - vs <= (v - vs) * (cub_const d vs * (t_pdf d vs / t_pdf d v) ^ 2 * (v - vs) ^ 2) ^ cubexp n.
Proof. exact loop_above. Qed.
Print Assumptions C60_from_above.
Example C60_from_above_ex : exists w, refine SFR 6 (1 / 4) 1 (3 / 2) = Fin w /\ 1 <= w <= 3 / 2 /\ w - 1 <= / 2 * (169 / 512) ^ 364.
Proof.
  assert (K : cub_const 1 1 * (t_pdf 1 1 / t_pdf 1 (3 / 2)) ^ 2 * (3 / 2 - 1) ^ 2 = 169 / 512).
  { rewrite !t_pdf_1. unfold cub_const, cauchy_pdf. pose proof PI_RGT_0. field. lra. }
  destruct (C60_from_above SFR ltac:(ex_sf) ltac:(ex_sf) ltac:(ex_sf) 6 (1 / 4) 1 (3 / 2) 1 ltac:(ex_sf) one_root ltac:(lra) ltac:(rewrite K; lra)) as (w & E & B & C).
  exists w. split; [exact E|]. split; [exact B|]. rewrite K in C. change (cubexp 6) with 364%nat in C.
  replace (3 / 2 - 1) with (/ 2) in C by field. exact C.
Qed.

(** The condition on the start is needed: from 10, one step towards the root 1 goes further away. *)

Theorem C60_from_far_above_refuted : forall S : SF, lgamma_spec S -> incbeta_spec S -> 0 < sf_eps S <= 1 ->
  exists w, refine S 1 (1 / 4) 1 10 = Fin w /\ t_cdf 1 1 = 1 - 1 / 4 /\ 11 < w.
Proof. exact loop_above_bad. Qed.
Print Assumptions C60_from_far_above_refuted.
Example C60_from_far_above_refuted_ex : exists w, refine SFR 1 (1 / 4) 1 10 = Fin w /\ t_cdf 1 1 = 1 - 1 / 4 /\ 11 < w.
Proof. apply C60_from_far_above_refuted; ex_sf. Qed.

(** The quantile function for lower-tail probabilities in the range of the refinement: the result
    lies on the same side of the exact quantile as Hill's starting value, and within the third-order
    bound after the code's six steps. *)

Theorem C60_qt_tail_side : forall S : SF, lgamma_spec S -> incbeta_spec S -> 0 < sf_eps S -> forall p d vs, hill_tail (sf_eps S) d p -> t_cdf d (- vs) = p ->
  exists q, qt (N:=ER_Num S) (Fin p) (Fin d) = Fin q /\
    (R_sqrt.sqrt (d * hill_start d (2 * p)) <= vs -> - vs <= q) /\
    (vs <= R_sqrt.sqrt (d * hill_start d (2 * p)) -> q <= - vs).
Proof. exact qt_tail_side. Qed.
Print Assumptions C60_qt_tail_side.
Example C60_qt_tail_side_ex : exists q vs, qt (N:=ER_Num SFR) (Fin p4) (Fin 4) = Fin q /\ t_cdf 4 (- vs) = p4 /\ (v4 <= vs -> - vs <= q) /\ (vs <= v4 -> q <= - vs).
Proof.
  destruct root4 as (vs & _ & E). destruct (C60_qt_tail_side SFR ltac:(ex_sf) ltac:(ex_sf) ltac:(ex_sf) p4 4 vs (tail_4 (sf_eps SFR) ltac:(ex_sf)) E) as (q & A & B).
  exists q, vs. repeat split; [exact A|exact E|apply B|apply B].
Qed.

Theorem C60_qt_tail_accuracy : forall S : SF, lgamma_spec S -> incbeta_spec S -> 0 < sf_eps S -> forall p d vs, hill_tail (sf_eps S) d p -> 0 <= vs -> t_cdf d (- vs) = p ->
  let v := R_sqrt.sqrt (d * hill_start d (2 * p)) in
  let k := cub_const d (Rmin v vs) * Rmax 1 (t_pdf d vs / t_pdf d v) ^ 2 * (v - vs) ^ 2 in
  k <= 1 ->
  exists q, qt (N:=ER_Num S) (Fin p) (Fin d) = Fin q /\ Rabs (q - - vs) <= Rabs (v - vs) * k ^ 364 /\
    Rabs (t_cdf d q - p) <= t_pdf d 0 * (Rabs (v - vs) * k ^ 364).
Proof. exact qt_tail_accuracy. Qed.
Print Assumptions C60_qt_tail_accuracy.
(** four degrees of freedom, p close to 0.0117: the error after six steps is below 8^-364 *)
Example C60_qt_tail_accuracy_ex : exists q vs, qt (N:=ER_Num SFR) (Fin p4) (Fin 4) = Fin q /\ 34 / 10 <= vs <= 38 / 10 /\
  t_cdf 4 (- vs) = p4 /\ Rabs (q - - vs) <= (1 / 8) ^ 364.
Proof.
  destruct root4 as (vs & R1 & E). pose proof (kappa_4 vs R1) as K. pose proof v4_range.
  destruct (C60_qt_tail_accuracy SFR ltac:(ex_sf) ltac:(ex_sf) ltac:(ex_sf) p4 4 vs (tail_4 (sf_eps SFR) ltac:(ex_sf)) ltac:(lra) E ltac:(fold v4; lra)) as (q & A & B & _).
  exists q, vs. split; [exact A|]. split; [exact R1|]. split; [exact E|]. fold v4 in B.
  apply Rle_trans with (1 := B). rewrite <- (Rmult_1_l ((1 / 8) ^ 364)). apply Rmult_le_compat.
  - apply Rabs_pos.
  - apply pow_le. apply Rmult_le_pos; [apply Rmult_le_pos; [apply cub_const_4; unfold Rmin; destruct Rle_dec; lra|]|]; apply pow2_ge_0.
  - apply Rabs_le. lra.
  - apply pow_incr. split; [|exact K].
    apply Rmult_le_pos; [apply Rmult_le_pos; [apply cub_const_4; unfold Rmin; destruct Rle_dec; lra|]|]; apply pow2_ge_0.
Qed.

(** Outside the tails the result is Hill's expansion about the normal quantile x of p, and there is no refinement. *)

Theorem C60_qt_middle : forall S : SF, erf_inv_spec S -> 0 < sf_eps S -> forall p d x, hill_middle (sf_eps S) d p x ->
  qt (N:=ER_Num S) (Fin p) (Fin d) =
  Fin ((if Rlt_dec p (1 / 2) then -1 else 1) * R_sqrt.sqrt (d * hill_expand d x)).
Proof. exact (fun S H He p d x => qt_mid_val S p d x H He). Qed.
Print Assumptions C60_qt_middle.
(** the median with ten degrees of freedom *)
Example C60_qt_middle_ex : qt (N:=ER_Num SFR) (Fin (1 / 2)) (Fin 10) = Fin 0.
Proof.
  rewrite (C60_qt_middle SFR ltac:(ex_sf) ltac:(ex_sf) (1 / 2) 10 0 (mid_10 (sf_eps SFR) ltac:(ex_sf))).
  rewrite expand_0, Rmult_0_r, sqrt_0, Rmult_0_r. reflexivity.
Qed.
