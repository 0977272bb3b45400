(** Student t with any degrees of freedom and the binomial distribution function in binary64. *)
From Coq Require Import ZArith QArith Reals Bool Lra Lia.
From Verif Require Import Num Sanity Prob Dens B64 B64R B64Ord SpecB64 SpecB64D B64Cdf B64Cdf2 B64Cdf3 B64Dens B64Dens5 B64Quant B64Quant2 B64Rand.
From Flocq Require Import Core IEEE754.BinarySingleNaN.
Local Open Scope R_scope.

Section CDF4.
Variable F : TF.
Notation NB := (B64_Num F).
Local Notation half := (blit (1#2)).
Lemma half_val : bfin half /\ B2R half = 1 / 2. Proof. split; [vm_compute; reflexivity|vm_compute; lra]. Qed.
Lemma two_bpos : bpos (bofZ 2). Proof. destruct (bofZ_R 2 ltac:(sm)). split; auto. lra. Qed.
(** half of a value in [0,1] *)
Lemma halve v : nn v -> 0 <= ev v <= 1 -> bfin (bdiv v (bofZ 2)) /\ 0 <= B2R (bdiv v (bofZ 2)) <= 1 / 2 /\ nn (bdiv v (bofZ 2)).
Proof.
  intros N H. pose proof maxR_1. destruct (fin_of v 0 1 N H) as [Fv Bv]; [lra|lra|]. destruct (bofZ_R 2 ltac:(sm)) as [A B]. destruct (div_ff v (bofZ 2) Fv B) as [Nd Ed]; [lra|]. rewrite A in Ed.
  assert (R : 0 <= ev (bdiv v (bofZ 2)) <= 1 / 2).
  { rewrite Ed. split; [rewrite <- rc_0; apply rc_mono; lra|]. replace (1 / 2) with (/ 2) by lra. rewrite <- rc_half. apply rc_mono. lra. }
  destruct (fin_of _ 0 (1 / 2) Nd R) as [Ff Bf]; [lra|lra|]. auto.
Qed.
Lemma low_half v : nn v -> 0 <= ev v <= 1 -> nn (bsub half (bdiv v (bofZ 2))) /\ 0 <= ev (bsub half (bdiv v (bofZ 2))) <= 1 / 2.
Proof.
  intros N H. destruct (halve v N H) as (Fh & Bh & _). destruct half_val as [F1 B1]. destruct (sub_ff half _ F1 Fh) as [Ns Es]. split; auto. rewrite Es, B1.
  split; [rewrite <- rc_0; apply rc_mono; lra|]. replace (1 / 2) with (/ 2) at 2 by lra. rewrite <- rc_half. apply rc_mono. lra.
Qed.
Lemma high_half v : nn v -> 0 <= ev v <= 1 / 2 -> nn (bsub (bofZ 1) v) /\ 1 / 2 <= ev (bsub (bofZ 1) v) <= 1.
Proof.
  intros N H. pose proof maxR_1. destruct (fin_of v 0 (1 / 2) N H) as [Fv Bv]; [lra|lra|]. destruct (bofZ_R 1 ltac:(sm)) as [A B]. destruct (sub_ff (bofZ 1) v B Fv) as [Ns Es]. split; auto. rewrite Es, A.
  split; [replace (1 / 2) with (/ 2) by lra; rewrite <- rc_half; apply rc_mono; lra|]. rewrite <- (rc_Z 1) at 2 by sm. apply rc_mono. lra.
Qed.
Definition lower (x dof : b64) : b64 :=
  if Bltb (bmul x x) dof then bsub half (bdiv (pbeta (N:=NB) (bdiv (bmul x x) (badd dof (bmul x x))) half (bdiv dof (bofZ 2)) false) (bofZ 2))
  else bdiv (pbeta (N:=NB) (bdiv (bofZ 1) (badd (bofZ 1) (bmul (bdiv x dof) x))) (bdiv dof (bofZ 2)) half false) (bofZ 2).
Lemma pt_val x dof : bfin x -> big_eps dof -> Beqb dof (bofZ 1) = false -> Beqb dof (bofZ 2) = false ->
  pt (N:=NB) x dof false = if Bltb (bofZ 0) x then bsub (bofZ 1) (lower x dof) else lower x dof.
Proof.
  intros Fx P N1 N2. destruct (big_eps_pos _ P) as (_ & [Fd Pd] & Ed). unfold pt, t_sanity2, t_sanity1. rewrite (nan_nn F x), (nan_nn F dof) by (now apply nn_fin).
  rewrite (proj2 (eps_lt_f F dof (nn_fin _ Fd)) Ed). cbn [negb andb]. rewrite (posinf_fin F x), (posinf_fin F dof) by auto.
  replace (is_neginf (Num:=NB) x) with false by (symmetry; destruct x; try reflexivity; discriminate Fx). unfold pt_compute.
  change (eqb dof (ofZ 1)) with (Beqb dof (bofZ 1)). change (eqb dof (ofZ 2)) with (Beqb dof (bofZ 2)). rewrite N1, N2. cbn [log_if]. unfold pt_main, lower.
  change (ltb (x * x)%num dof) with (Bltb (bmul x x) dof). change (ltb (ofZ 0) x) with (Bltb (bofZ 0) x). destruct (Bltb (bmul x x) dof), (Bltb (bofZ 0) x); reflexivity.
Qed.
Lemma pt_inf_val dof : big_eps dof -> pt (N:=NB) (B754_infinity false) dof false = bofZ 1 /\ pt (N:=NB) (Bopp (B754_infinity false)) dof false = bofZ 0.
Proof.
  intros P. destruct (big_eps_pos _ P) as (_ & [Fd Pd] & Ed). unfold pt, t_sanity2, t_sanity1. rewrite (nan_nn F dof) by (now apply nn_fin). rewrite (proj2 (eps_lt_f F dof (nn_fin _ Fd)) Ed). split; reflexivity.
Qed.
Hypothesis IB : incbeta_ok F.
Lemma ratio_unit z r : nonneg z -> bfin z -> bpos r -> nn (bdiv z (badd r z)).
Proof.
  intros (Nz & Lz & _) Fz P. rewrite ev_fin in Lz by auto. destruct (add_ff r z (proj1 P) Fz) as [Ns Es].
  assert (Ls : B2R r <= ev (badd r z)) by (rewrite Es, <- (ev_fin r (proj1 P)), <- (rc_ev r (proj1 P)); apply rc_mono; rewrite rc_ev by apply P; rewrite ev_fin by apply P; lra).
  apply bdiv_l_nn; auto. destruct P. lra.
Qed.
Lemma sq_nonneg x : bfin x -> nonneg (bmul x x).
Proof.
  intros Fx. destruct (mul_ff x x Fx Fx) as [N E]. split; auto. split; [rewrite E, <- rc_0; apply rc_mono; nra|].
  destruct x as [s|s| |s m e B]; try discriminate Fx; [destruct s; discriminate|].
  assert (K : bmul (B754_finite s m e B) (B754_finite s m e B) = bmul (B754_finite false m e B) (B754_finite false m e B)) by (destruct s; [|reflexivity]; apply B2SF_inj; unfold bmul; cbn [Bmult]; rewrite !B2SF_SF2B; reflexivity).
  rewrite K. assert (P : bpos (B754_finite false m e B)) by (split; [reflexivity|apply F2R_gt_0; reflexivity]). apply (mul_pp _ _ P P).
Qed.
Lemma quad_val x r : bfin x -> bpos r -> B2R x <> 0 -> nn (bmul (bdiv x r) x) /\ 0 <= ev (bmul (bdiv x r) x).
Proof.
  intros Fx P Nz. assert (Nd : B2R r <> 0) by (destruct P; lra). destruct (div_ff x r Fx (proj1 P) Nd) as [N E]. pose proof maxR_pos.
  destruct (Rtotal_order 0 (B2R x)) as [L|[L|L]]; [|lra|].
  - assert (Px : bpos x) by (split; auto). split; [now apply bmul_r_nn|].
    pose proof (bmul_r x Px) as M. assert (Q : ev (bmul (bofZ 0) x) <= ev (bmul (bdiv x r) x)).
    { apply M; try (apply dom_all; auto; exact (proj1 (ev_Z 0 ltac:(sm)))). rewrite E, (proj2 (ev_Z 0 ltac:(sm))), <- rc_0. apply rc_mono. apply Rmult_le_pos; [lra|]. left. apply Rinv_0_lt_compat, P. }
    rewrite (proj2 (mul_ff (bofZ 0) x eq_refl Fx)) in Q. replace (B2R (bofZ 0) * B2R x) with 0 in Q by (rewrite (proj1 (bofZ_R 0 ltac:(sm))); ring). now rewrite rc_0 in Q.
  - set (y := Bopp x). assert (Py : bpos y) by (split; [unfold y; now rewrite is_finite_Bopp|unfold y; rewrite B2R_Bopp; lra]).
    assert (EX : bmul (bdiv x r) x = bmul (Bopp (bdiv x r)) y).
    { unfold y. destruct (bdiv x r) as [s|s| |s m e B], x as [t|t| |t n f C]; try discriminate Fx; try reflexivity; try (destruct s, t; reflexivity).
      apply B2SF_inj. unfold bmul. cbn [Bmult Bopp]. rewrite !B2SF_SF2B. destruct s, t; reflexivity. }
    assert (No : nn (Bopp (bdiv x r)) /\ 0 <= ev (Bopp (bdiv x r))).
    { destruct (opp_ev _ N) as [A B]. split; auto. rewrite B, E. assert (rc (B2R x / B2R r) <= 0); [|lra]. rewrite <- rc_0. apply rc_mono.
      assert (0 < / B2R r) by (apply Rinv_0_lt_compat, P). unfold Rdiv. nra. }
    rewrite EX. split; [now apply bmul_r_nn|]. pose proof (bmul_r y Py) as M. assert (Q : ev (bmul (bofZ 0) y) <= ev (bmul (Bopp (bdiv x r)) y)).
    { apply M; try (apply dom_all; auto; try apply No; exact (proj1 (ev_Z 0 ltac:(sm)))). rewrite (proj2 (ev_Z 0 ltac:(sm))). apply No. }
    rewrite (proj2 (mul_ff (bofZ 0) y eq_refl (proj1 Py))) in Q. replace (B2R (bofZ 0) * B2R y) with 0 in Q by (rewrite (proj1 (bofZ_R 0 ltac:(sm))); ring). now rewrite rc_0 in Q.
Qed.
Lemma pos_half r : big_eps r -> b64_pos (bdiv r (bofZ 2)). Proof. intros H. apply half_pos; auto. Qed.
Lemma half_b64_pos : b64_pos half. Proof. split; vm_compute; reflexivity. Qed.
Lemma lower_range x dof : bfin x -> big_eps dof -> nn (lower x dof) /\ 0 <= ev (lower x dof) <= 1 / 2.
Proof.
  intros Fx P. destruct (big_eps_pos _ P) as (_ & Pd & _). unfold lower. destruct (Bltb (bmul x x) dof) eqn:L.
  - assert (Nq : nonneg (bmul x x)) by now apply sq_nonneg. assert (Fq : bfin (bmul x x)).
    { apply ltb_ev in L; [|apply Nq|apply nn_fin, Pd]. pose proof maxR_pos. pose proof (fin_lt dof (proj1 Pd)). apply ev_lt_fin; [apply Nq|]. destruct Nq as (_ & A & _). lra. }
    destruct (pbeta_inc F half (bdiv dof (bofZ 2)) IB half_b64_pos (pos_half _ P)) as [A _].
    destruct (A _ (ratio_unit _ dof Nq Fq Pd)) as [N R]. now apply low_half.
  - assert (Nx : B2R x <> 0).
    { intros Z. apply ltb_ev_f in L; [|apply sq_nonneg; auto|apply nn_fin, Pd]. rewrite (proj2 (mul_ff x x Fx Fx)), Z, Rmult_0_l, rc_0, ev_fin in L by apply Pd. destruct Pd. lra. }
    destruct (quad_val x dof Fx Pd Nx) as [Nq Rq]. destruct (pbeta_inc F (bdiv dof (bofZ 2)) half IB (pos_half _ P) half_b64_pos) as [A _].
    destruct (bofZ_R 1 ltac:(sm)) as [A1 F1].
    assert (Nz : nn (badd (bofZ 1) (bmul (bdiv x dof) x)) /\ 0 < ev (badd (bofZ 1) (bmul (bdiv x dof) x))).
    { split; [now apply badd_l_nn|]. pose proof (badd_l (bofZ 1) F1 (bofZ 0) (bmul (bdiv x dof) x)) as M. assert (Q : ev (badd (bofZ 1) (bofZ 0)) <= ev (badd (bofZ 1) (bmul (bdiv x dof) x))).
      { apply M; try (apply dom_all; auto; exact (proj1 (ev_Z 0 ltac:(sm)))). now rewrite (proj2 (ev_Z 0 ltac:(sm))). }
      replace (ev (badd (bofZ 1) (bofZ 0))) with 1 in Q by (rewrite ev_fin by (vm_compute; reflexivity); vm_compute; lra). lra. }
    destruct (A (bdiv (bofZ 1) (badd (bofZ 1) (bmul (bdiv x dof) x)))) as [N R]; [now apply bdiv_l_nn|]. destruct (halve _ N R) as (Fh & Bh & Nh). split; auto. now rewrite ev_fin.
Qed.

Lemma pt_range x dof : nn x -> big_eps dof -> Beqb dof (bofZ 1) = false -> Beqb dof (bofZ 2) = false ->
  nn (pt (N:=NB) x dof false) /\ (ev x <= 0 -> 0 <= ev (pt (N:=NB) x dof false) <= 1 / 2) /\ (0 < ev x -> 1 / 2 <= ev (pt (N:=NB) x dof false) <= 1).
Proof.
  intros N P N1 N2. destruct (big_eps_pos _ P) as (_ & [Fd Pd] & Ed). pose proof maxR_pos. destruct (ev_Z 0 ltac:(sm)) as [Z0 E0], (ev_Z 1 ltac:(sm)) as [Z1 E1].
  destruct (nn_cases x N) as [Fx|[->| ->]].
  - rewrite pt_val by auto. destruct (lower_range x dof Fx P) as [NL RL]. destruct (Bltb (bofZ 0) x) eqn:L.
    + apply ltb_ev in L; auto. rewrite E0 in L. destruct (high_half _ NL RL) as [A B]. split; auto. split; intros; [lra|exact B].
    + apply ltb_ev_f in L; auto. rewrite E0 in L. split; auto. split; intros; [exact RL|lra].
  - assert (V : pt (N:=NB) (B754_infinity false) dof false = bofZ 1).
    { unfold pt, t_sanity2, t_sanity1. rewrite (nan_nn F dof) by (now apply nn_fin). rewrite (proj2 (eps_lt_f F dof (nn_fin _ Fd)) Ed). reflexivity. }
    rewrite V, ev_p. split; auto. split; intros; [lra|rewrite E1; lra].
  - assert (V : pt (N:=NB) (B754_infinity true) dof false = bofZ 0).
    { unfold pt, t_sanity2, t_sanity1. rewrite (nan_nn F dof) by (now apply nn_fin). rewrite (proj2 (eps_lt_f F dof (nn_fin _ Fd)) Ed). reflexivity. }
    rewrite V, ev_m. split; auto. split; intros; [rewrite E0; lra|lra].
Qed.

(** *** the tails *)
Lemma sq_mono x y : bfin x -> bfin y -> Rabs (B2R x) <= Rabs (B2R y) -> ev (bmul x x) <= ev (bmul y y).
Proof.
  intros Fx Fy H. rewrite (proj2 (mul_ff x x Fx Fx)), (proj2 (mul_ff y y Fy Fy)). apply rc_mono. change (Rsqr (B2R x) <= Rsqr (B2R y)). apply Rsqr_le_abs_1. exact H.
Qed.
(** the product of two non-negative doubles is non-decreasing in both *)
Lemma mul_mono2 a b c d : nn a -> nn c -> bpos b -> bpos d -> 0 <= ev a -> ev a <= ev c -> B2R b <= B2R d -> ev (bmul a b) <= ev (bmul c d).
Proof.
  intros Na Nc Pb Pd La L1 L2. apply Rle_trans with (ev (bmul c b)); [apply (bmul_r b Pb); auto; now apply dom_all|].
  pose proof maxR_pos. destruct (nn_cases c Nc) as [Fc|[->| ->]]; [|rewrite !mulr_inf by auto; lra|rewrite ev_m in L1; lra].
  rewrite (proj2 (mul_ff c b Fc (proj1 Pb))), (proj2 (mul_ff c d Fc (proj1 Pd))). apply rc_mono. rewrite (ev_fin c Fc) in L1. destruct Pb, Pd. nra.
Qed.
Lemma quad_pos x r : bpos x -> bpos r -> nn (bdiv x r) /\ 0 <= ev (bdiv x r).
Proof. intros Px Pr. split; [apply bdiv_r_nn; auto; apply nn_fin, Px|]. apply bdiv_pos_nonneg; [apply Px|left; apply Px|apply nn_fin, Pr|rewrite ev_fin; apply Pr]. Qed.
Lemma quad_mono x y r : bpos x -> bpos y -> bpos r -> B2R x <= B2R y -> ev (bmul (bdiv x r) x) <= ev (bmul (bdiv y r) y).
Proof.
  intros Px Py Pr L. destruct (quad_pos x r Px Pr), (quad_pos y r Py Pr). apply mul_mono2; auto.
  apply (bdiv_r r Pr); try (apply dom_all, nn_fin; apply Px || apply Py). rewrite !ev_fin; auto; apply Px || apply Py.
Qed.
Lemma quad_opp x r : bfin x -> bpos r -> bmul (bdiv (Bopp x) r) (Bopp x) = bmul (bdiv x r) x.
Proof.
  intros Fx Pr. destruct (bpos_shape r Pr) as (m & e & B & ->). destruct x as [s|s| |s n f C]; try discriminate Fx; [destruct s; reflexivity|].
  assert (D : bdiv (Bopp (B754_finite s n f C)) (B754_finite false m e B) = Bopp (bdiv (B754_finite s n f C) (B754_finite false m e B))).
  { pose proof (Bdiv_correct 53 1024 b64_prec_gt_0 b64_prec_lt_emax mode_NE (B754_finite s n f C) (B754_finite false m e B)) as C1.
    pose proof (Bdiv_correct 53 1024 b64_prec_gt_0 b64_prec_lt_emax mode_NE (Bopp (B754_finite s n f C)) (B754_finite false m e B)) as C2.
    assert (NZ : B2R (B754_finite false m e B) <> 0) by (apply Rgt_not_eq, Pr). specialize (C1 NZ). specialize (C2 NZ). rewrite B2R_Bopp in C2.
    replace (- B2R (B754_finite s n f C) / B2R (B754_finite false m e B)) with (- (B2R (B754_finite s n f C) / B2R (B754_finite false m e B))) in C2 by (unfold Rdiv; ring).
    cbn [round_mode] in C1, C2. rewrite round_NE_opp, Rabs_Ropp in C2.
    destruct (Rlt_bool _ _).
    - destruct C1 as (V1 & F1 & S1), C2 as (V2 & F2 & S2).
      assert (G1 : is_finite (Bdiv mode_NE (B754_finite s n f C) (B754_finite false m e B)) = true) by exact F1.
      assert (G2 : is_finite (Bdiv mode_NE (Bopp (B754_finite s n f C)) (B754_finite false m e B)) = true) by exact F2.
      apply B2R_Bsign_inj; [exact G2|unfold bdiv; now rewrite is_finite_Bopp|unfold bdiv; rewrite B2R_Bopp, V1, V2; reflexivity|].
      unfold bdiv. rewrite S2 by (destruct (Bdiv mode_NE (Bopp (B754_finite s n f C)) (B754_finite false m e B)); try reflexivity; discriminate G2).
      assert (Nn : is_nan (Bdiv mode_NE (B754_finite s n f C) (B754_finite false m e B)) = false) by (destruct (Bdiv mode_NE (B754_finite s n f C) (B754_finite false m e B)); try reflexivity; discriminate G1).
      match goal with |- _ = Bsign (Bopp ?z) => rewrite (Bsign_Bopp 53 1024 z Nn) end. rewrite S1 by exact Nn. cbn. now destruct s.
    - cbn [Bsign Bopp] in C1, C2. apply overflow_val in C1. apply overflow_val in C2. unfold bdiv. etransitivity; [exact C2|]. rewrite C1. destruct s; reflexivity. }
  rewrite D. set (q := bdiv (B754_finite s n f C) (B754_finite false m e B)). destruct q as [s'|s'| |s' m' e' B']; try reflexivity; try (destruct s, s'; reflexivity).
  apply B2SF_inj. unfold bmul. cbn [Bmult Bopp]. rewrite !B2SF_SF2B. destruct s, s'; reflexivity.
Qed.
Lemma sq_opp x : bmul (Bopp x) (Bopp x) = bmul x x.
Proof.
  destruct x as [s|s| |s n f C]; try reflexivity; try (destruct s; reflexivity). apply B2SF_inj. unfold bmul. cbn [Bmult Bopp]. rewrite !B2SF_SF2B. destruct s; reflexivity.
Qed.
Lemma lower_opp x dof : bfin x -> bpos dof -> lower (Bopp x) dof = lower x dof.
Proof. intros Fx P. unfold lower. now rewrite sq_opp, quad_opp. Qed.
Lemma lower_tail x y dof : bpos x -> bpos y -> big_eps dof -> B2R x <= B2R y -> Bltb (bmul x x) dof = false -> ev (lower y dof) <= ev (lower x dof).
Proof.
  intros Px Py P L T. destruct (big_eps_pos _ P) as (_ & Pd & _). assert (T' : Bltb (bmul y y) dof = false).
  { apply ltb_ev_f in T; [|apply sq_nonneg, Px|apply nn_fin, Pd]. apply ltb_ev_f; [apply sq_nonneg, Py|apply nn_fin, Pd|]. eapply Rle_trans; [exact T|]. apply sq_mono; try apply Px; try apply Py. destruct Px, Py. rewrite !Rabs_pos_eq by lra. exact L. }
  unfold lower. rewrite T, T'. destruct (bofZ_R 1 ltac:(sm)) as [A1 F1].
  assert (NQ : forall w, bpos w -> nn (bmul (bdiv w dof) w) /\ 0 <= ev (bmul (bdiv w dof) w)) by (intros w Pw; apply quad_val; try apply Pw; auto; apply Rgt_not_eq, Pw).
  assert (ZQ : forall w, bpos w -> nn (badd (bofZ 1) (bmul (bdiv w dof) w)) /\ 1 <= ev (badd (bofZ 1) (bmul (bdiv w dof) w))).
  { intros w Pw. destruct (NQ w Pw) as [Nq Rq]. split; [now apply badd_l_nn|].
    assert (Q : ev (badd (bofZ 1) (bofZ 0)) <= ev (badd (bofZ 1) (bmul (bdiv w dof) w))).
    { apply (badd_l (bofZ 1) F1); try (apply dom_all; auto; exact (proj1 (ev_Z 0 ltac:(sm)))). now rewrite (proj2 (ev_Z 0 ltac:(sm))). }
    replace (ev (badd (bofZ 1) (bofZ 0))) with 1 in Q by (rewrite ev_fin by (vm_compute; reflexivity); vm_compute; lra). exact Q. }
  destruct (NQ x Px) as [Nx Rx], (NQ y Py) as [Ny Ry], (ZQ x Px) as [Zx Lx], (ZQ y Py) as [Zy Ly].
  assert (LZ : ev (badd (bofZ 1) (bmul (bdiv x dof) x)) <= ev (badd (bofZ 1) (bmul (bdiv y dof) y))).
  { apply (badd_l (bofZ 1) F1); try now apply dom_all. now apply quad_mono. }
  assert (P1 : bpos (bofZ 1)) by (split; auto; lra).
  assert (LI : ev (bdiv (bofZ 1) (badd (bofZ 1) (bmul (bdiv y dof) y))) <= ev (bdiv (bofZ 1) (badd (bofZ 1) (bmul (bdiv x dof) x)))).
  { apply (bdiv_l (bofZ 1) 1); auto; try lra; split; auto; split; auto; apply ev_bound. }
  destruct (pbeta_inc F (bdiv dof (bofZ 2)) half IB (pos_half _ P) half_b64_pos) as [A B].
  assert (NI : forall w, bpos w -> nn (bdiv (bofZ 1) (badd (bofZ 1) (bmul (bdiv w dof) w)))) by (intros w Pw; destruct (ZQ w Pw); apply bdiv_l_nn; auto; lra).
  apply (bdiv_r (bofZ 2) two_bpos); [apply dom_all, A; auto|apply dom_all, A; auto|]. apply B; auto.
Qed.
Lemma one_sub a b : bfin a -> bfin b -> ev a <= ev b -> ev (bsub (bofZ 1) b) <= ev (bsub (bofZ 1) a).
Proof. intros Fa Fb L. destruct (bofZ_R 1 ltac:(sm)) as [_ F1]. apply (bsub_l (bofZ 1) F1); auto; apply dom_all; now apply nn_fin. Qed.
Lemma pt_tail_up x y dof : bpos x -> bpos y -> big_eps dof -> Beqb dof (bofZ 1) = false -> Beqb dof (bofZ 2) = false -> B2R x <= B2R y -> Bltb (bmul x x) dof = false ->
  ev (pt (N:=NB) x dof false) <= ev (pt (N:=NB) y dof false).
Proof.
  intros Px Py P N1 N2 L T. rewrite !pt_val by (auto; apply Px || apply Py).
  assert (G : forall w, bpos w -> Bltb (bofZ 0) w = true). { intros w Pw. destruct (ev_Z 0 ltac:(sm)) as [Z0 E0]. apply ltb_ev; auto; [apply nn_fin, Pw|]. rewrite E0, ev_fin; apply Pw. }
  rewrite !G by auto. pose proof maxR_1.
  assert (FL : forall w, bpos w -> bfin (lower w dof)). { intros w Pw. destruct (lower_range w dof (proj1 Pw) P) as [A B]. apply ev_lt_fin; auto; lra. }
  apply one_sub; auto. now apply lower_tail.
Qed.
Lemma pt_tail_low x y dof : bpos x -> bpos y -> big_eps dof -> Beqb dof (bofZ 1) = false -> Beqb dof (bofZ 2) = false -> B2R x <= B2R y -> Bltb (bmul x x) dof = false ->
  ev (pt (N:=NB) (Bopp y) dof false) <= ev (pt (N:=NB) (Bopp x) dof false).
Proof.
  intros Px Py P N1 N2 L T. destruct (big_eps_pos _ P) as (_ & Pd & _). assert (FO : forall w, bpos w -> bfin (Bopp w)) by (intros w Pw; rewrite is_finite_Bopp; apply Pw).
  rewrite !pt_val by (auto; now apply FO).
  assert (G : forall w, bpos w -> Bltb (bofZ 0) (Bopp w) = false). { intros w Pw. destruct (ev_Z 0 ltac:(sm)) as [Z0 E0]. apply ltb_ev_f; auto; [now apply nn_fin, FO|]. rewrite E0, ev_fin by now apply FO. rewrite B2R_Bopp. destruct Pw. lra. }
  rewrite !G by auto. rewrite !lower_opp by (auto; apply Px || apply Py). now apply lower_tail.
Qed.
Lemma pt_sym x dof : bpos x -> big_eps dof -> Beqb dof (bofZ 1) = false -> Beqb dof (bofZ 2) = false ->
  pt (N:=NB) x dof false = bsub (bofZ 1) (pt (N:=NB) (Bopp x) dof false).
Proof.
  intros Px P N1 N2. destruct (big_eps_pos _ P) as (_ & Pd & _). assert (FO : bfin (Bopp x)) by (rewrite is_finite_Bopp; apply Px). rewrite !pt_val by (auto; apply Px).
  destruct (ev_Z 0 ltac:(sm)) as [Z0 E0].
  replace (Bltb (bofZ 0) x) with true by (symmetry; apply ltb_ev; auto; [apply nn_fin, Px|rewrite E0, ev_fin; apply Px]).
  replace (Bltb (bofZ 0) (Bopp x)) with false by (symmetry; apply ltb_ev_f; auto; [now apply nn_fin|rewrite E0, ev_fin, B2R_Bopp by auto; destruct Px; lra]).
  rewrite lower_opp; auto. apply Px.
Qed.
End CDF4.
