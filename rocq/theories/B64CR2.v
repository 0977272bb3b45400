(** The correctly rounded functions of [TFR] also satisfy the hypotheses on the inverse functions. *)
From Coq Require Import ZArith QArith Reals Bool Lra Lia.
From Coquelicot Require Import Coquelicot.
From Verif Require Import Erf GammaFn BetaFn.
From Verif Require Import Num Witness WitnessSF Sanity Prob B64 B64R B64Ord SpecB64 B64Cdf B64Cdf2 B64Cdf3 B64CR.
From Flocq Require Import Core IEEE754.BinarySingleNaN.
Local Open Scope R_scope.

Lemma erf_sup x : sup_inv erfR (erfR x) = x.
Proof. apply sup_inv_spec; intros t Ht; [now apply erfR_le|now apply erfR_slt]. Qed.
Lemma erf_sup_mono r s : -1 < r -> r <= s -> s < 1 -> sup_inv erfR r <= sup_inv erfR s.
Proof.
  intros L1 L2 L3. destruct (erfR_surj r ltac:(lra)) as [x <-], (erfR_surj s ltac:(lra)) as [y <-]. rewrite !erf_sup.
  destruct (Rle_lt_dec x y) as [|G]; auto. apply erfR_slt in G. lra.
Qed.
Lemma TFR_erf_inv : erf_inv_ok TFR.
Proof.
  apply CR_incr; try crz; [crle| |intros; apply rcpm]. intros r s _ L _. apply extb_mono; auto. apply erf_sup_mono.
Qed.
Lemma tan_mono r s : - (Rtrigo1.PI / 2) < r -> r <= s -> s < Rtrigo1.PI / 2 -> Rtrigo1.tan r <= Rtrigo1.tan s.
Proof. intros L1 [L2 | ->] L3; [left; apply tan_increasing; auto; lra|lra]. Qed.
Lemma TFR_tan : tan_ok TFR.
Proof.
  destruct TFR_PI as [PP _]. pose proof (pos_bpos _ PP) as [FP _]. destruct half_R as [Hf _]. destruct (mul_ff _ _ FP Hf) as [U _].
  apply CR_incr; try crz; auto; [apply nn_opp; auto|crle| |intros; apply rcpm]. intros r s _ L _. apply extb_mono; auto. apply tan_mono.
Qed.
Lemma TFR_log01 : log01_ok TFR.
Proof.
  split; [exact TFR_log|]. cbn [t_log TFR]. destruct (bofZ_R 1 ltac:(sm)) as [A1 F1]. rewrite CR_fin by auto. rewrite A1. unfold extl. destruct Rle_dec; [lra|].
  rewrite ln_1. destruct (rdB_ev (cl 0)) as [A B]. apply eqb_ev; auto; [crz|]. rewrite B, ev0. unfold cl. pose proof maxR_pos. rewrite Rmin_right, Rmax_right by lra. apply rc_0.
Qed.
Lemma ln1p_mono r s : -1 < r -> r <= s -> ln (1 + r) <= ln (1 + s). Proof. intros. apply ln_le'; lra. Qed.
Lemma TFR_log1p : log1p_ok TFR.
Proof.
  assert (M : forall r s, r <= s -> extl (-1) (fun r => ln (1 + r)) r <= extl (-1) (fun r => ln (1 + r)) s) by (intros; apply extl_mono; auto; apply ln1p_mono).
  assert (K : b64_incr (bofZ (-1)) (bofZ 0) mI pI (t_log1p TFR)) by (apply CR_incr; try crz; [crle|intros; apply M; lra|intros; apply rcpm]).
  split; [|apply K]. intros x L1 L2. split; [now apply K|]. apply leb_ev in L1, L2. destruct L1 as (_ & N & L1), L2 as (_ & _ & L2). rewrite evm1 in L1. rewrite ev0 in L2. pose proof maxR_1 as M1.
  assert (Fx : bfin x) by (apply ev_lt_fin; auto; lra). cbn [t_log1p TFR]. rewrite CR_fin by auto. destruct (rdB_ev (extl (-1) (fun r => ln (1 + r)) (B2R x))) as [A B].
  apply leb_ev. split; auto. split; [crz|]. rewrite B, ev0, <- rc_0. apply rc_mono. rewrite ev_fin in L2 by auto. apply Rle_trans with (1 := M _ _ L2).
  unfold extl. destruct Rle_dec; [lra|]. rewrite Rplus_0_r, ln_1. unfold cl. rewrite Rmin_right, Rmax_right by lra. lra.
Qed.
Lemma PG_sup a p : 0 < a -> 0 < p < 1 -> exists x, 0 < x /\ PG a x = p /\ sup_inv (PG a) p = x.
Proof.
  intros Pa Pp. destruct (SFR_incgamma_inv a p Pa Pp) as (x & E & H & V). exists x. cbn in E. injection E as E. auto.
Qed.
Lemma IB_sup a b p : 0 < a -> 0 < b -> 0 < p < 1 -> exists x, 0 < x < 1 /\ IB a b x = p /\ sup_inv (IB a b) p = x.
Proof.
  intros Pa Pb Pp. destruct (SFR_incbeta_inv a b p Pa Pb Pp) as (x & E & H & V). exists x. cbn in E. injection E as E. auto.
Qed.
Lemma invG_mono a r s : 0 < a -> r <= s -> invG a r <= invG a s.
Proof.
  intros Pa L. pose proof maxR_pos. unfold invG. repeat destruct Rle_dec; try lra.
  - destruct (PG_sup a s Pa ltac:(lra)) as (y & Py & _ & ->). apply Rmin_glb; lra.
  - apply Rmin_l.
  - destruct (PG_sup a r Pa ltac:(lra)) as (x & Px & Vx & ->), (PG_sup a s Pa ltac:(lra)) as (y & Py & Vy & ->). apply Rle_min_compat_l.
    destruct (Rle_lt_dec x y) as [|G]; auto. apply (PG_slt a) in G; lra.
Qed.
Lemma invG_nonneg a p : 0 < a -> 0 <= invG a p.
Proof.
  intros Pa. pose proof maxR_pos. unfold invG. repeat destruct Rle_dec; try lra. destruct (PG_sup a p Pa ltac:(lra)) as (y & Py & _ & ->). apply Rmin_glb; lra.
Qed.
Lemma TFR_incgamma_inv : incgamma_inv_ok TFR.
Proof.
  intros a Pa. apply pos_bpos in Pa. destruct Pa as [Fa Pa]. apply CR_incr; try crz; [crle|..].
  - intros r s _ L _. now apply invG_mono.
  - intros r _. apply rcp; [sm|]. now apply invG_nonneg.
Qed.
Lemma invB_range a b p : 0 < a -> 0 < b -> 0 <= invB a b p <= 1.
Proof.
  intros Pa Pb. unfold invB. repeat destruct Rle_dec; try lra. destruct (IB_sup a b p Pa Pb ltac:(lra)) as (y & Py & _ & ->). lra.
Qed.
Lemma invB_mono a b r s : 0 < a -> 0 < b -> r <= s -> invB a b r <= invB a b s.
Proof.
  intros Pa Pb L. pose proof (invB_range a b r Pa Pb) as Hr. pose proof (invB_range a b s Pa Pb) as Hs. unfold invB in *. repeat destruct Rle_dec; try lra.
  destruct (IB_sup a b r Pa Pb ltac:(lra)) as (x & Px & Vx & E), (IB_sup a b s Pa Pb ltac:(lra)) as (y & Py & Vy & E'). rewrite E, E'.
  destruct (Rle_lt_dec x y) as [|G]; auto. apply (IB_slt a b) in G; lra.
Qed.
Lemma TFR_incbeta_inv : incbeta_inv_ok TFR.
Proof.
  intros a b Pa Pb. apply pos_bpos in Pa, Pb. destruct Pa as [Fa Pa], Pb as [Fb Pb]. apply CR_incr; try crz; [crle|..].
  - intros r s _ L _. now apply invB_mono.
  - intros r _. apply rcr; try sm. now apply invB_range.
Qed.
Lemma rdB_pz r : rdB r <> B754_zero true.
Proof.
  intros E. pose proof (binary_normalize_correct 53 1024 b64_prec_gt_0 b64_prec_lt_emax mode_NE
     (ZnearestE (scaled_mantissa radix2 fexp64 r)) (cexp radix2 fexp64 r) false) as C. cbv zeta in C.
  change (F2R (Float radix2 (ZnearestE (scaled_mantissa radix2 fexp64 r)) (cexp radix2 fexp64 r))) with (rnd r) in C.
  change (round radix2 (SpecFloat.fexp 53 1024) (round_mode mode_NE) (rnd r)) with (rnd (rnd r)) in C.
  rewrite (rnd_fmt (rnd r)) in C by (apply generic_format_round; typeclasses eauto).
  change (binary_normalize 53 1024 b64_prec_gt_0 b64_prec_lt_emax mode_NE (ZnearestE (scaled_mantissa radix2 fexp64 r)) (cexp radix2 fexp64 r) false) with (rdB r) in C.
  rewrite E in C. destruct (Rlt_bool _ _) in C.
  - destruct C as (A & _ & B). cbn in A, B. rewrite <- A, Rcompare_Eq in B by auto. discriminate B.
  - cbn in C. discriminate C.
Qed.
Lemma TFR_incgamma_inv_pz : incgamma_inv_pz TFR.
Proof.
  intros a q _ L1 L2. apply leb_ev in L1, L2. destruct L1 as (_ & N & L1), L2 as (_ & _ & L2). rewrite ev0 in L1. rewrite ev1 in L2. pose proof maxR_1.
  assert (Fq : bfin q) by (apply ev_lt_fin; auto; lra). cbn [t_incgamma_inv TFR]. rewrite CR_fin by auto. apply rdB_pz.
Qed.
Lemma TFR_SQRT_2_1 : b64_pos (bmul (t_SQRT_2 TFR) (bofZ 1)).
Proof.
  destruct (pos_bpos _ TFR_SQRT_2) as [Fs Ps]. destruct (bofZ_R 1 ltac:(sm)) as [A1 F1]. destruct (mul_ff _ _ Fs F1) as [U V]. rewrite A1, Rmult_1_r, <- ev_fin, rc_ev in V by auto.
  pose proof (fin_lt _ Fs). split; apply ltb_ev; auto; try crz; rewrite V; unfold plus_inf; rewrite ?ev0, ?ev_p, ?ev_fin by auto; rewrite ?ev_fin in * by auto; lra.
Qed.
