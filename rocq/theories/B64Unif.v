(** The uniform distribution functions in binary64 (C47). *)
From Coq Require Import ZArith Reals QArith Bool List Lra Lia Psatz.
From Verif Require Import Num Sanity ER ERTac B64 Prob Quant Rand MT B64R RandB64 RandB64b.
From Flocq Require Import Core Plus_error IEEE754.BinarySingleNaN.
Local Open Scope R_scope.

Notation fexp := (SpecFloat.fexp 53 1024).

Lemma bsub_fin (x y : b64) : fin x -> fin y -> fin (bsub x y) ->
  B2R (bsub x y) = rnd (B2R x - B2R y) /\ Rabs (rnd (B2R x - B2R y)) < maxR.
Proof.
  intros Fx Fy H. pose proof (Bminus_correct 53 1024 _ _ mode_NE x y Fx Fy) as C.
  change (round radix2 fexp64 (round_mode mode_NE) (B2R x - B2R y)) with (rnd (B2R x - B2R y)) in C.
  destruct (Rlt_bool_spec (Rabs (rnd (B2R x - B2R y))) (bpow radix2 1024)) as [L|L]; [tauto|].
  exfalso. destruct C as [C _]. unfold bsub in H. destruct (Bminus mode_NE x y); try discriminate H.
  - cbn in C. destruct (Bsign x); discriminate.
  - cbn in C. destruct (Bsign x); discriminate.
Qed.
Lemma b64_max (x : b64) : fin x -> Rabs (B2R x) < maxR.
Proof. intros. apply abs_B2R_lt_emax. Qed.
Lemma rnd_pos_diff (a b : b64) : B2R a < B2R b -> 0 < rnd (B2R b - B2R a).
Proof.
  intros H. assert (N : rnd (B2R b + - B2R a) <> 0).
  { apply round_plus_neq_0; auto with typeclass_instances.
    - apply generic_format_B2R.
    - apply generic_format_opp, generic_format_B2R.
    - lra. }
  assert (P : rnd 0 <= rnd (B2R b + - B2R a)) by (apply rnd_le; lra). rewrite rnd_0 in P. unfold Rminus. lra.
Qed.

(** every double is an integer multiple of 2^-1074 *)
Lemma b64_grid (x : b64) : exists k, B2R x = IZR k * bpow radix2 (-1074).
Proof.
  pose proof (generic_format_B2R 53 1024 x) as G. unfold generic_format in G.
  set (m := Ztrunc (scaled_mantissa radix2 fexp (B2R x))) in *. set (ex := cexp radix2 fexp (B2R x)) in *.
  assert (He : (-1074 <= ex)%Z).
  { unfold ex, cexp. change (fexp (mag radix2 (B2R x))) with (Z.max (mag radix2 (B2R x) - 53) (-1074)). lia. }
  exists (m * 2 ^ (ex + 1074))%Z. rewrite G. unfold F2R. cbn [Fnum Fexp].
  replace (bpow radix2 ex) with (bpow radix2 (ex + 1074) * bpow radix2 (-1074)) by (rewrite <- bpow_plus; f_equal; lia).
  rewrite mult_IZR. rewrite <- (IZR_Zpower radix2) by lia. cbn [radix_val radix2]. ring.
Qed.
(** an inexact difference is at least 2^-1021 *)
Lemma inexact_big (a b : b64) : rnd (B2R b - B2R a) <> B2R b - B2R a -> bpow radix2 (-1021) <= Rabs (B2R b - B2R a).
Proof.
  intros H. destruct (b64_grid a) as [ka Ha]. destruct (b64_grid b) as [kb Hb].
  apply Rnot_lt_le. intros L. apply H.
  replace (B2R b - B2R a) with (IZR (kb - ka) * bpow radix2 (-1074)) in * by (rewrite minus_IZR, Ha, Hb; ring).
  apply rnd_dyadic; [|lia]. rewrite Rabs_mult, (Rabs_pos_eq (bpow _ _)) in L by apply bpow_ge_0.
  replace (bpow radix2 (-1021)) with (IZR (2 ^ 53) * bpow radix2 (-1074)) in L.
  - apply Rmult_lt_reg_r in L; [|apply bpow_gt_0]. rewrite <- abs_IZR in L. apply lt_IZR in L. lia.
  - replace (-1021)%Z with (53 + -1074)%Z by lia. rewrite bpow_plus. f_equal.
Qed.

Lemma pred1 : pred radix2 fexp 1 = 1 - bpow radix2 (-53).
Proof.
  replace 1 with (bpow radix2 0) by reflexivity. rewrite pred_bpow. reflexivity.
Qed.
Lemma below_1 (p : b64) : fin p -> B2R p < 1 -> B2R p <= 1 - bpow radix2 (-53).
Proof.
  intros Fp H. rewrite <- pred1. apply pred_ge_gt; auto with typeclass_instances.
  - apply generic_format_B2R.
  - replace 1 with (bpow radix2 0) by reflexivity. apply generic_format_bpow. cbn. lia.
Qed.

(** multiplying a normal number by p < 1 rounds to something smaller *)
Lemma mult_smaller (p w : R) : 0 <= p <= 1 - bpow radix2 (-53) -> generic_format radix2 fexp w ->
  bpow radix2 (-1021) <= w -> rnd (p * w) <= pred radix2 fexp w.
Proof.
  intros Hp Gw Hw. assert (W : 0 < w) by (pose proof (bpow_gt_0 radix2 (-1021)); lra).
  pose proof (mag radix2 w) as [ex Hex]. specialize (Hex ltac:(lra)). rewrite (Rabs_pos_eq w) in Hex by lra.
  assert (He : (-1020 <= ex)%Z).
  { assert (-1021 < ex)%Z; [|lia]. apply (lt_bpow radix2). lra. }
  assert (Hm : mag radix2 w = ex :> Z). { apply mag_unique. rewrite Rabs_pos_eq by lra. auto. }
  assert (Hf : fexp ex = (ex - 53)%Z).
  { change (fexp ex) with (Z.max (ex - 53) (-1074)). lia. }
  assert (Hf1 : fexp (ex - 1) = (ex - 54)%Z).
  { change (fexp (ex - 1)) with (Z.max (ex - 1 - 53) (-1074)). lia. }
  assert (Gp : generic_format radix2 fexp (pred radix2 fexp w)) by (apply generic_format_pred; auto with typeclass_instances).
  assert (Pw : p * w <= w - bpow radix2 (-53) * w) by nra.
  destruct (Req_dec w (bpow radix2 (ex - 1))) as [B|B].
  - rewrite <- (rnd_fmt (pred radix2 fexp w)) by auto. apply rnd_le. rewrite B at 2. rewrite pred_bpow, Hf1, <- B.
    replace (bpow radix2 (ex - 54)) with (bpow radix2 (-53) * w); [lra|].
    rewrite B, <- bpow_plus. f_equal. lia.
  - apply round_N_le_midp; auto with typeclass_instances. rewrite succ_pred by (auto with typeclass_instances).
    rewrite pred_eq_pos by lra. unfold pred_pos. rewrite Hm.
    destruct (Req_bool_spec w (bpow radix2 (ex - 1))); [contradiction|].
    rewrite ulp_neq_0 by lra. unfold cexp. rewrite Hm, Hf.
    assert (L : bpow radix2 (ex - 54) < bpow radix2 (-53) * w).
    { replace (bpow radix2 (ex - 54)) with (bpow radix2 (-53) * bpow radix2 (ex - 1)) by (rewrite <- bpow_plus; f_equal; lia).
      apply Rmult_lt_compat_l; [apply bpow_gt_0|]. lra. }
    replace (bpow radix2 (ex - 53)) with (2 * bpow radix2 (ex - 54)).
    + lra.
    + replace (ex - 53)%Z with (1 + (ex - 54))%Z by lia. rewrite bpow_plus. reflexivity.
Qed.

Lemma bofZ_pow2 m e : (Z.abs m <= 1)%Z -> (0 <= e < 1024)%Z -> m <> 0%Z -> B2R (bofZ (m * 2 ^ e)) = IZR m * bpow radix2 e.
Proof.
  intros Hm He Hn. unfold bofZ. pose proof (binary_normalize_correct 53 1024 _ _ mode_NE (m * 2 ^ e) 0 false) as C.
  cbv zeta in C.
  assert (X : F2R (Float radix2 (m * 2 ^ e) 0) = IZR m * bpow radix2 e).
  { unfold F2R. cbn [Fnum Fexp bpow]. rewrite mult_IZR, <- (IZR_Zpower radix2) by lia. cbn [radix_val radix2]. ring. }
  rewrite X in C. change (round radix2 (SpecFloat.fexp 53 1024) (round_mode mode_NE) (IZR m * bpow radix2 e)) with (rnd (IZR m * bpow radix2 e)) in C.
  rewrite rnd_dyadic in C by lia. rewrite Rlt_bool_true in C; [tauto|].
  rewrite Rabs_mult, <- abs_IZR, (Rabs_pos_eq (bpow _ _)) by apply bpow_ge_0.
  apply Rle_lt_trans with (1 * bpow radix2 e).
  - apply Rmult_le_compat_r; [apply bpow_ge_0|]. now apply IZR_le.
  - rewrite Rmult_1_l. apply bpow_lt. lia.
Qed.

Section S.
Variable F : TF.
Notation NB := (B64_Num F).

Lemma not_nan (x : b64) : fin x -> Num.is_nan (Num:=NB) x = false.
Proof. destruct x; cbn; auto; discriminate. Qed.
Lemma not_inf (x : b64) : fin x -> is_inf (N:=NB) x = false.
Proof. destruct x; cbn; auto; discriminate. Qed.
Lemma unif2_ok (a b : b64) : fin a -> fin b -> B2R a < B2R b -> unif_sanity2 (N:=NB) a b = true.
Proof. intros. pose proof (unif_ok F a b) as U. destruct (unif_sanity2 a b); auto. specialize (U H H0 H1). discriminate. Qed.

Lemma punif_range (x a b : b64) : fin x -> fin a -> fin b -> B2R a < B2R b -> fin (bsub b a) ->
  exists v, punif (N:=NB) x a b false = v /\ fin v /\ 0 <= B2R v <= 1.
Proof.
  intros Fx Fa Fb H Fd. eexists. split; [reflexivity|]. unfold punif, unif_sanity3.
  rewrite not_nan, unif2_ok by auto. cbn [negb andb]. unfold all_inf2. rewrite (not_inf a) by auto. cbn [andb].
  unfold log_if, punif_compute. destruct b1 as [R1 F1]. destruct b0 as [R0 F0].
  change (leb (Num:=NB)) with (Bleb (prec:=53) (emax:=1024)). change (sub (Num:=NB)) with bsub. change (div (Num:=NB)) with bdiv.
  change (ofZ (Num:=NB)) with bofZ.
  destruct (Bleb x a) eqn:L1; [rewrite R0; split; [auto|lra]|].
  destruct (Bleb b x) eqn:L2; [rewrite R1; split; [auto|lra]|].
  apply bleb_R_f in L1; auto. apply bleb_R_f in L2; auto.
  destruct (bsub_fin b a Fb Fa Fd) as [Rd Md].
  pose proof (rnd_pos_diff a b H) as Pd. pose proof (rnd_pos_diff a x L1) as Px.
  assert (Lx : rnd (B2R x - B2R a) <= rnd (B2R b - B2R a)) by (apply rnd_le; lra).
  destruct (bsub_R x a Fx Fa) as [Rx FX]. { rewrite Rabs_pos_eq in * by lra. lra. }
  assert (Q : 0 <= rnd (B2R (bsub x a) / B2R (bsub b a)) <= 1).
  { rewrite Rx, Rd. assert (Q : 0 <= rnd (B2R x - B2R a) / rnd (B2R b - B2R a) <= 1).
    { split; [left; now apply Rdiv_lt_0_compat|]. apply (Rmult_le_reg_r (rnd (B2R b - B2R a))); auto.
      unfold Rdiv. rewrite Rmult_assoc, Rinv_l; lra. }
    split; [rewrite <- rnd_0|rewrite <- (rnd_Z 1) by (cbn; lia)]; apply rnd_le; lra. }
  destruct (bdiv_R (bsub x a) (bsub b a) FX) as [RQ FQ].
  - rewrite Rd. lra.
  - rewrite Rabs_pos_eq by lra. pose proof (maxR_big 1 ltac:(cbn; lia)) as M. change (Z.abs 1) with 1%Z in M. lra.
  - rewrite RQ. split; auto.
Qed.

Lemma qunif_range (p a b : b64) : fin p -> 0 <= B2R p <= 1 -> fin a -> fin b -> B2R a < B2R b -> fin (bsub b a) ->
  exists v, qunif (N:=NB) p a b = v /\ fin v /\ B2R a <= B2R v <= B2R b.
Proof.
  intros Fp Hp Fa Fb H Fd. eexists. split; [reflexivity|]. unfold qunif. destruct b1 as [R1 F1]. destruct b0 as [R0 F0].
  rewrite unif2_ok by auto. cbn [negb].
  replace (prob_val_check (N:=NB) p) with true.
  2:{ symmetry. unfold prob_val_check. rewrite ?not_nan by auto.
      change (ltb (Num:=NB)) with (Bltb (prec:=53) (emax:=1024)). change (leb (Num:=NB)) with (Bleb (prec:=53) (emax:=1024)).
      change (ofZ (Num:=NB)) with bofZ.
      rewrite ?(proj2 (bleb_R (bofZ 0) p F0 Fp)), ?(proj2 (bleb_R p (bofZ 1) Fp F1)) by lra.
      rewrite ?(proj2 (bltb_R_f p (bofZ 0) Fp F0)), ?(proj2 (bltb_R_f (bofZ 1) p F1 Fp)) by lra. reflexivity. }
  cbn [negb]. unfold any_inf2. rewrite (not_inf a), (not_inf b) by auto. cbn [orb].
  change (eqb (Num:=NB)) with (Beqb (prec:=53) (emax:=1024)). change (ofZ (Num:=NB)) with bofZ.
  destruct (Beqb p (bofZ 0)) eqn:E0; [split; auto; lra|].
  destruct (Beqb p (bofZ 1)) eqn:E1; [split; auto; lra|].
  apply beqb_R_f in E0; auto. apply beqb_R_f in E1; auto. rewrite R0 in E0. rewrite R1 in E1.
  unfold qunif_compute. change (sub (Num:=NB)) with bsub. change (add (Num:=NB)) with badd. change (mul (Num:=NB)) with bmul.
  destruct (bsub_fin b a Fb Fa Fd) as [Rd Md]. pose proof (rnd_pos_diff a b H) as Pd.
  set (w := rnd (B2R b - B2R a)) in *.
  assert (T1 : 0 <= rnd (B2R p * w) <= w).
  { split; [rewrite <- rnd_0; apply rnd_le; nra|]. unfold w at 2.
    rewrite <- (rnd_fmt (rnd (B2R b - B2R a))) by (apply generic_format_round; auto with typeclass_instances).
    apply rnd_le. fold w. nra. }
  destruct (bmul_R p (bsub b a) Fp Fd) as [RT FT].
  { rewrite Rd. rewrite Rabs_pos_eq by lra. rewrite Rabs_pos_eq in Md by lra. lra. }
  rewrite Rd in RT. set (t := rnd (B2R p * w)) in *.
  assert (T2 : B2R a + t <= B2R b).
  { destruct (Rle_lt_dec w (B2R b - B2R a)) as [L|L]; [lra|].
    assert (N : rnd (B2R b - B2R a) <> B2R b - B2R a) by (fold w; lra).
    apply inexact_big in N. rewrite Rabs_pos_eq in N by lra.
    assert (Gw : generic_format radix2 fexp w) by (apply generic_format_round; auto with typeclass_instances).
    assert (Hw : t <= pred radix2 fexp w).
    { apply mult_smaller; auto; [|lra]. split; [lra|]. apply below_1; auto; lra. }
    assert (Pz : pred radix2 fexp w <= B2R b - B2R a); [|lra].
    apply Rnot_lt_le. intros C.
    assert (Q : rnd (B2R b - B2R a) <= rnd (pred radix2 fexp w)) by (apply rnd_le; lra).
    rewrite (rnd_fmt (pred radix2 fexp w)) in Q by (apply generic_format_pred; auto with typeclass_instances).
    fold w in Q. pose proof (pred_lt_id radix2 fexp w ltac:(lra)). lra. }
  assert (Q : B2R a <= rnd (B2R a + t) <= B2R b).
  { split; [rewrite <- (B2R_fmt a) at 1|rewrite <- (B2R_fmt b)]; apply rnd_le; lra. }
  destruct (badd_R a (bmul p (bsub b a)) Fa FT) as [RS FS].
  - rewrite RT. pose proof (b64_max a Fa) as Ma. pose proof (b64_max b Fb) as Mb.
    apply Rabs_def2 in Ma. apply Rabs_def2 in Mb. apply Rabs_def1; lra.
  - rewrite RS, RT. split; auto.
Qed.

(** infinite x *)
Lemma punif_pinf (a b : b64) : fin a -> fin b -> B2R a < B2R b ->
  punif (N:=NB) (B754_infinity false) a b false = bofZ 1.
Proof.
  intros Fa Fb H. unfold punif, unif_sanity3. rewrite unif2_ok by auto. cbn [negb andb].
  unfold all_inf2. rewrite (not_inf a) by auto. cbn [andb].
  destruct a; destruct b; try discriminate Fa; try discriminate Fb; reflexivity.
Qed.
Lemma punif_minf (a b : b64) : fin a -> fin b -> B2R a < B2R b ->
  punif (N:=NB) (B754_infinity true) a b false = bofZ 0.
Proof.
  intros Fa Fb H. unfold punif, unif_sanity3. rewrite unif2_ok by auto. cbn [negb andb].
  unfold all_inf2. rewrite (not_inf a) by auto. cbn [andb].
  destruct a; destruct b; try discriminate Fa; try discriminate Fb; reflexivity.
Qed.
Lemma punif_range_all (x a b : b64) : Num.is_nan (Num:=NB) x = false -> fin a -> fin b -> B2R a < B2R b -> fin (bsub b a) ->
  fin (punif (N:=NB) x a b false) /\ 0 <= B2R (punif (N:=NB) x a b false) <= 1.
Proof.
  intros Hx Fa Fb H Fd. destruct b1 as [R1 F1]. destruct b0 as [R0 F0]. destruct (is_finite x) eqn:Fx.
  - destruct (punif_range x a b Fx Fa Fb H Fd) as (v & -> & ?). auto.
  - destruct x as [| [] | |]; try discriminate.
    + rewrite punif_minf, R0 by auto. split; auto; lra.
    + rewrite punif_pinf, R1 by auto. split; auto; lra.
Qed.

(** The computed CDF is monotone. *)
Lemma punif_mono (x y a b : b64) : fin x -> fin y -> fin a -> fin b -> B2R a < B2R b -> fin (bsub b a) ->
  B2R x <= B2R y -> B2R (punif (N:=NB) x a b false) <= B2R (punif (N:=NB) y a b false).
Proof.
  intros Fx Fy Fa Fb H Fd L.
  destruct (punif_range x a b Fx Fa Fb H Fd) as (vx & Ex & _ & Bx).
  destruct (punif_range y a b Fy Fa Fb H Fd) as (vy & Ey & _ & By).
  rewrite Ex, Ey. revert Ex Ey. unfold punif, unif_sanity3.
  rewrite !not_nan, unif2_ok by auto. cbn [negb andb]. unfold all_inf2. rewrite (not_inf a) by auto. cbn [andb].
  unfold log_if, punif_compute. destruct b1 as [R1 F1]. destruct b0 as [R0 F0].
  change (leb (Num:=NB)) with (Bleb (prec:=53) (emax:=1024)). change (sub (Num:=NB)) with bsub. change (div (Num:=NB)) with bdiv.
  change (ofZ (Num:=NB)) with bofZ.
  destruct (Bleb x a) eqn:L1. { intros <- _. rewrite R0. lra. }
  destruct (Bleb y a) eqn:L3. { apply bleb_R in L3; auto. apply bleb_R_f in L1; auto. lra. }
  destruct (Bleb b y) eqn:L4. { intros _ <-. rewrite R1. lra. }
  destruct (Bleb b x) eqn:L2. { intros <- _. apply bleb_R in L2; auto. apply bleb_R_f in L4; auto. lra. }
  apply bleb_R_f in L1, L2, L3, L4; auto. destruct (bsub_fin b a Fb Fa Fd) as [Rd Md].
  pose proof (rnd_pos_diff a b H) as Pd. pose proof (rnd_pos_diff a x L1) as Px. pose proof (rnd_pos_diff a y L3) as Py.
  assert (K : forall z : b64, fin z -> B2R a < B2R z < B2R b ->
    B2R (bdiv (bsub z a) (bsub b a)) = rnd (rnd (B2R z - B2R a) / rnd (B2R b - B2R a))).
  { intros z Fz Hz. pose proof (rnd_pos_diff a z (proj1 Hz)) as Pz.
    assert (Lx : rnd (B2R z - B2R a) <= rnd (B2R b - B2R a)) by (apply rnd_le; lra).
    destruct (bsub_R z a Fz Fa) as [Rx FX]. { rewrite Rabs_pos_eq in * by lra. lra. }
    destruct (bdiv_R (bsub z a) (bsub b a) FX) as [RQ FQ].
    - rewrite Rd. lra.
    - rewrite Rx, Rd. assert (Q : 0 <= rnd (rnd (B2R z - B2R a) / rnd (B2R b - B2R a)) <= 1).
      { assert (Q : 0 <= rnd (B2R z - B2R a) / rnd (B2R b - B2R a) <= 1).
        { split; [left; now apply Rdiv_lt_0_compat|]. apply (Rmult_le_reg_r (rnd (B2R b - B2R a))); auto.
          unfold Rdiv. rewrite Rmult_assoc, Rinv_l; lra. }
        split; [rewrite <- rnd_0|rewrite <- (rnd_Z 1) by (cbn; lia)]; apply rnd_le; lra. }
      rewrite Rabs_pos_eq by lra. pose proof (maxR_big 1 ltac:(cbn; lia)) as M. change (Z.abs 1) with 1%Z in M. lra.
    - now rewrite RQ, Rx, Rd. }
  intros <- <-. rewrite !K by (auto; lra). apply rnd_le. apply Rmult_le_compat_r.
  - left. now apply Rinv_0_lt_compat.
  - apply rnd_le. lra.
Qed.

(** Overflow of b - a: punif returns NaN and qunif an infinity. *)
Lemma punif_ovf_refuted : exists x a b : b64, fin x /\ fin a /\ fin b /\ Bltb a b = true /\
  Num.is_nan (Num:=NB) (punif (N:=NB) x a b false) = true.
Proof.
  exists (bofZ (2 ^ 1023 + 2 ^ 1021)), (bofZ (- 2 ^ 1023)), (bofZ (2 ^ 1023 + 2 ^ 1022)).
  split; [vm_compute; reflexivity|]. split; [vm_compute; reflexivity|]. split; [vm_compute; reflexivity|].
  split; vm_compute; reflexivity.
Qed.
(** with x - a still finite the quotient is 0: punif(x,a,b) = 0 three quarters of the way up *)
Lemma punif_ovf_zero : exists x a b : b64, fin x /\ fin a /\ fin b /\ Bltb a b = true /\
  B2R x - B2R a = 3 / 4 * (B2R b - B2R a) /\ B2R (punif (N:=NB) x a b false) = 0.
Proof.
  exists (bofZ (2 ^ 1022)), (bofZ (- 2 ^ 1023)), (bofZ (2 ^ 1023)).
  split; [vm_compute; reflexivity|]. split; [vm_compute; reflexivity|]. split; [vm_compute; reflexivity|].
  split; [vm_compute; reflexivity|]. split.
  - pose proof (bofZ_pow2 1 1022 ltac:(lia) ltac:(lia) ltac:(lia))%Z as B1. pose proof (bofZ_pow2 (-1) 1023 ltac:(lia) ltac:(lia) ltac:(lia))%Z as B2.
    pose proof (bofZ_pow2 1 1023 ltac:(lia) ltac:(lia) ltac:(lia))%Z as B3.
    change (1 * 2 ^ 1022)%Z with (2 ^ 1022)%Z in B1. change (-1 * 2 ^ 1023)%Z with (- 2 ^ 1023)%Z in B2. change (1 * 2 ^ 1023)%Z with (2 ^ 1023)%Z in B3.
    rewrite B1, B2, B3. replace (bpow radix2 1023) with (2 * bpow radix2 1022) by (change 1023%Z with (1 + 1022)%Z; rewrite bpow_plus; reflexivity). lra.
  - match goal with |- B2R ?v = 0 => replace v with (B754_zero false : b64) end.
    + reflexivity.
    + apply B2SF_inj. vm_compute. reflexivity.
Qed.
Lemma qunif_ovf_refuted : exists p a b : b64, fin p /\ 0 < B2R p < 1 /\ fin a /\ fin b /\ Bltb a b = true /\
  qunif (N:=NB) p a b = B754_infinity false.
Proof.
  exists (blit (1#2)), (bofZ (- 2 ^ 1023)), (bofZ (2 ^ 1023)).
  split; [vm_compute; reflexivity|]. split.
  - replace (blit (1#2)) with (@B754_finite 53 1024 false (2^52) (-53) eq_refl) by (apply B2SF_inj; vm_compute; reflexivity).
    cbn. unfold F2R, Rdiv. cbn [Fnum Fexp]. cbn. lra.
  - split; [vm_compute; reflexivity|]. split; [vm_compute; reflexivity|]. split; [vm_compute; reflexivity|].
    apply B2SF_inj. vm_compute. reflexivity.
Qed.
(** runif overflows in the same way *)
Lemma runif_ovf_refuted : exists a b : b64, fin a /\ fin b /\ Bltb a b = true /\
  is_finite (fst (runif (N:=NB) mt_rng a b (mt_seed 1))) = false.
Proof.
  exists (bofZ (- 2 ^ 1023)), (bofZ (2 ^ 1023)).
  split; [vm_compute; reflexivity|]. split; [vm_compute; reflexivity|]. split; vm_compute; reflexivity.
Qed.
End S.
