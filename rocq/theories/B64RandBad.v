(** Samplers in binary64 that return NaN, an infinity or a value outside the support. *)
From Coq Require Import ZArith QArith Reals Bool Lra Lia.
From Verif Require Import Num Sanity Prob B64 B64R SpecB64 SpecB64D B64Ord B64Cdf B64CdfBad Rand SpecRandB.
From Flocq Require Import Core IEEE754.BinarySingleNaN.
Local Open Scope R_scope.
Local Notation half := (blit (1#2)).
Section Bad.
Variable F : TF.
Notation NB := (B64_Num F).
Lemma tape_ok u z : (forall n, bofZ 0 ≺ u n /\ u n ≺ bofZ 1)%b64 -> (forall n, b64_fin (z n)) -> rng_b64 (tape u z).
Proof. intros A B. split; intros e; [apply A|apply B]. Qed.
Definition halves : nat -> b64 := fun _ => half.
Lemma halves_ok n : (bofZ 0 ≺ halves n /\ halves n ≺ bofZ 1)%b64. Proof. split; vm_compute; reflexivity. Qed.

(** inverse Gaussian *)
Definition ig_nu : b64 := blit (1837#1000).
Lemma rinvgauss_neg : rng_b64 (tape halves (fun _ => ig_nu)) /\ big_eps (bofZ 100000000) /\ big_eps (bofZ 1) /\
  fst (rinvgauss (N:=NB) (tape halves (fun _ => ig_nu)) (bofZ 100000000) (bofZ 1) 0%nat) = bofZ (-2).
Proof.
  split; [apply tape_ok; [apply halves_ok|intros; split; vm_compute; reflexivity]|]. split; [split; vm_compute; reflexivity|]. split; [split; vm_compute; reflexivity|].
  apply b64_eq. vm_compute. reflexivity.
Qed.

Hypothesis V : few_values F.
Definition tiny_shape : b64 := bz 1 (-11).
(** gamma draws with a tiny shape vanish *)
Lemma rgamma_zero (z : nat -> b64) e scale : z (S e) = bofZ 0 -> gamma_sanity2 (N:=NB) tiny_shape scale = true -> gamma_sanity2 (N:=NB) (badd (bofZ 1) tiny_shape) scale = true ->
  b64_pos scale -> rgamma (N:=NB) (tape halves z) 2 tiny_shape scale e = Some (bmul (bmul (bmul (rgamma_d (N:=NB) (badd (bofZ 1) tiny_shape)) (bofZ 1)) scale) (bofZ 0), S (S (S e))).
Proof.
  intros Hz S1 S2 P. destruct V as (L1 & L2 & _ & _ & P1 & _ & P3). unfold rgamma. cbn [rgamma_rec]. rewrite S1. cbn [negb].
  change (ltb (ofZ 1) tiny_shape) with (Bltb (bofZ 1) tiny_shape). replace (Bltb (bofZ 1) tiny_shape) with false by (vm_compute; reflexivity).
  replace (runif01 (N:=NB) (tape halves z) e) with (half, S e) by reflexivity.
  change (add (ofZ 1) tiny_shape) with (badd (bofZ 1) tiny_shape). rewrite S2. cbn [negb].
  change (ltb (ofZ 1) (badd (bofZ 1) tiny_shape)) with (Bltb (bofZ 1) (badd (bofZ 1) tiny_shape)). replace (Bltb (bofZ 1) (badd (bofZ 1) tiny_shape)) with true by (vm_compute; reflexivity).
  set (d := rgamma_d (N:=NB) (badd (bofZ 1) tiny_shape)). set (c := rgamma_c (N:=NB) d).
  assert (R : rgamma_round (N:=NB) (tape halves z) d c (S e) = (Some (bofZ 1), S (S (S e)))).
  { unfold rgamma_round. replace (rnorm01 (N:=NB) (tape halves z) (S e)) with (badd (bofZ 0) (bmul (bofZ 1) (z (S e))), S (S e)) by reflexivity.
    rewrite Hz. replace (badd (bofZ 0) (bmul (bofZ 1) (bofZ 0))) with (bofZ 0) by (apply b64_eq; vm_compute; reflexivity).
    change (ltb (- ofZ 1 / c)%num (bofZ 0)) with (Bltb (bdiv (Bopp (bofZ 1)) c) (bofZ 0)). replace (Bltb (bdiv (Bopp (bofZ 1)) c) (bofZ 0)) with true by (vm_compute; reflexivity).
    replace (runif01 (N:=NB) (tape halves z) (S (S e))) with (half, S (S (S e))) by reflexivity.
    change (powZ (ofZ 1 + c * bofZ 0)%num 3) with (t_powZ F (badd (bofZ 1) (bmul c (bofZ 0))) 3). replace (badd (bofZ 1) (bmul c (bofZ 0))) with (bofZ 1) by (apply b64_eq; vm_compute; reflexivity).
    rewrite P1. cbv zeta.
    change (log (bofZ 1)) with (t_log F (bofZ 1)). rewrite L1.
    change (lit (1 # 2) * bofZ 0 * bofZ 0 + d * (ofZ 1 - bofZ 1 + bofZ 0))%num with (badd (bmul (bmul (blit (1#2)) (bofZ 0)) (bofZ 0)) (bmul d (badd (bsub (bofZ 1) (bofZ 1)) (bofZ 0)))).
    replace (badd (bmul (bmul (blit (1#2)) (bofZ 0)) (bofZ 0)) (bmul d (badd (bsub (bofZ 1) (bofZ 1)) (bofZ 0)))) with (bofZ 0) by (apply b64_eq; vm_compute; reflexivity).
    change (ltb (log half) (bofZ 0)) with (Bltb (t_log F half) (bofZ 0)). replace (Bltb (t_log F half) (bofZ 0)) with true; [reflexivity|].
    symmetry. apply leb_ev in L2. destruct L2 as (N1 & N2 & L). destruct (ev_Z 0 ltac:(sm)) as [N0 E0]. apply ltb_ev; auto. rewrite E0.
    assert (ev (blit (-1 # 2)) < 0) by (rewrite ev_fin by (vm_compute; reflexivity); vm_compute; lra). lra. }
  cbn [rgamma_loop]. rewrite R.
  change (pow half (ofZ 1 / tiny_shape)%num) with (t_pow F half (bdiv (bofZ 1) tiny_shape)). replace (bdiv (bofZ 1) tiny_shape) with (bofZ 2048) by (apply b64_eq; vm_compute; reflexivity).
  rewrite P3. reflexivity.
Qed.
Definition zeros : nat -> b64 := fun _ => bofZ 0.
Definition one_first : nat -> b64 := fun n => match n with O => bofZ 1 | _ => bofZ 0 end.
Lemma zeros_ok u : (forall n, bofZ 0 ≺ u n /\ u n ≺ bofZ 1)%b64 -> rng_b64 (tape u zeros). Proof. intros H. apply tape_ok; auto. intros; split; vm_compute; reflexivity. Qed.
Lemma tiny_big : big_eps tiny_shape. Proof. split; vm_compute; reflexivity. Qed.
Ltac gz e s := rewrite (rgamma_zero zeros e s) by (try split; vm_compute; reflexivity).
Lemma rbeta_nan : rbeta (N:=NB) (tape halves zeros) 2 tiny_shape tiny_shape 0%nat = Some (B754_nan, 6%nat).
Proof.
  unfold rbeta. replace (beta_sanity2 (N:=NB) tiny_shape tiny_shape) with true by (vm_compute; reflexivity). cbn [negb].
  change (rgamma (N:=NB) (tape halves zeros) 2 tiny_shape (ofZ 1) 0%nat) with (rgamma (N:=NB) (tape halves zeros) 2 tiny_shape (bofZ 1) 0%nat). gz 0%nat (bofZ 1). cbv iota beta.
  change (rgamma (N:=NB) (tape halves zeros) 2 tiny_shape (ofZ 1) 3%nat) with (rgamma (N:=NB) (tape halves zeros) 2 tiny_shape (bofZ 1) 3%nat). gz 3%nat (bofZ 1). cbv iota beta.
  set (x := bmul _ _). replace x with (bofZ 0) by (apply b64_eq; vm_compute; reflexivity).
  replace (bofZ 0 / (bofZ 0 + bofZ 0))%num with (B754_nan : b64) by (apply b64_eq; vm_compute; reflexivity). reflexivity.
Qed.
Definition tiny_dof : b64 := bz 1 (-10).
Lemma tiny_half : bdiv tiny_dof (bofZ 2) = tiny_shape. Proof. apply b64_eq. vm_compute. reflexivity. Qed.
Lemma rchisq_zero z e : z (S e) = bofZ 0 -> rchisq (N:=NB) (tape halves z) 2 tiny_dof e = Some (bofZ 0, S (S (S e))).
Proof.
  intros H. unfold rchisq. replace (chisq_sanity1 (N:=NB) tiny_dof) with true by (vm_compute; reflexivity). cbn [negb].
  change (div tiny_dof (ofZ 2)) with (bdiv tiny_dof (bofZ 2)). rewrite tiny_half. change (ofZ 2) with (bofZ 2).
  rewrite (rgamma_zero z e (bofZ 2)) by (auto; try split; vm_compute; reflexivity). apply (f_equal Some). match goal with |- (?a, ?n) = (?b, ?n) => assert (QQ : a = b); [|now rewrite QQ] end. apply b64_eq. vm_compute. reflexivity.
Qed.
Lemma rf_nan : rf (N:=NB) (tape halves zeros) 2 tiny_dof tiny_dof 0%nat = Some (B754_nan, 6%nat).
Proof.
  unfold rf. replace (f_sanity2 (N:=NB) tiny_dof tiny_dof) with true by (vm_compute; reflexivity). cbn [negb]. rewrite !rchisq_zero by reflexivity.
  apply (f_equal Some). match goal with |- (?a, ?n) = (?b, ?n) => assert (QQ : a = b); [|now rewrite QQ] end. apply b64_eq. vm_compute. reflexivity.
Qed.
Lemma rt_inf : rt (N:=NB) (tape halves one_first) 2 tiny_dof 0%nat = Some (plus_inf, 4%nat).
Proof.
  unfold rt. replace (t_sanity1 (N:=NB) tiny_dof) with true by (vm_compute; reflexivity). cbn [negb].
  replace (rnorm01 (N:=NB) (tape halves one_first) 0%nat) with (badd (bofZ 0) (bmul (bofZ 1) (bofZ 1)), 1%nat) by reflexivity. rewrite rchisq_zero by reflexivity.
  apply (f_equal Some). match goal with |- (?a, ?n) = (?b, ?n) => assert (QQ : a = b); [|now rewrite QQ] end. apply b64_eq. vm_compute. reflexivity.
Qed.
Lemma rt_nan : rt (N:=NB) (tape halves zeros) 2 tiny_dof 0%nat = Some (B754_nan, 4%nat).
Proof.
  unfold rt. replace (t_sanity1 (N:=NB) tiny_dof) with true by (vm_compute; reflexivity). cbn [negb].
  replace (rnorm01 (N:=NB) (tape halves zeros) 0%nat) with (badd (bofZ 0) (bmul (bofZ 1) (bofZ 0)), 1%nat) by reflexivity. rewrite rchisq_zero by reflexivity.
  apply (f_equal Some). match goal with |- (?a, ?n) = (?b, ?n) => assert (QQ : a = b); [|now rewrite QQ] end. apply b64_eq. vm_compute. reflexivity.
Qed.
Lemma rinvgamma_inf : rinvgamma (N:=NB) (tape halves zeros) 2 tiny_shape (bofZ 1) 0%nat = Some (plus_inf, 3%nat).
Proof.
  unfold rinvgamma. replace (invgamma_sanity2 (N:=NB) tiny_shape (bofZ 1)) with true by (vm_compute; reflexivity). cbn [negb].
  change (div (ofZ 1) (bofZ 1)) with (bdiv (bofZ 1) (bofZ 1)). replace (bdiv (bofZ 1) (bofZ 1)) with (bofZ 1) by (apply b64_eq; vm_compute; reflexivity). gz 0%nat (bofZ 1).
  apply (f_equal Some). match goal with |- (?a, ?n) = (?b, ?n) => assert (QQ : a = b); [|now rewrite QQ] end. apply b64_eq. vm_compute. reflexivity.
Qed.

(** gamma with a huge scale: infinity times zero *)
Definition top_scale : b64 := bz 1 1023.
Definition gd : b64 := rgamma_d (N:=NB) (badd (bofZ 1) tiny_shape).
Definition gc : b64 := rgamma_c (N:=NB) gd.
Definition gz : b64 := bdiv (bofZ 1) gc.
Lemma gd_val : B2SF gd = B2SF (bsub (badd (bofZ 1) tiny_shape) (bdiv (bofZ 1) (bofZ 3))). Proof. reflexivity. Qed.
Lemma rgamma_nan : rgamma (N:=NB) (tape halves (fun _ => gz)) 2 tiny_shape top_scale 0%nat = Some (B754_nan, 3%nat).
Proof.
  destruct V as (_ & L2 & L8 & L8' & _ & P2 & P3). unfold rgamma. cbn [rgamma_rec].
  replace (gamma_sanity2 (N:=NB) tiny_shape top_scale) with true by (vm_compute; reflexivity). cbn [negb].
  change (ltb (ofZ 1) tiny_shape) with (Bltb (bofZ 1) tiny_shape). replace (Bltb (bofZ 1) tiny_shape) with false by (vm_compute; reflexivity).
  set (T := tape halves (fun _ => gz)). replace (runif01 (N:=NB) T 0%nat) with (half, 1%nat) by reflexivity.
  change (add (ofZ 1) tiny_shape) with (badd (bofZ 1) tiny_shape).
  replace (gamma_sanity2 (N:=NB) (badd (bofZ 1) tiny_shape) top_scale) with true by (vm_compute; reflexivity). cbn [negb].
  change (ltb (ofZ 1) (badd (bofZ 1) tiny_shape)) with (Bltb (bofZ 1) (badd (bofZ 1) tiny_shape)). replace (Bltb (bofZ 1) (badd (bofZ 1) tiny_shape)) with true by (vm_compute; reflexivity).
  fold gd. fold gc.
  assert (R : rgamma_round (N:=NB) T gd gc 1%nat = (Some (bofZ 8), 3%nat)).
  { unfold rgamma_round. replace (rnorm01 (N:=NB) T 1%nat) with (badd (bofZ 0) (bmul (bofZ 1) gz), 2%nat) by reflexivity.
    replace (badd (bofZ 0) (bmul (bofZ 1) gz)) with gz by (apply b64_eq; vm_compute; reflexivity).
    change (ltb (- ofZ 1 / gc)%num gz) with (Bltb (bdiv (Bopp (bofZ 1)) gc) gz). replace (Bltb (bdiv (Bopp (bofZ 1)) gc) gz) with true by (vm_compute; reflexivity).
    replace (runif01 (N:=NB) T 2%nat) with (half, 3%nat) by reflexivity.
    change (powZ (ofZ 1 + gc * gz)%num 3) with (t_powZ F (badd (bofZ 1) (bmul gc gz)) 3). replace (badd (bofZ 1) (bmul gc gz)) with (bofZ 2) by (apply b64_eq; vm_compute; reflexivity).
    rewrite P2. cbv zeta. change (log (bofZ 8)) with (t_log F (bofZ 8)). set (L := t_log F (bofZ 8)) in *.
    change (lit (1 # 2) * gz * gz + gd * (ofZ 1 - bofZ 8 + L))%num with (badd (bmul (bmul half gz) gz) (bmul gd (badd (bsub (bofZ 1) (bofZ 8)) L))).
    set (q := bmul (bmul half gz) gz). set (m := bsub (bofZ 1) (bofZ 8)).
    change (ltb (log half) (badd q (bmul gd (badd m L)))) with (Bltb (t_log F half) (badd q (bmul gd (badd m L)))).
    replace (Bltb (t_log F half) (badd q (bmul gd (badd m L)))) with true; [reflexivity|]. symmetry.
    apply leb_ev in L8, L8', L2. destruct L8 as (N2 & NL & L8), L8' as (_ & N3 & L8'), L2 as (Nh & _ & L2).
    destruct (ev_Z 2 ltac:(sm)) as [_ E2], (ev_Z 3 ltac:(sm)) as [_ E3]. rewrite E2 in L8. rewrite E3 in L8'. pose proof maxR_1 as M1.
    destruct (fin_of L 2 3 NL ltac:(lra)) as [FL BL]; [lra| |].
    { unfold maxR. apply Rlt_trans with (bpow radix2 2); [cbn; lra|apply bpow_lt; lia]. }
    assert (Fm : bfin m /\ B2R m = -7) by (split; [vm_compute; reflexivity|vm_compute; lra]). destruct Fm as [Fm Bm].
    destruct (add_ff m L Fm FL) as [Ns Es]. rewrite Bm in Es.
    assert (S1 : -5 <= ev (badd m L) <= -4) by (rewrite Es; apply (rc_range (-5) (-4)); sm || lra).
    assert (M8 : 8 < maxR) by (unfold maxR; apply Rlt_trans with (bpow radix2 4); [cbn; lra|apply bpow_lt; lia]).
    destruct (fin_of _ (-5) (-4) Ns S1) as [Fs Bs]; [lra|lra|].
    assert (Fd : bfin gd /\ 66 / 100 <= B2R gd <= 67 / 100) by (split; [vm_compute; reflexivity|vm_compute; lra]). destruct Fd as [Fd Bd].
    destruct (mul_ff gd _ Fd Fs) as [Np Ep].
    assert (Fq : bfin q /\ 299 / 100 <= B2R q <= 301 / 100) by (split; [vm_compute; reflexivity|vm_compute; lra]). destruct Fq as [Fq Bq].
    assert (X27 : rc (-27 / 8) = -27 / 8).
    { set (w := bz (-27) (-3)). assert (Hw : bfin w /\ B2R w = -27 / 8) by (split; [vm_compute; reflexivity|vm_compute; lra]). destruct Hw as [Hw Bw]. rewrite <- Bw, <- (ev_fin w Hw). now apply rc_ev. }
    assert (Y12 : rc (-7 / 16) = -7 / 16).
    { set (w := bz (-7) (-4)). assert (Hw : bfin w /\ B2R w = -7 / 16) by (split; [vm_compute; reflexivity|vm_compute; lra]). destruct Hw as [Hw Bw]. rewrite <- Bw, <- (ev_fin w Hw). now apply rc_ev. }
    assert (P1 : -27 / 8 <= ev (bmul gd (badd m L)) <= 0).
    { rewrite Ep. split; [rewrite <- X27; apply rc_mono; nra|]. rewrite <- (rc_Z 0) by sm. apply rc_mono. nra. }
    destruct (fin_of _ (-27 / 8) 0 Np P1) as [Fp Bp]; [lra|lra|].
    destruct (add_ff q _ Fq Fp) as [Nr Er]. apply ltb_ev; auto. apply Rle_lt_trans with (1 := L2). rewrite Er. apply Rlt_le_trans with (-7 / 16); [|rewrite <- Y12; apply rc_mono; lra].
    rewrite ev_fin by (vm_compute; reflexivity). vm_compute. lra. }
  cbn [rgamma_loop]. rewrite R.
  change (pow half (ofZ 1 / tiny_shape)%num) with (t_pow F half (bdiv (bofZ 1) tiny_shape)). replace (bdiv (bofZ 1) tiny_shape) with (bofZ 2048) by (apply b64_eq; vm_compute; reflexivity).
  rewrite P3. apply (f_equal Some). match goal with |- (?a, ?n) = (?b, ?n) => assert (QQ : a = b); [|now rewrite QQ] end. apply b64_eq. vm_compute. reflexivity.
Qed.
(** a draw with shape 1 + 2^-11 *)
Lemma rgamma_one : rgamma (N:=NB) (tape halves zeros) 2 (badd (bofZ 1) tiny_shape) (bofZ 1) 0%nat = Some (gd, 2%nat).
Proof.
  destruct V as (L1 & L2 & _ & _ & P1 & _ & P3). unfold rgamma. cbn [rgamma_rec].
  replace (gamma_sanity2 (N:=NB) (badd (bofZ 1) tiny_shape) (bofZ 1)) with true by (vm_compute; reflexivity). cbn [negb].
  change (ltb (ofZ 1) (badd (bofZ 1) tiny_shape)) with (Bltb (bofZ 1) (badd (bofZ 1) tiny_shape)). replace (Bltb (bofZ 1) (badd (bofZ 1) tiny_shape)) with true by (vm_compute; reflexivity).
  fold gd. fold gc. set (T := tape halves zeros).
  assert (R : rgamma_round (N:=NB) T gd gc 0%nat = (Some (bofZ 1), 2%nat)).
  { unfold rgamma_round. replace (rnorm01 (N:=NB) T 0%nat) with (badd (bofZ 0) (bmul (bofZ 1) (bofZ 0)), 1%nat) by reflexivity.
    replace (badd (bofZ 0) (bmul (bofZ 1) (bofZ 0))) with (bofZ 0) by (apply b64_eq; vm_compute; reflexivity).
    change (ltb (- ofZ 1 / gc)%num (bofZ 0)) with (Bltb (bdiv (Bopp (bofZ 1)) gc) (bofZ 0)). replace (Bltb (bdiv (Bopp (bofZ 1)) gc) (bofZ 0)) with true by (vm_compute; reflexivity).
    replace (runif01 (N:=NB) T 1%nat) with (half, 2%nat) by reflexivity.
    change (powZ (ofZ 1 + gc * bofZ 0)%num 3) with (t_powZ F (badd (bofZ 1) (bmul gc (bofZ 0))) 3). replace (badd (bofZ 1) (bmul gc (bofZ 0))) with (bofZ 1) by (apply b64_eq; vm_compute; reflexivity).
    rewrite P1. cbv zeta. change (log (bofZ 1)) with (t_log F (bofZ 1)). rewrite L1.
    change (lit (1 # 2) * bofZ 0 * bofZ 0 + gd * (ofZ 1 - bofZ 1 + bofZ 0))%num with (badd (bmul (bmul (blit (1#2)) (bofZ 0)) (bofZ 0)) (bmul gd (badd (bsub (bofZ 1) (bofZ 1)) (bofZ 0)))).
    replace (badd (bmul (bmul (blit (1#2)) (bofZ 0)) (bofZ 0)) (bmul gd (badd (bsub (bofZ 1) (bofZ 1)) (bofZ 0)))) with (bofZ 0) by (apply b64_eq; vm_compute; reflexivity).
    change (ltb (log half) (bofZ 0)) with (Bltb (t_log F half) (bofZ 0)). replace (Bltb (t_log F half) (bofZ 0)) with true; [reflexivity|].
    symmetry. apply leb_ev in L2. destruct L2 as (N1 & N2 & L). destruct (ev_Z 0 ltac:(sm)) as [N0 E0]. apply ltb_ev; auto. rewrite E0.
    assert (ev (blit (-1 # 2)) < 0) by (rewrite ev_fin by (vm_compute; reflexivity); vm_compute; lra). lra. }
  cbn [rgamma_loop]. rewrite R. apply (f_equal Some). match goal with |- (?a, ?n) = (?b, ?n) => assert (QQ : a = b); [|now rewrite QQ] end. apply b64_eq. vm_compute. reflexivity.
Qed.
End Bad.
