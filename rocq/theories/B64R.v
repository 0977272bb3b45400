(** Binary64 operations as rounded real operations. *)
From Coq Require Import ZArith Reals Bool Lra Lia.
From Verif Require Import Num B64.
From Flocq Require Import Core IEEE754.BinarySingleNaN.
Local Open Scope R_scope.

Notation fexp64 := (SpecFloat.fexp 53 1024).
Definition rnd (x : R) : R := round radix2 fexp64 ZnearestE x.

#[global] Instance fexp64_valid : Valid_exp fexp64.
Proof. apply fexp_correct. reflexivity. Qed.
#[global] Instance fexp64_mono : Monotone_exp fexp64.
Proof. apply fexp_monotone. Qed.

Lemma rnd_le x y : x <= y -> rnd x <= rnd y.
Proof. intros. apply round_le; auto with typeclass_instances. Qed.
Lemma rnd_0 : rnd 0 = 0.
Proof. apply round_0; auto with typeclass_instances. Qed.
Lemma rnd_fmt x : generic_format radix2 fexp64 x -> rnd x = x.
Proof. intros. apply round_generic; auto with typeclass_instances. Qed.
Lemma B2R_fmt (x : b64) : rnd (B2R x) = B2R x.
Proof. apply rnd_fmt. apply generic_format_B2R. Qed.

Lemma fmt_dyadic (m e : Z) : (Z.abs m <= 2 ^ 53)%Z -> (-1074 <= e)%Z -> generic_format radix2 fexp64 (IZR m * bpow radix2 e).
Proof.
  intros Hm He.
  assert (G : forall m, (Z.abs m < 2 ^ 53)%Z -> generic_format radix2 fexp64 (IZR m * bpow radix2 e)).
  { clear m Hm. intros m Hm. apply (generic_format_FLT radix2 (-1074) 53).
    exists (Float radix2 m e); [reflexivity|cbn; lia|cbn; lia]. }
  destruct (Z.eq_dec (Z.abs m) (2 ^ 53)) as [Q|Q]; [|apply G; lia].
  assert (P : generic_format radix2 fexp64 (bpow radix2 (53 + e))).
  { apply generic_format_bpow. unfold SpecFloat.fexp, SpecFloat.emin. lia. }
  destruct (Z.abs_eq_or_opp m) as [A|A].
  - replace (IZR m) with (bpow radix2 53); [now rewrite <- bpow_plus|]. rewrite <- IZR_Zpower by lia. f_equal. cbn. lia.
  - replace (IZR m * bpow radix2 e) with (- bpow radix2 (53 + e)); [now apply generic_format_opp|].
    rewrite bpow_plus. replace (IZR m) with (- bpow radix2 53); [ring|]. rewrite <- IZR_Zpower by lia.
    rewrite <- opp_IZR. f_equal. cbn. lia.
Qed.
Lemma rnd_dyadic m e : (Z.abs m <= 2 ^ 53)%Z -> (-1074 <= e)%Z -> rnd (IZR m * bpow radix2 e) = IZR m * bpow radix2 e.
Proof. intros. now apply rnd_fmt, fmt_dyadic. Qed.
Lemma rnd_Z m : (Z.abs m <= 2 ^ 53)%Z -> rnd (IZR m) = IZR m.
Proof. intros H. pose proof (rnd_dyadic m 0 H ltac:(lia)) as Q. cbn in Q. now rewrite Rmult_1_r in Q. Qed.

Definition maxR : R := bpow radix2 1024.
Lemma badd_R (x y : b64) : is_finite x = true -> is_finite y = true -> Rabs (rnd (B2R x + B2R y)) < maxR ->
  B2R (badd x y) = rnd (B2R x + B2R y) /\ is_finite (badd x y) = true.
Proof.
  intros Fx Fy H. pose proof (Bplus_correct 53 1024 _ _ mode_NE x y Fx Fy) as C.
  change (round radix2 fexp64 (round_mode mode_NE) (B2R x + B2R y)) with (rnd (B2R x + B2R y)) in C.
  rewrite Rlt_bool_true in C by exact H. destruct C as (A & B & _). auto.
Qed.
Lemma bsub_R (x y : b64) : is_finite x = true -> is_finite y = true -> Rabs (rnd (B2R x - B2R y)) < maxR ->
  B2R (bsub x y) = rnd (B2R x - B2R y) /\ is_finite (bsub x y) = true.
Proof.
  intros Fx Fy H. pose proof (Bminus_correct 53 1024 _ _ mode_NE x y Fx Fy) as C.
  change (round radix2 fexp64 (round_mode mode_NE) (B2R x - B2R y)) with (rnd (B2R x - B2R y)) in C.
  rewrite Rlt_bool_true in C by exact H. destruct C as (A & B & _). auto.
Qed.
Lemma bmul_R (x y : b64) : is_finite x = true -> is_finite y = true -> Rabs (rnd (B2R x * B2R y)) < maxR ->
  B2R (bmul x y) = rnd (B2R x * B2R y) /\ is_finite (bmul x y) = true.
Proof.
  intros Fx Fy H. pose proof (Bmult_correct 53 1024 _ _ mode_NE x y) as C.
  change (round radix2 fexp64 (round_mode mode_NE) (B2R x * B2R y)) with (rnd (B2R x * B2R y)) in C.
  rewrite Rlt_bool_true in C by exact H. destruct C as (A & B & _). rewrite Fx, Fy in B. auto.
Qed.
Lemma bdiv_R (x y : b64) : is_finite x = true -> B2R y <> 0 -> Rabs (rnd (B2R x / B2R y)) < maxR ->
  B2R (bdiv x y) = rnd (B2R x / B2R y) /\ is_finite (bdiv x y) = true.
Proof.
  intros Fx Fy H. pose proof (Bdiv_correct 53 1024 _ _ mode_NE x y Fy) as C.
  change (round radix2 fexp64 (round_mode mode_NE) (B2R x / B2R y)) with (rnd (B2R x / B2R y)) in C.
  rewrite Rlt_bool_true in C by exact H. destruct C as (A & B & _). rewrite Fx in B. auto.
Qed.
Lemma maxR_big m : (Z.abs m <= 2 ^ 53)%Z -> IZR (Z.abs m) < maxR.
Proof.
  intros H. apply Rle_lt_trans with (bpow radix2 53).
  - rewrite <- IZR_Zpower by lia. apply IZR_le. cbn. lia.
  - apply bpow_lt. reflexivity.
Qed.
Lemma bofZ_R m : (Z.abs m <= 2 ^ 53)%Z -> B2R (bofZ m) = IZR m /\ is_finite (bofZ m) = true.
Proof.
  intros H. pose proof (binary_normalize_correct 53 1024 _ _ mode_NE m 0 false) as C.
  cbv zeta in C. assert (Q : F2R (Float radix2 m 0) = IZR m) by (unfold F2R; cbn; lra). rewrite Q in C.
  change (round radix2 fexp64 (round_mode mode_NE) (IZR m)) with (rnd (IZR m)) in C.
  rewrite rnd_Z in C by auto. rewrite Rlt_bool_true in C.
  - destruct C as (A & B & _). auto.
  - rewrite <- abs_IZR. now apply maxR_big.
Qed.

Lemma bltb_R (x y : b64) : is_finite x = true -> is_finite y = true -> Bltb x y = true <-> B2R x < B2R y.
Proof. intros. rewrite Bltb_correct by auto. destruct (Rlt_bool_spec (B2R x) (B2R y)); split; intros; auto; try discriminate; lra. Qed.
Lemma bleb_R (x y : b64) : is_finite x = true -> is_finite y = true -> Bleb x y = true <-> B2R x <= B2R y.
Proof. intros. rewrite Bleb_correct by auto. destruct (Rle_bool_spec (B2R x) (B2R y)); split; intros; auto; try discriminate; lra. Qed.
Lemma beqb_R (x y : b64) : is_finite x = true -> is_finite y = true -> Beqb x y = true <-> B2R x = B2R y.
Proof. intros. rewrite Beqb_correct by auto. destruct (Req_bool_spec (B2R x) (B2R y)); split; intros; auto; try discriminate; lra. Qed.
Lemma bltb_R_f (x y : b64) : is_finite x = true -> is_finite y = true -> Bltb x y = false <-> B2R y <= B2R x.
Proof. intros. rewrite Bltb_correct by auto. destruct (Rlt_bool_spec (B2R x) (B2R y)); split; intros; auto; try discriminate; lra. Qed.
Lemma bleb_R_f (x y : b64) : is_finite x = true -> is_finite y = true -> Bleb x y = false <-> B2R y < B2R x.
Proof. intros. rewrite Bleb_correct by auto. destruct (Rle_bool_spec (B2R x) (B2R y)); split; intros; auto; try discriminate; lra. Qed.
Lemma beqb_R_f (x y : b64) : is_finite x = true -> is_finite y = true -> Beqb x y = false <-> B2R x <> B2R y.
Proof. intros. rewrite Beqb_correct by auto. destruct (Req_bool_spec (B2R x) (B2R y)); split; intros; auto; try discriminate; tauto. Qed.

(** static_cast from double to an integer type: truncation *)
Lemma btrunc_R (x : b64) : Btrunc x = Ztrunc (B2R x).
Proof.
  apply eq_IZR. rewrite (Btrunc_correct 53 1024 ltac:(reflexivity) x).
  unfold round, F2R, scaled_mantissa, cexp, FIX_exp. cbn. now rewrite !Rmult_1_r.
Qed.
