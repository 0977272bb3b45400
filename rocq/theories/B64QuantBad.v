(** Quantile functions in binary64 that decrease or return NaN, and small probabilities that are lost. *)
From Coq Require Import ZArith QArith Reals Bool Lra Lia.
From Verif Require Import Num Sanity Prob Dens Quant B64 B64R SpecB64 B64CdfBad.
From Flocq Require Import IEEE754.BinarySingleNaN.
Local Notation fin x := (is_finite (prec:=53) (emax:=1024) x = true).

Section QBad.
Variable F : TF.
Notation NB := (B64_Num F).
Local Open Scope b64_scope.

(** Student t, two degrees of freedom: consecutive doubles near 0.123 *)
Definition qt_a : b64 := bz 8865316976849595 (-56).
Definition qt_b : b64 := bz 8865316976849596 (-56).
Lemma qt2_dip : bofZ 0 ≤ qt_a /\ qt_a ≺ qt_b /\ qt_b ≤ bofZ 1 /\ qt (N:=NB) qt_b (bofZ 2) ≺ qt (N:=NB) qt_a (bofZ 2).
Proof. repeat split; vm_compute; reflexivity. Qed.

(** normal: sqrt(2)*sigma overflows and the median becomes infinity times zero *)
Lemma qnorm_nan : t_SQRT_2 F = sqrt2d -> t_erf_inv F (bofZ 0) = bofZ 0 ->
  let sigma := bz 3 1022 in b64_pos sigma /\ qnorm (N:=NB) (blit (1#2)) (bofZ 0) sigma = B754_nan.
Proof.
  intros HS HE. cbv zeta. split; [split; vm_compute; reflexivity|]. unfold qnorm.
  replace (norm_sanity2 (N:=NB) (bofZ 0) (bz 3 1022)) with true by (vm_compute; reflexivity).
  replace (prob_val_check (N:=NB) (blit (1#2))) with true by (vm_compute; reflexivity). cbn [negb].
  replace (is_posinf (Num:=NB) (bz 3 1022)) with false by (vm_compute; reflexivity).
  change (eqb (bz 3 1022) (ofZ 0)) with (Beqb (bz 3 1022) (bofZ 0)). replace (Beqb (bz 3 1022) (bofZ 0)) with false by (vm_compute; reflexivity).
  change (eqb (blit (1#2)) (ofZ 0)) with (Beqb (blit (1#2)) (bofZ 0)). replace (Beqb (blit (1#2)) (bofZ 0)) with false by (vm_compute; reflexivity).
  change (eqb (blit (1#2)) (ofZ 1)) with (Beqb (blit (1#2)) (bofZ 1)). replace (Beqb (blit (1#2)) (bofZ 1)) with false by (vm_compute; reflexivity).
  unfold qnorm_compute. cbn [add mul sub ofZ erf_inv SQRT_2 B64_Num]. rewrite HS.
  replace (bsub (bmul (bofZ 2) (blit (1#2))) (bofZ 1)) with (bofZ 0) by (apply b64_eq; vm_compute; reflexivity). rewrite HE. apply b64_eq. vm_compute. reflexivity.
Qed.

(** exponential: 1 - p rounds to one, so a positive probability gives the quantile zero *)
Lemma qexp_zero : t_log F (bofZ 1) = bofZ 0 ->
  let p := bz 1 (-60) in bofZ 0 ≺ p /\ Beqb (qexp (N:=NB) p (bofZ 1)) (bofZ 0) = true.
Proof.
  intros HL. cbv zeta. split; [vm_compute; reflexivity|]. unfold qexp.
  replace (exp_sanity1 (N:=NB) (bofZ 1)) with true by (vm_compute; reflexivity). replace (prob_val_check (N:=NB) (bz 1 (-60))) with true by (vm_compute; reflexivity). cbn [negb].
  change (eqb (bz 1 (-60)) (ofZ 0)) with (Beqb (bz 1 (-60)) (bofZ 0)). replace (Beqb (bz 1 (-60)) (bofZ 0)) with false by (vm_compute; reflexivity).
  change (eqb (bz 1 (-60)) (ofZ 1)) with (Beqb (bz 1 (-60)) (bofZ 1)). replace (Beqb (bz 1 (-60)) (bofZ 1)) with false by (vm_compute; reflexivity).
  unfold qexp_compute. cbn [neg div log sub ofZ B64_Num].
  replace (bsub (bofZ 1) (bz 1 (-60))) with (bofZ 1) by (apply b64_eq; vm_compute; reflexivity). rewrite HL. vm_compute. reflexivity.
Qed.
(** normal, Laplace: a positive probability below 2^-54 gives minus infinity *)
Lemma qnorm_minf : t_SQRT_2 F = sqrt2d -> t_erf_inv F (bofZ (-1)) = B754_infinity true ->
  let p := bz 1 (-60) in bofZ 0 ≺ p /\ qnorm (N:=NB) p (bofZ 0) (bofZ 1) = B754_infinity true.
Proof.
  intros HS HE. cbv zeta. split; [vm_compute; reflexivity|]. unfold qnorm.
  replace (norm_sanity2 (N:=NB) (bofZ 0) (bofZ 1)) with true by (vm_compute; reflexivity).
  replace (prob_val_check (N:=NB) (bz 1 (-60))) with true by (vm_compute; reflexivity). cbn [negb].
  replace (is_posinf (Num:=NB) (bofZ 1)) with false by (vm_compute; reflexivity).
  change (eqb (bofZ 1) (ofZ 0)) with (Beqb (bofZ 1) (bofZ 0)). replace (Beqb (bofZ 1) (bofZ 0)) with false by (vm_compute; reflexivity).
  change (eqb (bz 1 (-60)) (ofZ 0)) with (Beqb (bz 1 (-60)) (bofZ 0)). replace (Beqb (bz 1 (-60)) (bofZ 0)) with false by (vm_compute; reflexivity).
  change (eqb (bz 1 (-60)) (ofZ 1)) with (Beqb (bz 1 (-60)) (bofZ 1)). replace (Beqb (bz 1 (-60)) (bofZ 1)) with false by (vm_compute; reflexivity).
  unfold qnorm_compute. cbn [add mul sub ofZ erf_inv SQRT_2 B64_Num]. rewrite HS.
  replace (bsub (bmul (bofZ 2) (bz 1 (-60))) (bofZ 1)) with (bofZ (-1)) by (apply b64_eq; vm_compute; reflexivity). rewrite HE. apply b64_eq. vm_compute. reflexivity.
Qed.
End QBad.
