(** The density of the multivariate normal is capped, in every arithmetic. *)
From Coq Require Import ZArith QArith Bool.
From Flocq Require Import IEEE754.BinarySingleNaN.
From Verif Require Import Num Sanity Multi B64.

Section Cap.
Context {T : Type} {N : Num T} (M : MatLib T).
Lemma dmvnorm_plain K x mu Sigma :
  (is_inf (exp (dmvnorm M K x mu Sigma true)) = false -> dmvnorm M K x mu Sigma false = exp (dmvnorm M K x mu Sigma true)) /\
  (is_inf (exp (dmvnorm M K x mu Sigma true)) = true -> dmvnorm M K x mu Sigma false = ml_max M).
Proof. unfold dmvnorm. split; intros ->; reflexivity. Qed.
Lemma dmvnorm_capped K x mu Sigma : is_inf (ml_max M) = false -> is_inf (dmvnorm M K x mu Sigma false) = false.
Proof. intros H. unfold dmvnorm. match goal with |- is_inf (if is_inf ?v then _ else _) = _ => destruct (is_inf v) eqn:E end; auto. Qed.
End Cap.
(** a library and functions for the examples *)
Definition bmax : b64 := binary_normalize 53 1024 b64_prec_gt_0 b64_prec_lt_emax mode_NE (2 ^ 53 - 1) 971 false.
Definition lib64 : MatLib b64 := {|
  ml_chol := fun _ A => A; ml_det := fun _ A => A 0%nat 0%nat; ml_inv := fun _ A => A; ml_solve := fun _ _ A B => B;
  ml_lmgamma := fun a _ => a; ml_max := bmax |}.
Definition TFI : TF := {|
  t_exp := fun x => if Bltb (bofZ 700) x then B754_infinity false else bofZ 1; t_log := fun x => if Bltb x (bofZ 1) then bofZ (-1000) else bofZ 0;
  t_expm1 := fun x => x; t_log1p := fun x => x; t_pow := fun x _ => x; t_powZ := fun x k => x;
  t_atan := fun x => x; t_tan := fun x => x; t_tanh := fun x => x; t_erf := fun z => z; t_erf_inv := fun x => x; t_lgamma := fun x => x;
  t_incgamma := fun _ x => x; t_incgamma_inv := fun _ x => x; t_incbeta := fun _ _ x => x; t_incbeta_inv := fun _ _ x => x;
  t_log_binom := fun n _ => bofZ n; t_factorial := fun n => bofZ n;
  t_PI := bofZ 3; t_LOG_2PI := bofZ 2; t_LOG_2 := bofZ 1; t_LOG_PI := bofZ 1; t_SQRT_2 := bofZ 1; t_SQRT_HALF_PI := bofZ 1 |}.
