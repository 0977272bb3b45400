(** IEEE 754 binary64 as an instance of [Num] (Flocq, round to nearest even).

    The library is used with [T = double] in the default rounding mode.  The
    operators, comparisons and [sqrt] are the IEEE ones; the functions that come
    from gcem or std are fields of the record [TF], arbitrary functions about
    which nothing is assumed.  NaN payloads are not modelled (one NaN). *)
From Coq Require Import ZArith QArith Bool Reals.
From Flocq Require Import IEEE754.BinarySingleNaN.
From Verif Require Import Num.

Definition b64 := binary_float 53 1024.

#[global] Instance b64_prec_gt_0 : FLX.Prec_gt_0 53 := eq_refl.
#[global] Instance b64_prec_lt_emax : Prec_lt_emax 53 1024 := eq_refl.

Definition bofZ (n : Z) : b64 :=
  binary_normalize 53 1024 b64_prec_gt_0 b64_prec_lt_emax mode_NE n 0 false.
Definition badd : b64 -> b64 -> b64 := Bplus mode_NE.
Definition bsub : b64 -> b64 -> b64 := Bminus mode_NE.
Definition bmul : b64 -> b64 -> b64 := Bmult mode_NE.
Definition bdiv : b64 -> b64 -> b64 := Bdiv mode_NE.
(** A decimal literal is the correctly rounded quotient of two small integers. *)
Definition blit (q : Q) : b64 := bdiv (bofZ (Qnum q)) (bofZ (Zpos (Qden q))).
Definition bisnan (x : b64) : bool := match x with B754_nan => true | _ => false end.
Definition bisposinf (x : b64) : bool := match x with B754_infinity false => true | _ => false end.
Definition bisneginf (x : b64) : bool := match x with B754_infinity true => true | _ => false end.
(** std::numeric_limits<double>: 2^-52 and 2^-1022 *)
Definition beps : b64 := binary_normalize 53 1024 b64_prec_gt_0 b64_prec_lt_emax mode_NE 1 (-52) false.
Definition bmin : b64 := binary_normalize 53 1024 b64_prec_gt_0 b64_prec_lt_emax mode_NE 1 (-1022) false.

Record TF := mkTF {
  t_exp : b64 -> b64; t_log : b64 -> b64; t_expm1 : b64 -> b64; t_log1p : b64 -> b64;
  t_pow : b64 -> b64 -> b64; t_powZ : b64 -> Z -> b64;
  t_atan : b64 -> b64; t_tan : b64 -> b64; t_tanh : b64 -> b64;
  t_erf : b64 -> b64; t_erf_inv : b64 -> b64; t_lgamma : b64 -> b64;
  t_incgamma : b64 -> b64 -> b64; t_incgamma_inv : b64 -> b64 -> b64;
  t_incbeta : b64 -> b64 -> b64 -> b64; t_incbeta_inv : b64 -> b64 -> b64 -> b64;
  t_log_binom : Z -> Z -> b64; t_factorial : Z -> b64;
  t_PI : b64; t_LOG_2PI : b64; t_LOG_2 : b64; t_LOG_PI : b64; t_SQRT_2 : b64;
  t_SQRT_HALF_PI : b64
}.

#[global] Instance B64_Num (F : TF) : Num b64 := {|
  add := badd; sub := bsub; mul := bmul; div := bdiv; neg := Bopp; abs := Babs;
  ltb := Bltb; leb := Bleb; eqb := Beqb;
  ofZ := bofZ; lit := blit;
  nan := B754_nan; pinf := B754_infinity false; epsilon := beps; tmin := bmin;
  is_nan := bisnan; is_posinf := bisposinf; is_neginf := bisneginf;
  exp := t_exp F; log := t_log F; expm1 := t_expm1 F; log1p := t_log1p F;
  sqrt := Bsqrt mode_NE;
  pow := t_pow F; powZ := t_powZ F; atan := t_atan F; tan := t_tan F; tanh := t_tanh F;
  erf := t_erf F; erf_inv := t_erf_inv F; lgamma := t_lgamma F;
  incgamma := t_incgamma F; incgamma_inv := t_incgamma_inv F;
  incbeta := t_incbeta F; incbeta_inv := t_incbeta_inv F;
  log_binom := t_log_binom F; factorial := t_factorial F;
  PI := t_PI F; LOG_2PI := t_LOG_2PI F; LOG_2 := t_LOG_2 F; LOG_PI := t_LOG_PI F;
  SQRT_2 := t_SQRT_2 F; SQRT_HALF_PI := t_SQRT_HALF_PI F
|}.
