(** Specification: the pass criterion of the project's test suite, and the limits of the functions
    of the backend that the suite's limiting cases depend on. *)
From Coq Require Import ZArith QArith Bool List.
From Verif Require Import Num B64.
From Flocq Require Import IEEE754.BinarySingleNaN.

Definition ninf64 : b64 := B754_infinity true.
Definition pinf64 : b64 := B754_infinity false.

(** tests/stats_tests.hpp 277-283 (log_if) and 288-321 (STATS_TEST_EXPECTED_VAL): [lf] is log_form
    and [tol] is TEST_ERR_TOL, 1e-06 (lines 42-48) unless the test file sets it. *)
Definition passes (F : TF) (tol : Q) (f_val expected : b64) (lf : bool) : bool :=
  let check_val := if lf then t_log F expected else expected in
  let err_val := bdiv (Babs (bsub f_val check_val)) (badd (bofZ 1) (Babs check_val)) in
  if bisnan expected && bisnan f_val then true else
  if negb (bisnan f_val) && (bisposinf f_val || bisneginf f_val) && Beqb f_val check_val then true
  else Bltb err_val (blit tol).

(** A suite is a list of assertions: the line of the test file and whether it passes. *)
Definition all_pass (suite : list (Z * bool)) : Prop := Forall (fun t => snd t = true) suite.

(** The conversion of a double to long long: defined where the truncated value is representable. *)
Definition trunc64 (x : b64) : option Z :=
  match x with
  | B754_nan | B754_infinity _ => None
  | _ => let n := Btrunc x in
         if ((- 2 ^ 63 <=? n) && (n <? 2 ^ 63))%Z then Some n else None
  end.

(** The limits of the backend (C Annex F): exp, log, expm1, log1p, erf and its inverse, atan and tan at
    zeros, infinities, NaN and one, and the doubles nearest to pi and the square root of two. *)
Record limits (F : TF) : Prop := {
  l_exp_nan : t_exp F B754_nan = B754_nan;
  l_exp_0 : forall s, t_exp F (B754_zero s) = bofZ 1;
  l_exp_ninf : t_exp F ninf64 = B754_zero false;
  l_exp_pinf : t_exp F pinf64 = pinf64;
  l_log_nan : t_log F B754_nan = B754_nan;
  l_log_0 : forall s, t_log F (B754_zero s) = ninf64;
  l_log_pinf : t_log F pinf64 = pinf64;
  l_log_1 : t_log F (bofZ 1) = B754_zero false;
  l_expm1_nan : t_expm1 F B754_nan = B754_nan;
  l_expm1_0 : forall s, t_expm1 F (B754_zero s) = B754_zero s;
  l_expm1_ninf : t_expm1 F ninf64 = bofZ (-1);
  l_expm1_pinf : t_expm1 F pinf64 = pinf64;
  l_log1p_nan : t_log1p F B754_nan = B754_nan;
  l_log1p_0 : forall s, t_log1p F (B754_zero s) = B754_zero s;
  l_erf_nan : t_erf F B754_nan = B754_nan;
  l_erf_0 : forall s, t_erf F (B754_zero s) = B754_zero s;
  l_erf_ninf : t_erf F ninf64 = bofZ (-1);
  l_erf_pinf : t_erf F pinf64 = bofZ 1;
  l_erf_inv_0 : forall s, t_erf_inv F (B754_zero s) = B754_zero s;
  l_atan_nan : t_atan F B754_nan = B754_nan;
  l_tan_0 : forall s, t_tan F (B754_zero s) = B754_zero s;
  l_PI : t_PI F = blit (3141592653589793 # 1000000000000000);
  l_SQRT_2 : t_SQRT_2 F = blit (14142135623730951 # 10000000000000000)
}.
