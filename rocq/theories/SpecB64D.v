(** What a density looks like on binary64 numbers, and the magnitudes of the logarithm and of the
    logarithm of the gamma function that the statements about densities use. *)
From Coq Require Import ZArith QArith Bool.
From Flocq Require Import IEEE754.BinarySingleNaN.
From Verif Require Import B64 SpecB64.
Local Open Scope b64_scope.

(** never a NaN *)
Definition b64_number (d : b64 -> b64) : Prop := forall x, x <> B754_nan -> d x <> B754_nan.
(** a density and its logarithm: [d true] is the log form *)
Definition b64_densities (d : bool -> b64 -> b64) : Prop := b64_density (d false) /\ b64_number (d true).
(** the same on the arguments that satisfy [P] *)
Definition b64_densities_on (P : b64 -> Prop) (d : bool -> b64 -> b64) : Prop :=
  forall x, x <> B754_nan -> P x -> bofZ 0 ≤ d false x /\ d true x <> B754_nan.
(** the same for mass functions, on the integers from [lo] to [hi] *)
Definition b64_masses (lo hi : Z) (d : bool -> Z -> b64) : Prop :=
  forall x, (lo <= x <= hi)%Z -> bofZ 0 ≤ d false x /\ d true x <> B754_nan.
(** non-decreasing up to [m] and non-increasing from [m] on, infinities included; never a NaN *)
Definition b64_unimodal (m : b64) (d : b64 -> b64) : Prop :=
  (forall x y, x ≤ y -> y ≤ m -> d x ≤ d y) /\ (forall x y, m ≤ x -> x ≤ y -> d y ≤ d x).

(** a power of two *)
Definition btwo (k : Z) : b64 := binary_normalize 53 1024 b64_prec_gt_0 b64_prec_lt_emax mode_NE 1 k false.
(** the logarithm: non-decreasing on [0, inf], infinite at the ends, and at most 1000 in absolute value
    in between (the extreme values for doubles are -744.4 and 709.8) *)
Definition log_std (F : TF) : Prop :=
  log_ok F /\ t_log F (bofZ 0) = minus_inf /\ t_log F plus_inf = plus_inf /\
  forall x, b64_pos x -> bofZ (-1000) ≤ t_log F x /\ t_log F x ≤ bofZ 1000.
(** the logarithm of the gamma function up to 2^990, and from one on *)
Definition lgamma_mid (F : TF) : Prop :=
  forall x, bofZ 0 ≺ x -> x ≤ btwo 990 -> Bopp (btwo 1002) ≤ t_lgamma F x /\ t_lgamma F x ≤ btwo 1002.
Definition lgamma_ge (F : TF) : Prop := forall x, bofZ 1 ≤ x -> bofZ (-1) ≤ t_lgamma F x.
(** the constants log(2 pi), log 2 and log(pi), all below two *)
Definition small_const (c : b64) : Prop := bofZ (-2) ≤ c /\ c ≤ bofZ 2.
(** the logarithm of a binomial coefficient *)
Definition log_binom_ok (F : TF) : Prop :=
  forall n k, (0 <= k <= n)%Z -> (n <= 2 ^ 53)%Z -> bofZ 0 ≤ t_log_binom F n k /\ t_log_binom F n k ≤ btwo 60.
(** the logarithm of the gamma function overflows from 2^1020 on *)
Definition lgamma_over (F : TF) : Prop := forall x, btwo 1020 ≤ x -> t_lgamma F x = plus_inf.
