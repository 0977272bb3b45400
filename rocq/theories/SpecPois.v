(** The first integer from [s] on at which a function of the integers is not below a level. *)
From Coq Require Import ZArith Reals.
From Flocq Require Import Core IEEE754.BinarySingleNaN.
From Verif Require Import Spec B64 SpecB64 SpecAcc.
Local Open Scope Z_scope.
Definition first_above (G : Z -> b64) (p : b64) (s n : Z) : Prop :=
  s <= n /\ ~ (G n ≤ p)%b64 /\ forall k, s <= k < n -> (G k ≤ p)%b64.

(** integral powers of numbers up to 10, and factorials, as far as the Poisson distribution function uses them *)
Definition powZ_acc (F : TF) (e : R) : Prop := forall k : nat, (1 <= k <= 15)%nat ->
  computes e (fun r => 0 < r <= 10)%R (fun x => t_powZ F x (Z.of_nat k)) (fun r => r ^ k)%R.
Definition fact_acc (F : TF) (e : R) : Prop := forall k : nat, (1 <= k <= 15)%nat -> near e 0 (t_factorial F (Z.of_nat k)) (INR (fact k)).

(** the Poisson distribution function, and an integer that is its quantile up to an error d *)
Definition pois_cdfZ (rate : R) (n : Z) : R := sum_f_R0 (pois_pmf rate) (Z.to_nat n).
Definition quantile_upto (d : R) (rate : R) (p : R) (n : Z) : Prop := (p - d <= pois_cdfZ rate n)%R /\ (0 < n -> (pois_cdfZ rate (n - 1) <= p + d)%R).
(** the conversion of a floating-point number to an integer, where it is defined *)
Definition rounds_to_zero (trunc : b64 -> option Z) : Prop := forall x n, trunc x = Some n -> finite x /\ n = Ztrunc (B2R x).
