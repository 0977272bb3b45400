(** The binomial quantile: the first count at which a distribution function reaches a level, and the
    mathematical distribution function. *)
From Coq Require Import ZArith Reals.
From Flocq Require Import Core IEEE754.BinarySingleNaN.
From Verif Require Import Spec B64 SpecB64.
Local Open Scope Z_scope.
Definition first_reach (G : Z -> b64) (p : b64) (k : Z) : Prop :=
  0 <= k /\ ~ (G k ≺ p)%b64 /\ forall j, 0 <= j < k -> (G j ≺ p)%b64.
(** probability of at most x successes in n trials *)
Definition binom_cdfZ (n : Z) (pr : R) (x : Z) : R := sum_f_R0 (binom_pmf (Z.to_nat n) pr) (Z.to_nat x).
(** the relative error of a binomial probability is a multiple of this size *)
Definition binom_size (n : Z) (pr : R) : R := (3 + IZR n * (2 + Rabs (ln pr) + Rabs (ln (1 - pr))))%R.
(** k is the quantile of p up to an error d *)
Definition binom_quantile_upto (d : R) (n : Z) (pr p : R) (k : Z) : Prop :=
  (p - d <= binom_cdfZ n pr k)%R /\ (0 < k -> (binom_cdfZ n pr (k - 1) <= p + d)%R).
