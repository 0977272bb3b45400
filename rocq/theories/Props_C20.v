(** C20: binomial probabilities sum to one and pbinom is their partial sum. *)
From Coq Require Import Reals ZArith QArith Bool Lra Lia.
From Verif Require Import Num Sanity Prob Dens Quant ER ERTac Spec SpecER Witness.
From Verif Require Import Discrete DiscreteQ Refute.
Local Open Scope R_scope.

Theorem C20_binomial_sums :
  forall (S : SF) (n : nat) p, 0 <= p <= 1 ->
  exists f : nat -> R,
    (forall k, dbinom (N:=ER_Num S) (Z.of_nat k) (Z.of_nat n) (Fin p) false = Fin (f k)) /\
    (forall k, 0 <= f k) /\ (forall k, (n < k)%nat -> f k = 0) /\
    sum_f_R0 f n = 1 /\
    forall x, pbinom (N:=ER_Num S) (Z.of_nat x) (Z.of_nat n) (Fin p) false = Fin (sum_f_R0 f x).
Proof. exact binomial_sums. Qed.
Print Assumptions C20_binomial_sums.
Example C20_binomial_sums_ex : exists f : nat -> R,
  (forall k, dbinom (N:=ER_Num SF0) (Z.of_nat k) 3 (Fin (1/4)) false = Fin (f k)) /\
  sum_f_R0 f 3 = 1 /\ f 1%nat = 27 / 64.
Proof.
  exists (binom_pmf 3 (1/4)). split; [|split].
  - intros k. apply (dbinom_val SF0 k 3). lra.
  - apply binom_sum.
  - unfold binom_pmf, Binomial.C. cbn. lra.
Qed.

Theorem C20_dbinom_formula :
  forall (S : SF) (x n : nat) p lf, 0 <= p <= 1 ->
  dbinom (N:=ER_Num S) (Z.of_nat x) (Z.of_nat n) (Fin p) lf = val lf (binom_pmf n p x).
Proof. exact dbinom_val_lf. Qed.
Print Assumptions C20_dbinom_formula.

Theorem C20_pbinom_formula :
  forall (S : SF) (x n : nat) p lf, 0 <= p <= 1 ->
  pbinom (N:=ER_Num S) (Z.of_nat x) (Z.of_nat n) (Fin p) lf = val lf (sum_f_R0 (binom_pmf n p) x).
Proof. exact pbinom_val. Qed.
Print Assumptions C20_pbinom_formula.
