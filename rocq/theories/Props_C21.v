(** C21: ppois is the partial sum of dpois, by either evaluation method, and tends to one. *)
From Coq Require Import Reals ZArith QArith Bool Lra Lia.
From Verif Require Import Num Sanity Prob Dens Quant ER ERTac Spec SpecER Witness.
From Verif Require Import Discrete DiscreteQ Refute.
Local Open Scope R_scope.

Theorem C21_poisson_sums :
  forall (S : SF), lgamma_int_ok S -> incgamma_int_ok S -> forall r, 0 <= r ->
  exists f : nat -> R,
    (forall k, dpois (N:=ER_Num S) (Z.of_nat k) (Fin r) false = Fin (f k)) /\
    (forall k, 0 <= f k) /\
    (forall x, ppois (N:=ER_Num S) (Z.of_nat x) (Fin r) false = Fin (sum_f_R0 f x)) /\
    infinite_sum f 1.
Proof. exact poisson_sums. Qed.
Print Assumptions C21_poisson_sums.
Example C21_witness : incgamma_int_ok SF_int /\ lgamma_int_ok SF_int /\ sf_eps SF_int <= 1.
Proof.
  repeat split.
  - intros n r Hr. cbn [sf_incgamma SF_int]. now rewrite Int_part_nat.
  - intros n. cbn [sf_lgamma SF_int]. now rewrite Int_part_nat.
  - cbn [sf_eps SF_int]. lra.
Qed.

Theorem C21_dpois_formula :
  forall (S : SF) (x : nat) r lf, lgamma_int_ok S -> 0 <= r ->
  dpois (N:=ER_Num S) (Z.of_nat x) (Fin r) lf = val lf (pois_pmf r x).
Proof. exact dpois_val. Qed.
Print Assumptions C21_dpois_formula.

Theorem C21_ppois_formula :
  forall (S : SF) (x : nat) r lf, incgamma_int_ok S -> 0 <= r ->
  ppois (N:=ER_Num S) (Z.of_nat x) (Fin r) lf = val lf (sum_f_R0 (pois_pmf r) x).
Proof. exact ppois_val. Qed.
Print Assumptions C21_ppois_formula.
