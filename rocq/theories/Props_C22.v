(** C22: Bernoulli and Rademacher CDFs are the partial sums of their probabilities. *)
From Coq Require Import Reals ZArith QArith Bool Lra Lia.
From Verif Require Import Num Sanity Prob Dens Quant ER ERTac Spec SpecER Witness.
From Verif Require Import Discrete DiscreteQ Refute.
Local Open Scope R_scope.

Theorem C22_bern_sums :
  forall (S : SF) p, 0 <= p <= 1 ->
  exists f : Z -> R,
    (forall z, dbern (N:=ER_Num S) z (Fin p) false = Fin (f z)) /\
    (forall z, 0 <= f z) /\ f (0)%Z + f 1%Z = 1 /\
    (forall z, z <> (0)%Z -> z <> 1%Z -> f z = 0) /\
    (forall x, (x < 0)%Z -> pbern (N:=ER_Num S) x (Fin p) false = Fin 0) /\
    forall lo (n : nat), (lo <= 0)%Z ->
      pbern (N:=ER_Num S) (lo + Z.of_nat n) (Fin p) false
      = Fin (sum_f_R0 (fun i => f (lo + Z.of_nat i)%Z) n).
Proof. exact bern_sums. Qed.
Print Assumptions C22_bern_sums.
Example C22_bern_ex : pbern (N:=ER_Num SF0) 0 (Fin (1/3)) false = Fin (2/3).
Proof. rewrite pbern_val by lra. unfold val, bern_cdf. cbn. f_equal. lra. Qed.

Theorem C22_radem_sums :
  forall (S : SF) p, 0 <= p <= 1 ->
  exists f : Z -> R,
    (forall z, dradem (N:=ER_Num S) z (Fin p) false = Fin (f z)) /\
    (forall z, 0 <= f z) /\ f (-1)%Z + f 1%Z = 1 /\
    (forall z, z <> (-1)%Z -> z <> 1%Z -> f z = 0) /\
    (forall x, (x < -1)%Z -> pradem (N:=ER_Num S) x (Fin p) false = Fin 0) /\
    forall lo (n : nat), (lo <= -1)%Z ->
      pradem (N:=ER_Num S) (lo + Z.of_nat n) (Fin p) false
      = Fin (sum_f_R0 (fun i => f (lo + Z.of_nat i)%Z) n).
Proof. exact radem_sums. Qed.
Print Assumptions C22_radem_sums.
Example C22_radem_ex : pradem (N:=ER_Num SF0) 0 (Fin (1/3)) false = Fin (2/3).
Proof. rewrite pradem_val by lra. unfold val, radem_cdf. cbn. f_equal. lra. Qed.
