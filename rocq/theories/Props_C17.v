(** C17: Bernoulli, Rademacher and binomial quantiles are generalized inverses. *)
From Coq Require Import Reals ZArith QArith Bool Lra Lia.
From Verif Require Import Num Sanity Prob Dens Quant ER ERTac Spec SpecER Witness.
From Verif Require Import Discrete DiscreteQ Refute.
Local Open Scope R_scope.

Theorem C17_qbern_quantile : forall (S : SF) p pr,
  0 <= p <= 1 -> 0 <= pr <= 1 -> exists k, qbern (N:=ER_Num S) (Fin p) (Fin pr) = Fin (IZR k)
  /\ is_quantile (fun j => pbern (N:=ER_Num S) j (Fin pr) false) (fun j => j = 0 \/ j = 1)%Z
  (Fin p) k.
Proof. exact qbern_quantile. Qed.
Print Assumptions C17_qbern_quantile.
Example C17_qbern_quantile_ex :
  exists k, qbern (N:=ER_Num SF0) (Fin (1/2)) (Fin (1/3)) = Fin (IZR k) /\ is_quantile (fun j
  => pbern (N:=ER_Num SF0) j (Fin (1/3)) false) (fun j => j = 0 \/ j = 1)%Z (Fin (1/2)) k.
Proof. apply C17_qbern_quantile; ex_side. Qed.

Theorem C17_qradem_quantile : forall (S : SF) p pr,
  0 <= p <= 1 -> 0 <= pr <= 1 -> exists k, qradem (N:=ER_Num S) (Fin p) (Fin pr) = Fin (IZR k)
  /\ is_quantile (fun j => pradem (N:=ER_Num S) j (Fin pr) false) (fun j => j = -1 \/ j = 1)%Z
  (Fin p) k.
Proof. exact qradem_quantile. Qed.
Print Assumptions C17_qradem_quantile.
Example C17_qradem_quantile_ex :
  exists k, qradem (N:=ER_Num SF0) (Fin (1/2)) (Fin (1/3)) = Fin (IZR k) /\ is_quantile (fun j
  => pradem (N:=ER_Num SF0) j (Fin (1/3)) false) (fun j => j = -1 \/ j = 1)%Z (Fin (1/2)) k.
Proof. apply C17_qradem_quantile; ex_side. Qed.

Theorem C17_qbinom_quantile : forall (S : SF) (n : nat) p pr,
  0 < p < 1 -> 0 <= pr <= 1 -> exists k, qbinom (N:=ER_Num S) (Fin p) (Z.of_nat n) (Fin pr) =
  Fin (IZR k) /\ is_quantile (fun j => pbinom (N:=ER_Num S) j (Z.of_nat n) (Fin pr) false) (fun
  j => 0 <= j <= Z.of_nat n)%Z (Fin p) k.
Proof. exact qbinom_quantile. Qed.
Print Assumptions C17_qbinom_quantile.
Example C17_qbinom_quantile_ex :
  exists k, qbinom (N:=ER_Num SF0) (Fin (1/2)) (Z.of_nat 12%nat) (Fin (1/3)) = Fin (IZR k) /\
  is_quantile (fun j => pbinom (N:=ER_Num SF0) j (Z.of_nat 12%nat) (Fin (1/3)) false) (fun j =>
  0 <= j <= Z.of_nat 12%nat)%Z (Fin (1/2)) k.
Proof. apply C17_qbinom_quantile; ex_side. Qed.

Theorem C17_qbinom_one : forall (S : SF) (n : nat) pr,
  0 <= pr <= 1 -> qbinom (N:=ER_Num S) (Fin 1) (Z.of_nat n) (Fin pr) = Fin (INR n).
Proof. exact qbinom_one. Qed.
Print Assumptions C17_qbinom_one.
Example C17_qbinom_one_ex :
  qbinom (N:=ER_Num SF0) (Fin 1) (Z.of_nat 12%nat) (Fin (1/3)) = Fin (INR 12%nat).
Proof. apply C17_qbinom_one; ex_side. Qed.

Theorem C17_qbinom_one_quantile : forall (S : SF) (n : nat) pr,
  0 < pr <= 1 -> is_quantile (fun j => pbinom (N:=ER_Num S) j (Z.of_nat n) (Fin pr) false) (fun
  j => 0 <= j <= Z.of_nat n)%Z (Fin 1) (Z.of_nat n).
Proof. exact qbinom_one_quantile. Qed.
Print Assumptions C17_qbinom_one_quantile.
Example C17_qbinom_one_quantile_ex :
  is_quantile (fun j => pbinom (N:=ER_Num SF0) j (Z.of_nat 12%nat) (Fin (1/3)) false) (fun j =>
  0 <= j <= Z.of_nat 12%nat)%Z (Fin 1) (Z.of_nat 12%nat).
Proof. apply C17_qbinom_one_quantile; ex_side. Qed.

(** at p = 1 with success probability 0 the answer n is not the smallest point *)

Theorem C17_qbinom_refuted :
  forall S : SF, exists n p pr, (0 <= n)%Z /\ 0 < p <= 1 /\ 0 <= pr <= 1 /\ forall k, qbinom
  (N:=ER_Num S) (Fin p) n (Fin pr) = Fin (IZR k) -> ~ is_quantile (fun j => pbinom (N:=ER_Num
  S) j n (Fin pr) false) (fun j => 0 <= j <= n)%Z (Fin p) k.
Proof. exact qbinom_refuted. Qed.
Print Assumptions C17_qbinom_refuted.
