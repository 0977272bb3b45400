(** C47: the uniform distribution functions keep their range in double arithmetic (false when b - a overflows). *)
From Coq Require Import ZArith QArith Reals Lra Lia.
From Verif Require Import Num Sanity B64 Prob Quant RandB64 B64Unif.
From Flocq Require Import IEEE754.BinarySingleNaN.
Local Open Scope R_scope.


(** [fin x]: x is a finite double.  Partial: the pairs whose difference b - a overflows are missing,
    and there the statement fails. *)

Theorem C47_punif_partial : forall (F : TF) (x a b : b64), Num.is_nan (Num:=B64_Num F) x = false -> fin a -> fin b ->
  B2R a < B2R b -> fin (bsub b a) ->
  fin (punif (N:=B64_Num F) x a b false) /\ 0 <= B2R (punif (N:=B64_Num F) x a b false) <= 1.
Proof. exact punif_range_all. Qed.
Print Assumptions C47_punif_partial.

Theorem C47_qunif_partial : forall (F : TF) (p a b : b64), fin p -> 0 <= B2R p <= 1 -> fin a -> fin b ->
  B2R a < B2R b -> fin (bsub b a) ->
  exists v, qunif (N:=B64_Num F) p a b = v /\ fin v /\ B2R a <= B2R v <= B2R b.
Proof. exact qunif_range. Qed.
Print Assumptions C47_qunif_partial.
(** a = 1, b = 3 and the smallest positive double *)
Example C47_ex (F : TF) : fin (punif (N:=B64_Num F) (bofZ 2) (bofZ 1) (bofZ 3) false) /\ 0 <= B2R (punif (N:=B64_Num F) (bofZ 2) (bofZ 1) (bofZ 3) false) <= 1.
Proof.
  destruct (B64R.bofZ_R 1 ltac:(cbn; lia)) as [E1 F1]. destruct (B64R.bofZ_R 3 ltac:(cbn; lia)) as [E3 F3].
  apply C47_punif_partial; auto; try (rewrite E1, E3; lra); vm_compute; reflexivity.
Qed.
Example C47_qunif_ex (F : TF) : exists v, qunif (N:=B64_Num F) (bofZ 1) (bofZ 1) (bofZ 3) = v /\ fin v /\ B2R (bofZ 1) <= B2R v <= B2R (bofZ 3).
Proof.
  destruct (B64R.bofZ_R 1 ltac:(cbn; lia)) as [E1 F1]. destruct (B64R.bofZ_R 3 ltac:(cbn; lia)) as [E3 F3].
  apply C47_qunif_partial; auto; try (rewrite E1, ?E3; lra); vm_compute; reflexivity.
Qed.

Theorem C47_punif_monotone_partial : forall (F : TF) (x y a b : b64), fin x -> fin y -> fin a -> fin b ->
  B2R a < B2R b -> fin (bsub b a) -> B2R x <= B2R y ->
  B2R (punif (N:=B64_Num F) x a b false) <= B2R (punif (N:=B64_Num F) y a b false).
Proof. exact punif_mono. Qed.
Print Assumptions C47_punif_monotone_partial.

Theorem C47_punif_refuted : forall F : TF, exists x a b : b64, fin x /\ fin a /\ fin b /\ Bltb a b = true /\
  Num.is_nan (Num:=B64_Num F) (punif (N:=B64_Num F) x a b false) = true.
Proof. exact punif_ovf_refuted. Qed.
Print Assumptions C47_punif_refuted.

Theorem C47_punif_zero_refuted : forall F : TF, exists x a b : b64, fin x /\ fin a /\ fin b /\ Bltb a b = true /\
  B2R x - B2R a = 3 / 4 * (B2R b - B2R a) /\ B2R (punif (N:=B64_Num F) x a b false) = 0.
Proof. exact punif_ovf_zero. Qed.
Print Assumptions C47_punif_zero_refuted.

Theorem C47_qunif_refuted : forall F : TF, exists p a b : b64, fin p /\ 0 < B2R p < 1 /\ fin a /\ fin b /\ Bltb a b = true /\
  qunif (N:=B64_Num F) p a b = B754_infinity false.
Proof. exact qunif_ovf_refuted. Qed.
Print Assumptions C47_qunif_refuted.
