(** C39: certain events are certain (false for rbinom(n,1) in double with n > 2^53). *)
From Coq Require Import ZArith QArith Reals Lra Lia List.
From Verif Require Import Num Sanity ER ERTac B64 Rand MT SpecRand RandER RandGamma RandMore RandWit Session Witness WitnessSF RandB64.
Import ListNotations.
Local Open Scope R_scope.


Theorem C39_rbern_0 : forall (S : SF) (E : Type) (G : Rng ER E), rng_ok G -> forall e : E, exists e' : E, rbern (N:=ER_Num S) G (Fin 0) e = (Fin 0, e').
Proof. exact rbern_0. Qed.
Print Assumptions C39_rbern_0.

Theorem C39_rbern_1 : forall (S : SF) (E : Type) (G : Rng ER E), rng_ok G -> forall e : E, exists e' : E, rbern (N:=ER_Num S) G (Fin 1) e = (Fin 1, e').
Proof. exact rbern_1. Qed.
Print Assumptions C39_rbern_1.

Theorem C39_rradem_0 : forall (S : SF) (E : Type) (G : Rng ER E), rng_ok G -> forall e : E, exists e' : E, rradem (N:=ER_Num S) G (Fin 0) e = (Fin (-1), e').
Proof. exact rradem_0. Qed.
Print Assumptions C39_rradem_0.

Theorem C39_rradem_1 : forall (S : SF) (E : Type) (G : Rng ER E), rng_ok G -> forall e : E, exists e' : E, rradem (N:=ER_Num S) G (Fin 1) e = (Fin 1, e').
Proof. exact rradem_1. Qed.
Print Assumptions C39_rradem_1.

Theorem C39_rbinom_0 : forall (S : SF) (E : Type) (G : Rng ER E), rng_ok G -> forall (n : Z) (e : E), (0 <= n)%Z -> exists e' : E, rbinom (N:=ER_Num S) G n (Fin 0) e = (Fin 0, e').
Proof. exact rbinom_0. Qed.
Print Assumptions C39_rbinom_0.

Theorem C39_rbinom_1 : forall (S : SF) (E : Type) (G : Rng ER E), rng_ok G -> forall (n : Z) (e : E), (0 <= n)%Z -> exists e' : E, rbinom (N:=ER_Num S) G n (Fin 1) e = (Fin (IZR n), e').
Proof. exact rbinom_1. Qed.
Print Assumptions C39_rbinom_1.

Example C39_rbinom_1_ex : exists e', rbinom (N:=ER_Num SF0) counting 12 (Fin 1) 3%nat = (Fin 12, e').
Proof. apply C39_rbinom_1; [exact counting_ok|lia]. Qed.
Example C39_rbern_0_ex : exists e', rbern (N:=ER_Num SF0) counting (Fin 0) 3%nat = (Fin 0, e').
Proof. apply C39_rbern_0. exact counting_ok. Qed.
Example C39_rradem_0_ex : exists e', rradem (N:=ER_Num SF0) counting (Fin 0) 3%nat = (Fin (-1), e').
Proof. apply C39_rradem_0. exact counting_ok. Qed.
(** The same in double precision.  [b64_rng_ok]: nextafter(0,1) is in (0,1) and the uniform
    distribution on [a,b) returns a double in [a,b). *)

Theorem C39_rbern_double_0 : forall (F : TF) (E : Type) (G : Rng b64 E), b64_rng_ok G -> forall e : E, exists e' : E, rbern (N:=B64_Num F) G (bofZ 0) e = (bofZ 0, e').
Proof. exact rbern_b0. Qed.
Print Assumptions C39_rbern_double_0.

Theorem C39_rbern_double_1 : forall (F : TF) (E : Type) (G : Rng b64 E), b64_rng_ok G -> forall e : E, exists e' : E, rbern (N:=B64_Num F) G (bofZ 1) e = (bofZ 1, e').
Proof. exact rbern_b1. Qed.
Print Assumptions C39_rbern_double_1.

Theorem C39_rradem_double_0 : forall (F : TF) (E : Type) (G : Rng b64 E), b64_rng_ok G -> forall e : E, exists e' : E, rradem (N:=B64_Num F) G (bofZ 0) e = (bofZ (-1), e').
Proof. exact rradem_b0. Qed.
Print Assumptions C39_rradem_double_0.

Theorem C39_rradem_double_1 : forall (F : TF) (E : Type) (G : Rng b64 E), b64_rng_ok G -> forall e : E, exists e' : E, rradem (N:=B64_Num F) G (bofZ 1) e = (bofZ 1, e').
Proof. exact rradem_b1. Qed.
Print Assumptions C39_rradem_double_1.

Theorem C39_rbinom_double_0 : forall (F : TF) (E : Type) (G : Rng b64 E), b64_rng_ok G -> forall (n : Z) (e : E), (0 <= n)%Z -> exists e' : E, rbinom (N:=B64_Num F) G n (bofZ 0) e = (bofZ 0, e').
Proof. exact rbinom_b0. Qed.
Print Assumptions C39_rbinom_double_0.

(** Partial: n above 2^53 is missing; there the count stops at 2^53. *)

Theorem C39_rbinom_double_1_partial : forall (F : TF) (E : Type) (G : Rng b64 E), b64_rng_ok G -> forall (n : Z) (e : E), (0 <= n <= 2 ^ 53)%Z -> exists e' : E, rbinom (N:=B64_Num F) G n (bofZ 1) e = (bofZ n, e').
Proof. exact rbinom_b1. Qed.
Print Assumptions C39_rbinom_double_1_partial.

Theorem C39_rbinom_double_1_refuted : forall (F : TF) (E : Type) (G : Rng b64 E), b64_rng_ok G -> forall e : E, exists (n : Z) (v : b64) (e' : E),
  (0 <= n < 2 ^ 63)%Z /\ rbinom (N:=B64_Num F) G n (bofZ 1) e = (v, e') /\ Flocq.IEEE754.BinarySingleNaN.B2R v = IZR n - 2.
Proof. exact rbinom_b1_refuted. Qed.
Print Assumptions C39_rbinom_double_1_refuted.

Theorem C39_rbinom_double_saturates : forall (F : TF) (E : Type) (G : Rng b64 E), b64_rng_ok G -> forall (n : Z) (e : E), (2 ^ 53 <= n)%Z -> exists e' : E, rbinom (N:=B64_Num F) G n (bofZ 1) e = (bofZ (2 ^ 53), e').
Proof. exact rbinom_saturates. Qed.
Print Assumptions C39_rbinom_double_saturates.
(** An engine meeting the hypothesis: it always returns the lower end. *)
Example C39_rbinom_double_1_ex (F : TF) : exists e', rbinom (N:=B64_Num F) low_rng 12 (bofZ 1) tt = (bofZ 12, e').
Proof. apply C39_rbinom_double_1_partial; [exact low_rng_ok|lia]. Qed.
Example C39_rbern_double_0_ex (F : TF) : exists e', rbern (N:=B64_Num F) low_rng (bofZ 0) tt = (bofZ 0, e').
Proof. apply C39_rbern_double_0. exact low_rng_ok. Qed.
