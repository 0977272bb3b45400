(** C33: parallel blocks get distinct seeds (true in exact arithmetic, false in binary64). *)
From Coq Require Import ZArith QArith Reals List Lia Lra.
From Verif Require Import Num ER B64 Rand Vec SpecVec VecThm Seed Witness.
From Flocq Require Import Core IEEE754.BinarySingleNaN.
Import ListNotations.
Local Open Scope R_scope.


(** [seeds] lists the seeds of the blocks; [None] would be an undefined conversion to size_t. *)

Theorem C33_exact : forall (E : Type) (S : SF) (uni : E -> ER * E) (omp : Z) (e0 : E), (1 <= omp)%Z ->
  (forall e, exists u, fst (uni e) = Fin u /\ 0 < u < 1) ->
  ~ In None (seeds (er_seed S) uni omp e0) /\ NoDup (seeds (er_seed S) uni omp e0).
Proof. exact @er_seeds_distinct. Qed.
Print Assumptions C33_exact.
Example C33_exact_ex : NoDup (seeds (er_seed SF0) (fun e : unit => (Fin (1/2), e)) 3 tt).
Proof. apply C33_exact; [lia|]. intros e. exists (1/2). split; [reflexivity|lra]. Qed.

Theorem C33_binary64_partial : forall (E : Type) (F : TF) (uni : E -> b64 * E) (omp : Z) (e0 : E), (1 <= omp)%Z ->
  (forall e, is_finite (fst (uni e)) = true /\ 0 < B2R (fst (uni e)) <= 1 - bpow radix2 (-40)) ->
  ~ In None (seeds (b64_seed F) uni omp e0) /\ NoDup (seeds (b64_seed F) uni omp e0).
Proof. exact @b64_seeds_distinct. Qed.
Print Assumptions C33_binary64_partial.
(** Missing for the full statement: draws above 1 - 2^-40, where it fails (below). *)
Example C33_binary64_partial_ex : forall F,
  seeds (b64_seed F) (fun e : unit => (blit (1#2), e)) 3 tt = [Some 3500; Some 4500; Some 5500]%Z.
Proof. intros F. vm_compute. reflexivity. Qed.
Example C33_binary64_partial_ex2 : forall F, NoDup (seeds (b64_seed F) (fun e : unit => (blit (1#2), e)) 3 tt).
Proof.
  intros F. apply C33_binary64_partial; [lia|]. intros e. cbn [fst]. split; [vm_compute; reflexivity|].
  replace (B2R (blit (1#2))) with (4503599627370496 * / 9007199254740992).
  - rewrite bp_eq. lra.
  - assert (Q : B2SF (blit (1#2)) = SpecFloat.S754_finite false 4503599627370496 (-53)) by (vm_compute; reflexivity).
    rewrite <- SF2R_B2SF, Q. reflexivity.
Qed.

Theorem C33_binary64_apart_partial : forall (F : TF) (n k1 k2 : Z) (u1 u2 : b64),
  (0 <= k1)%Z -> (k1 + 1 < k2)%Z -> (k2 < n <= 4)%Z ->
  is_finite u1 = true -> is_finite u2 = true -> 0 < B2R u1 < 1 -> 0 < B2R u2 < 1 ->
  b64_seed F k1 n u1 <> b64_seed F k2 n u2.
Proof. exact b64_seeds_apart. Qed.
Print Assumptions C33_binary64_apart_partial.

Theorem C33_binary64_range : forall (F : TF) (k n : Z) (u : b64), (0 <= k < n)%Z -> (n <= 4)%Z ->
  is_finite u = true -> 0 < B2R u < 1 ->
  exists z, b64_seed F k n u = Some z /\ (1000 * (k + n) <= z <= 1000 * (k + n + 1))%Z /\
    (B2R u <= 1 - bpow radix2 (-40) -> (z < 1000 * (k + n + 1))%Z).
Proof. exact b64_seed_range. Qed.
Print Assumptions C33_binary64_range.

(** u = 1 - 2^-53 for block 0 and u = 2^-53 for block 1 both give the seed 3000. *)

Theorem C33_binary64_refuted : forall (F : TF), exists (E : Type) (uni : E -> b64 * E) (omp : Z) (e0 : E), (1 <= omp)%Z /\
  (forall e, is_finite (fst (uni e)) = true /\ 0 < B2R (fst (uni e)) < 1) /\
  ~ NoDup (seeds (b64_seed F) uni omp e0).
Proof. exact b64_seeds_refuted. Qed.
Print Assumptions C33_binary64_refuted.

(** The engines built by the fill are those of the listed seeds. *)

Theorem C33_engines : forall (E U : Type) (seed : Z -> Z -> U -> option Z) (uni : E -> U * E) (mk : Z -> E)
    (omp : Z) (e0 : E), (1 <= omp)%Z ->
  fst (seeded uni (fun k n u => match seed k n u with Some z => z | None => 0%Z end) mk omp e0) =
  map (fun z => mk (match z with Some z => z | None => 0%Z end)) (seeds seed uni omp e0).
Proof. exact @seeded_seeds. Qed.
Print Assumptions C33_engines.
