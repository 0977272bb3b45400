(** C34: a seeded vector draw does not depend on the number of threads (false; true from 4 threads on). *)
From Coq Require Import ZArith List Lia.
From Verif Require Import Num B64 Rand Vec SpecVec VecThm Seed MT Threads.
Import ListNotations.
Local Open Scope Z_scope.


(** runif on mt19937_64, 10 elements, seed 1, with 1 thread and with 2 threads *)

Theorem C34_threads_refuted : forall F : TF, exists (s num omp1 omp2 : Z) (m out1 out2 : list b64) (e1 e2 : mt),
  1 <= omp1 /\ 1 <= omp2 /\ 0 <= num < W64 /\ Z.of_nat (length m) = num /\
  rand_vec tt (step1 (run01 F)) (run01 F) (seedZ F) mt_seed (Some omp1) num (mt_seed s) m (Ok (e1, out1)) /\
  rand_vec tt (step1 (run01 F)) (run01 F) (seedZ F) mt_seed (Some omp2) num (mt_seed s) m (Ok (e2, out2)) /\
  out1 <> out2.
Proof. exact fill_refuted. Qed.
Print Assumptions C34_threads_refuted.

Theorem C34_four_or_more : forall (L E B U : Type) (l0 : L) (rstep : L -> E -> (L + B) * E) (uni : E -> U * E)
    (seed : Z -> Z -> U -> Z) (mk : Z -> E) (omp1 omp2 num : Z) (e0 : E)
    (m : list B) (r1 r2 : outcome (E * list B)),
  4 <= omp1 -> 4 <= omp2 -> 0 <= num < W64 -> Z.of_nat (length m) = num ->
  rand_vec l0 rstep uni seed mk (Some omp1) num e0 m r1 ->
  rand_vec l0 rstep uni seed mk (Some omp2) num e0 m r2 -> r1 = r2.
Proof. exact @fill_four. Qed.
Print Assumptions C34_four_or_more.

Theorem C34_small_fills : forall (L E B U : Type) (l0 : L) (rstep : L -> E -> (L + B) * E) (uni : E -> U * E)
    (seed : Z -> Z -> U -> Z) (mk : Z -> E) (omp num : Z) (e0 : E)
    (m : list B) (r1 r2 : outcome (E * list B)),
  1 <= omp -> parallel omp num = false -> 0 <= num < W64 -> Z.of_nat (length m) = num ->
  rand_vec l0 rstep uni seed mk (Some omp) num e0 m r1 ->
  rand_vec l0 rstep uni seed mk None num e0 m r2 -> r1 = r2.
Proof. exact @fill_small. Qed.
Print Assumptions C34_small_fills.

Theorem C34_fewer_than_five : forall omp num : Z, 1 <= omp -> 0 <= num < 5 -> parallel omp num = false.
Proof. exact not_parallel. Qed.
Print Assumptions C34_fewer_than_five.
Example C34_four_or_more_ex : forall r1 r2,
  rand_vec tt (step1 (fun e : Z => (e, e + 1))) (fun e => (e, e + 1)) (fun k _ u => 1000 * (k + 1) + u) (fun z => z) (Some 4) 23 5 (repeat 0 23) r1 ->
  rand_vec tt (step1 (fun e : Z => (e, e + 1))) (fun e => (e, e + 1)) (fun k _ u => 1000 * (k + 1) + u) (fun z => z) (Some 64) 23 5 (repeat 0 23) r2 ->
  r1 = r2.
Proof. intros r1 r2. apply C34_four_or_more; [lia|lia|unfold W64; lia|reflexivity]. Qed.
