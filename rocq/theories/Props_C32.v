(** C32: parallel sampling is deterministic for a given engine state and thread count. *)
From Coq Require Import ZArith List Lia Bool.
From Verif Require Import Vec SpecVec VecProof VecPlan VecThm Threads VecMap.
Import ListNotations.
Local Open Scope Z_scope.


(** [filled n rem es out] (SpecVec.v) says what the result is: engine k of [es] makes the n draws of
    block k; if rem > 0 the first engine then makes rem + 1 further draws, which replace the last
    element of the last block and fill the rest. *)

Theorem C32_result : forall (L E B U : Type) (l0 : L) (rstep : L -> E -> (L + B) * E) (uni : E -> U * E)
    (seed : Z -> Z -> U -> Z) (mk : Z -> E) (omp num : Z) (e0 : E)
    (m : list B) (r : outcome (E * list B)),
  1 <= omp -> 0 <= num < W64 -> Z.of_nat (length m) = num -> parallel omp num = true ->
  rand_omp l0 rstep uni seed mk omp num e0 m r ->
  exists out, r = Ok (snd (seeded uni seed mk omp e0), out) /\
    filled l0 rstep (Z.to_nat (n_per_block omp num)) (Z.to_nat (n_remainder omp num))
      (fst (seeded uni seed mk omp e0)) out.
Proof. exact @rand_omp_ok. Qed.
Print Assumptions C32_result.

Theorem C32_deterministic : forall (L E B U : Type) (l0 : L) (rstep : L -> E -> (L + B) * E) (uni : E -> U * E)
    (seed : Z -> Z -> U -> Z) (mk : Z -> E) (omp : option Z) (num : Z) (e0 : E)
    (m : list B) (r1 r2 : outcome (E * list B)),
  omp_ok omp -> 0 <= num < W64 -> Z.of_nat (length m) = num ->
  rand_vec l0 rstep uni seed mk omp num e0 m r1 -> rand_vec l0 rstep uni seed mk omp num e0 m r2 -> r1 = r2.
Proof. exact @rand_vec_det. Qed.
Print Assumptions C32_deterministic.

Theorem C32_every_element : forall (L E B U : Type) (l0 : L) (rstep : L -> E -> (L + B) * E) (uni : E -> U * E)
    (seed : Z -> Z -> U -> Z) (mk : Z -> E) (omp : option Z) (num : Z) (e0 : E)
    (m : list B) (r : outcome (E * list B)),
  omp_ok omp -> 0 <= num < W64 -> Z.of_nat (length m) = num ->
  rand_vec l0 rstep uni seed mk omp num e0 m r ->
  exists e' out, r = Ok (e', out) /\ Z.of_nat (length out) = num.
Proof. exact @rand_vec_len. Qed.
Print Assumptions C32_every_element.

Theorem C32_no_old_data : forall (L E B U : Type) (l0 : L) (rstep : L -> E -> (L + B) * E) (uni : E -> U * E)
    (seed : Z -> Z -> U -> Z) (mk : Z -> E) (omp num : Z) (e0 : E)
    (m1 m2 : list B) (r1 r2 : outcome (E * list B)),
  1 <= omp -> 0 <= num < W64 -> Z.of_nat (length m1) = num -> Z.of_nat (length m2) = num ->
  rand_vec l0 rstep uni seed mk (Some omp) num e0 m1 r1 ->
  rand_vec l0 rstep uni seed mk (Some omp) num e0 m2 r2 -> r1 = r2.
Proof. exact @fill_overwrites. Qed.
Print Assumptions C32_no_old_data.

Theorem C32_engine_advance : forall (E U : Type) (uni : E -> U * E) (seed : Z -> Z -> U -> Z) (mk : Z -> E)
    (omp : Z) (e0 : E), 1 <= omp ->
  snd (seeded uni seed mk omp e0) = snd (advance uni (Z.to_nat (n_threads omp)) e0) /\
  fst (seeded uni seed mk omp e0) =
    map (fun ku => mk (seed (fst ku) (n_threads omp) (snd ku)))
      (combine (upto 0 (n_threads omp)) (fst (advance uni (Z.to_nat (n_threads omp)) e0))).
Proof. exact @seeded_advance. Qed.
Print Assumptions C32_engine_advance.
(** two threads, 11 elements: engines 1000 and 2001, one uniform draw each, remainder 1 *)
Definition c32_fill := rand_omp tt (step1 (fun e : Z => (e, e + 1))) (fun e => (e, e + 1)) (fun k _ u => 1000 * (k + 1) + u) (fun z => z).
Example C32_result_ex : parallel 2 11 = true /\ n_remainder 2 11 = 1 /\
  (exists r, c32_fill 2 11 0 (repeat 0 11) r) /\
  forall r, c32_fill 2 11 0 (repeat 0 11) r ->
    r = Ok (2, [1000; 1001; 1002; 1003; 1004; 2001; 2002; 2003; 2004; 1005; 1006]).
Proof.
  split; [reflexivity|]. split; [reflexivity|]. split.
  - apply (rand_vec_exists tt (step1 (fun e : Z => (e, e + 1))) (fun e => (e, e + 1)) (fun k _ u => 1000 * (k + 1) + u) (fun z => z) (Some 2));
      [apply returns_total|cbn; lia|unfold W64; lia|reflexivity].
  - intros r H. apply C32_result in H; [|lia|unfold W64; lia|reflexivity|reflexivity].
    destruct H as (out & -> & bss & es' & BC & T). cbn in T, BC.
    destruct T as (e1 & es1 & tv & e2 & -> & C & ->).
    inversion BC as [|? ? ? ? ? ? C1 BC1]; subst. inversion BC1 as [|? ? ? ? ? ? C2 BC2]; subst. inversion BC2; subst.
    apply calls_step1 in C, C1, C2. cbn in C1, C2. injection C1 as <- <-. injection C2 as <- <-.
    cbn in C. injection C as <- <-. reflexivity.
Qed.
