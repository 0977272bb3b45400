(** C31: serial vector sampling is a sequence of scalar draws. *)
From Coq Require Import ZArith List Lia Bool.
From Verif Require Import Vec SpecVec VecProof VecPlan VecThm Threads VecMap.
Import ListNotations.
Local Open Scope Z_scope.


(** [calls l0 rstep n e bs e']: n scalar calls in a row on engine e give bs and leave e'. *)

Theorem C31_serial : forall (L E B : Type) (l0 : L) (rstep : L -> E -> (L + B) * E) (num : Z) (e0 : E)
    (m : list B) (r : outcome (E * list B)),
  0 <= num -> Z.of_nat (length m) = num -> rand_serial l0 rstep num e0 m r ->
  exists out e', r = Ok (e', out) /\ calls l0 rstep (Z.to_nat num) e0 out e'.
Proof. exact @rand_serial_ok. Qed.
Print Assumptions C31_serial.

Theorem C31_calls_deterministic : forall (L E B : Type) (rstep : L -> E -> (L + B) * E) (l0 : L) (n : nat) (e : E)
    (b1 : list B) (e1 : E) (b2 : list B) (e2 : E),
  calls l0 rstep n e b1 e1 -> calls l0 rstep n e b2 e2 -> b1 = b2 /\ e1 = e2.
Proof. exact @calls_det. Qed.
Print Assumptions C31_calls_deterministic.

Theorem C31_below_threshold : forall (L E B U : Type) (l0 : L) (rstep : L -> E -> (L + B) * E) (uni : E -> U * E)
    (seed : Z -> Z -> U -> Z) (mk : Z -> E) (omp num : Z) (e0 : E)
    (m : list B) (r1 r2 : outcome (E * list B)),
  1 <= omp -> parallel omp num = false -> 0 <= num < W64 -> Z.of_nat (length m) = num ->
  rand_vec l0 rstep uni seed mk (Some omp) num e0 m r1 ->
  rand_vec l0 rstep uni seed mk None num e0 m r2 -> r1 = r2.
Proof. exact @fill_small. Qed.
Print Assumptions C31_below_threshold.

(** For a sampler that is a function of the engine state: [advance f n e] is n calls of f. *)

Theorem C31_serial_function : forall (E B U : Type) (f : E -> B * E) (uni : E -> U * E) (seed : Z -> Z -> U -> Z) (mk : Z -> E)
    (num : Z) (e0 : E) (m : list B) (r : outcome (E * list B)),
  0 <= num < W64 -> Z.of_nat (length m) = num ->
  rand_vec tt (step1 f) uni seed mk None num e0 m r ->
  r = Ok (snd (advance f (Z.to_nat num) e0), fst (advance f (Z.to_nat num) e0)).
Proof. exact @serial_total. Qed.
Print Assumptions C31_serial_function.
Example C31_serial_function_ex : forall r,
  rand_vec tt (step1 (fun e : Z => (e * e, e + 1))) (fun e => (e, e)) (fun _ _ u => u) (fun z => z) None 4 3 [0; 0; 0; 0] r ->
  r = Ok (7, [9; 16; 25; 36]).
Proof. intros r H. apply C31_serial_function in H; [exact H|unfold W64; lia|reflexivity]. Qed.

Theorem C31_below_threshold_function : forall (E B U : Type) (f : E -> B * E) (uni : E -> U * E) (seed : Z -> Z -> U -> Z) (mk : Z -> E)
    (omp num : Z) (e0 : E) (m : list B) (r : outcome (E * list B)),
  1 <= omp -> 0 <= num < W64 -> parallel omp num = false -> Z.of_nat (length m) = num ->
  rand_vec tt (step1 f) uni seed mk (Some omp) num e0 m r ->
  r = Ok (snd (advance f (Z.to_nat num) e0), fst (advance f (Z.to_nat num) e0)).
Proof. exact @omp_small_total. Qed.
Print Assumptions C31_below_threshold_function.
Example C31_below_threshold_function_ex : parallel 4 19 = false /\ forall r,
  rand_vec tt (step1 (fun e : Z => (e * e, e + 1))) (fun e => (e, e)) (fun _ _ u => u) (fun z => z) (Some 4) 19 0 (repeat 0 19) r ->
  r = Ok (19, map (fun n => n * n) (upto 0 19)).
Proof.
  split; [reflexivity|]. intros r H. apply C31_below_threshold_function in H; [exact H|lia|unfold W64; lia|reflexivity|reflexivity].
Qed.

Theorem C31_runs : forall (L E B U : Type) (l0 : L) (rstep : L -> E -> (L + B) * E) (uni : E -> U * E)
    (seed : Z -> Z -> U -> Z) (mk : Z -> E) (omp : option Z) (num : Z) (e0 : E) (m : list B),
  (forall e : E, exists (b : B) (e' : E), returns rstep l0 e b e') ->
  omp_ok omp -> 0 <= num < W64 -> Z.of_nat (length m) = num ->
  exists r, rand_vec l0 rstep uni seed mk omp num e0 m r.
Proof. exact @rand_vec_exists. Qed.
Print Assumptions C31_runs.
Example C31_runs_ex : exists r,
  rand_vec tt (step1 (fun e : Z => (e * e, e + 1))) (fun e => (e, e)) (fun _ _ u => u) (fun z => z) None 4 3 [0; 0; 0; 0] r.
Proof. apply C31_runs; [apply returns_total|exact I|unfold W64; lia|reflexivity]. Qed.
