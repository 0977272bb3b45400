(** C30: parallel evaluation and generation are memory-safe and race-free. *)
From Coq Require Import ZArith List Lia Bool.
From Verif Require Import Vec SpecVec VecProof VecPlan VecThm Threads VecMap.
Import ListNotations.
Local Open Scope Z_scope.


Theorem C30_eval_no_ub : forall (A L B : Type) (call : A -> L) (fstep : L -> L + B) (omp : option Z)
    (v : list A) (m : list B),
  omp_ok omp -> Z.of_nat (length v) < W64 -> length m = length v ->
  ~ eval_vec call fstep omp v (Z.of_nat (length v)) m UB.
Proof. exact @eval_no_ub. Qed.
Print Assumptions C30_eval_no_ub.

Theorem C30_rand_no_ub : forall (L E B U : Type) (l0 : L) (rstep : L -> E -> (L + B) * E)
    (uni : E -> U * E) (seed : Z -> Z -> U -> Z) (mk : Z -> E) (omp : option Z) (num : Z) (e0 : E) (m : list B),
  omp_ok omp -> 0 <= num < W64 -> Z.of_nat (length m) = num ->
  ~ rand_vec l0 rstep uni seed mk omp num e0 m UB.
Proof. exact @rand_no_ub. Qed.
Print Assumptions C30_rand_no_ub.
(** The model can go wrong: with a buffer one element short the same code is undefined. *)
Example C30_ub_ex : eval_vec (fun a => a) (once (fun n => n * n)) None [1; 2; 3] 3 [0; 0] UB.
Proof. exists UB. split; [|reflexivity]. apply (exec_ub _ _ _ _ _ [0; 0; 0; 0; 0; 0]%nat). reflexivity. Qed.
Example C30_eval_no_ub_ex : ~ eval_vec (fun a => a) (once (fun n => n * n)) (Some 3) (upto 0 17) 17 (repeat 0 17) UB.
Proof. apply (C30_eval_no_ub Z Z Z _ _ (Some 3) (upto 0 17)); [cbn; lia|reflexivity|reflexivity]. Qed.

Theorem C30_block_index : forall omp num : Z, 1 <= omp -> 0 <= num < W64 -> forall j i : Z,
  0 <= j < n_threads omp -> 0 <= i < n_per_block omp num ->
  uadd i (umul j (n_per_block omp num)) = i + j * n_per_block omp num /\
  0 <= i + j * n_per_block omp num < num.
Proof. exact (fun omp num Ho Hn j i Hj Hi => conj (blk_idx omp num Ho Hn j i Hj Hi) (blk_lt omp num Ho Hn j i Hj Hi)). Qed.
Print Assumptions C30_block_index.
Example C30_block_index_ex : uadd 4 (umul 3 (n_per_block 4 22)) = 19.
Proof. exact (proj1 (C30_block_index 4 22 ltac:(lia) ltac:(unfold W64; lia) 3 4 ltac:(unfold n_threads; lia) ltac:(cbn; lia))). Qed.

Theorem C30_tail_no_wrap : forall omp num : Z, 1 <= omp -> 0 <= num < W64 -> parallel omp num = true ->
  usub (usub num (n_remainder omp num)) 1 = num - n_remainder omp num - 1 /\
  0 <= num - n_remainder omp num - 1.
Proof. exact tail_start. Qed.
Print Assumptions C30_tail_no_wrap.
Example C30_tail_no_wrap_ex : parallel 4 22 = true /\ usub (usub 22 (n_remainder 4 22)) 1 = 19.
Proof. split; [reflexivity|]. exact (proj1 (C30_tail_no_wrap 4 22 ltac:(lia) ltac:(unfold W64; lia) eq_refl)). Qed.

Theorem C30_tail_index : forall omp num : Z, 1 <= omp -> 0 <= num < W64 -> parallel omp num = true ->
  forall i : Z, In i (tail omp num) -> 0 <= i < num.
Proof. exact tail_in. Qed.
Print Assumptions C30_tail_index.
Example C30_tail_index_ex : tail 4 22 = [19; 20; 21] /\ 0 <= 21 < 22.
Proof. split; [reflexivity|]. apply (C30_tail_index 4 22); [lia|unfold W64; lia|reflexivity|vm_compute; tauto]. Qed.

(** In every reachable state, two different threads never have an engine or an output element in
    common; [accesses] lists what a running call reads or writes. *)

Theorem C30_rand_no_race : forall (L E B : Type) (l0 : L) (rstep : L -> E -> (L + B) * E) (omp num : Z)
    (es : list E) (m : list B) (sched : list nat) (s : state) (k1 k2 : nat) t1 e1 t2 e2 (a : loc),
  1 <= omp -> 0 <= num < W64 -> length es = Z.to_nat (n_threads omp) -> Z.of_nat (length m) = num ->
  run (rstart l0) rstep sched (init (blocks omp num) es m) = Ok s -> k1 <> k2 ->
  nth_error (fst s) k1 = Some (t1, e1) -> nth_error (fst s) k2 = Some (t2, e2) ->
  In a (accesses k1 t1) -> ~ In a (accesses k2 t2).
Proof. exact @blocks_no_race. Qed.
Print Assumptions C30_rand_no_race.

Theorem C30_eval_no_race : forall (A L B : Type) (call : A -> L) (fstep : L -> L + B) (omp : Z) (v : list A)
    (m : list B) (sched : list nat) (s : state) (k1 k2 : nat) t1 e1 t2 e2 (a : loc),
  1 <= omp -> Z.of_nat (length v) < W64 -> length m = length v ->
  run (estart call v) (estep fstep) sched
    (init (blocks omp (Z.of_nat (length v))) (map (fun _ => tt) (blocks omp (Z.of_nat (length v)))) m) = Ok s ->
  k1 <> k2 -> nth_error (fst s) k1 = Some (t1, e1) -> nth_error (fst s) k2 = Some (t2, e2) ->
  In a (accesses k1 t1) -> ~ In a (accesses k2 t2).
Proof. exact @eval_no_race. Qed.
Print Assumptions C30_eval_no_race.
(** two threads inside a call at the same time: thread 0 at element 0, thread 1 at element 5 *)
Example C30_rand_no_race_ex : exists s t1 t2,
  run (rstart tt) (step1 (fun e : Z => (e, e + 1))) [0; 1]%nat (init (blocks 2 10) [100; 200] (repeat 0 10)) = Ok s /\
  nth_error (fst s) 0 = Some (t1, 100) /\ nth_error (fst s) 1 = Some (t2, 200) /\
  In (Out 0) (accesses 0 t1) /\ ~ In (Out 0) (accesses 1 t2).
Proof.
  eexists _, _, _. split; [reflexivity|]. split; [reflexivity|]. split; [reflexivity|]. split; [cbn; tauto|].
  eapply (C30_rand_no_race unit Z Z tt (step1 (fun e : Z => (e, e + 1))) 2 10 [100; 200] (repeat 0 10) [0; 1]%nat _ 0%nat 1%nat);
    try reflexivity; try lia; try (unfold W64; lia); try discriminate; cbn; auto.
Qed.
