(** C51: r*<std::vector<double>>(n,k,...) returns n*k elements (false when n*k overflows). *)
From Coq Require Import ZArith List Lia Bool.
From Verif Require Import Vec SpecVec VecProof VecPlan VecThm Threads VecMap.
Import ListNotations.
Local Open Scope Z_scope.


Theorem C51_count : forall (L E B U : Type) (l0 : L) (rstep : L -> E -> (L + B) * E) (uni : E -> U * E)
    (seed : Z -> Z -> U -> Z) (mk : Z -> E) (omp : option Z) (n k : Z) (e0 : E)
    (fill0 : list B) (r : outcome (E * list B)),
  omp_ok omp -> 0 <= n -> 0 <= k -> n * k < W64 -> gen_vec l0 rstep uni seed mk omp n k e0 fill0 r ->
  exists e' out, r = Ok (e', out) /\ Z.of_nat (length out) = n * k.
Proof. exact @gen_len. Qed.
Print Assumptions C51_count.
Example C51_count_ex : forall r,
  gen_vec tt (step1 (fun e : Z => (e, e + 1))) (fun e => (e, e + 1)) (fun k _ u => 1000 * (k + 1) + u) (fun z => z) (Some 4) 6 4 5 (repeat 0 24) r ->
  exists e' out, r = Ok (e', out) /\ Z.of_nat (length out) = 24.
Proof. intros r. apply (C51_count unit Z Z Z tt _ _ _ _ (Some 4) 6 4); [cbn; lia|lia|lia|unfold W64; lia]. Qed.

Theorem C51_count_refuted : forall (L E B U : Type) (l0 : L) (rstep : L -> E -> (L + B) * E) (uni : E -> U * E)
    (seed : Z -> Z -> U -> Z) (mk : Z -> E) (e0 : E),
  exists n k, 0 < n < W64 /\ 0 < k < W64 /\ gen_vec l0 rstep uni seed mk None n k e0 [] (Ok (e0, [])).
Proof. exact @gen_len_refuted. Qed.
Print Assumptions C51_count_refuted.
