(** C29: vector and matrix evaluation is element-wise, for any length, thread count and interleaving. *)
From Coq Require Import ZArith List Lia Bool.
From Verif Require Import Vec SpecVec VecProof VecPlan VecThm Threads VecMap.
Import ListNotations.
Local Open Scope Z_scope.


(** [call]/[fstep] describe a scalar function as a small-step computation, so that the threads can
    interleave inside a call; [evaluates a b] says that the call for [a] returns [b].
    [Some k] is OpenMP with k threads, [None] is no OpenMP. *)

Theorem C29_stdvec : forall (A L B : Type) (call : A -> L) (fstep : L -> L + B) (omp : option Z)
    (fill0 : list B) (x : list A) (r : outcome (list B)),
  omp_ok omp -> Z.of_nat (length x) < W64 -> stdvec_fn call fstep omp fill0 x r ->
  exists out, r = Ok out /\ Forall2 (evaluates call fstep) x out.
Proof. exact @stdvec_ok. Qed.
Print Assumptions C29_stdvec.

Theorem C29_matrix : forall (A L B : Type) (call : A -> L) (fstep : L -> L + B) (omp : option Z)
    (fill0 : list B) (X : matrix A) (r : outcome (matrix B)),
  omp_ok omp -> Z.of_nat (length (m_data X)) = m_rows X * m_cols X ->
  m_rows X * m_cols X < W64 -> mat_fn call fstep omp fill0 X r ->
  exists Y, r = Ok Y /\ m_rows Y = m_rows X /\ m_cols Y = m_cols X /\
    Forall2 (evaluates call fstep) (m_data X) (m_data Y).
Proof. exact @mat_ok. Qed.
Print Assumptions C29_matrix.

(** For a scalar function that is a plain function the result is [map].  It is reached. *)

Theorem C29_stdvec_map : forall (A B : Type) (f : A -> B) (omp : option Z) (fill0 : list B) (x : list A)
    (r : outcome (list B)),
  omp_ok omp -> Z.of_nat (length x) < W64 ->
  stdvec_fn (fun a => a) (once f) omp fill0 x r -> r = Ok (map f x).
Proof. exact @stdvec_map. Qed.
Print Assumptions C29_stdvec_map.

Theorem C29_stdvec_runs : forall (A B : Type) (f : A -> B) (omp : option Z) (fill0 : list B) (x : list A),
  omp_ok omp -> Z.of_nat (length x) < W64 -> length fill0 = length x ->
  stdvec_fn (fun a => a) (once f) omp fill0 x (Ok (map f x)).
Proof. exact @stdvec_map_exists. Qed.
Print Assumptions C29_stdvec_runs.
(** 22 elements on 4 threads: four blocks of 5 and a remainder of 2. *)
Example C29_stdvec_runs_ex :
  parallel 4 22 = true /\ n_remainder 4 22 = 2 /\
  stdvec_fn (fun a => a) (once (fun n => n * n)) (Some 4) (repeat 0 22) (upto 100 122)
    (Ok (map (fun n => n * n) (upto 100 122))).
Proof. split; [reflexivity|]. split; [reflexivity|]. apply C29_stdvec_runs; [cbn; lia|reflexivity|reflexivity]. Qed.
(** the one possible result *)
Example C29_stdvec_map_ex : forall r,
  stdvec_fn (fun a => a) (once (fun n => n * n)) (Some 7) (repeat 0 22) (upto 100 122) r ->
  r = Ok (map (fun n => n * n) (upto 100 122)).
Proof. intros r. apply C29_stdvec_map; [cbn; lia|reflexivity]. Qed.

Theorem C29_mat_map : forall (A B : Type) (f : A -> B) (omp : option Z) (fill0 : list B) (X : matrix A)
    (r : outcome (matrix B)),
  omp_ok omp -> Z.of_nat (length (m_data X)) = m_rows X * m_cols X ->
  m_rows X * m_cols X < W64 -> mat_fn (fun a => a) (once f) omp fill0 X r ->
  r = Ok (Mat (m_rows X) (m_cols X) (map f (m_data X))).
Proof. exact @mat_map. Qed.
Print Assumptions C29_mat_map.
Example C29_mat_map_ex : forall r,
  mat_fn (fun a => a) (once Z.opp) (Some 2) (repeat 0 12) (Mat 4 3 (upto 0 12)) r ->
  r = Ok (Mat 4 3 (map Z.opp (upto 0 12))).
Proof. intros r. apply (C29_mat_map Z Z Z.opp (Some 2) (repeat 0 12) (Mat 4 3 (upto 0 12))); [cbn; lia|reflexivity|reflexivity]. Qed.

Theorem C29_returns : forall (A L B : Type) (call : A -> L) (fstep : L -> L + B) (omp : option Z)
    (v : list A) (m out : list B),
  omp_ok omp -> Z.of_nat (length v) < W64 -> length m = length v ->
  Forall2 (evaluates call fstep) v out ->
  exists r, eval_vec call fstep omp v (Z.of_nat (length v)) m r.
Proof. exact @eval_vec_exists. Qed.
Print Assumptions C29_returns.

Theorem C29_deterministic : forall (A L B : Type) (call : A -> L) (fstep : L -> L + B) (a : A) (b1 b2 : B),
  evaluates call fstep a b1 -> evaluates call fstep a b2 -> b1 = b2.
Proof. exact @evaluates_det. Qed.
Print Assumptions C29_deterministic.
(** a call that takes three steps: count down, then answer *)
Definition countdown (l : nat * Z) : (nat * Z) + Z :=
  match l with (O, a) => inr (a + 1) | (S n, a) => inl (n, a) end.
Example C29_stdvec_ex : forall r, stdvec_fn (fun a => (2%nat, a)) countdown (Some 3) (repeat 0 17) (upto 0 17) r ->
  exists out, r = Ok out /\ Forall2 (evaluates (fun a => (2%nat, a)) countdown) (upto 0 17) out.
Proof. intros r. apply C29_stdvec; [cbn; lia|reflexivity]. Qed.
Example C29_evaluates_ex : evaluates (fun a => (2%nat, a)) countdown 7 8.
Proof. eapply ret_later; [reflexivity|]. eapply ret_later; [reflexivity|]. apply ret_now. reflexivity. Qed.
