(** Model of the vector macros of misc/internal_fns/statslib_defs.hpp: element-wise evaluation
    (EVAL_DIST_FN_VEC, lines 37-72 and 125-132) and random filling (RAND_DIST_FN_VEC, lines 76-119
    and 134-141), with and without OpenMP, and of the container wrappers of lines 149-192 and
    213-244.

    The scalar function called for each element is an arbitrary deterministic small-step machine:
    [start i] is its initial local state at index [i] (reading vals_in[i]; [None] when that read is
    out of range), and [rstep l e] performs one step on local state [l] and engine [e], ending with
    a value or a new local state.  Threads interleave at the granularity of these steps and of
    individual stores to vals_out.  An out-of-range read or store is the outcome [UB].

    "omp parallel for" hands every iteration of the loop over blocks to some thread, and a thread
    runs its iterations one after the other.  Here each iteration is its own thread, which allows
    every interleaving OpenMP allows and more. *)
From Coq Require Import ZArith List Bool Lia.
Import ListNotations.
Local Open Scope Z_scope.

(** ullint_t arithmetic (statslib_options.hpp:72), modulo 2^64 *)
Definition W64 : Z := 2 ^ 64.
Definition uadd (a b : Z) : Z := (a + b) mod W64.
Definition usub (a b : Z) : Z := (a - b) mod W64.
Definition umul (a b : Z) : Z := (a * b) mod W64.

(** The values of the loop variable in  for (ullint_t i = b; i < n; ++i).  The increment cannot
    wrap because i < n before it. *)
Definition upto (b n : Z) : list Z :=
  map (fun k => b + Z.of_nat k) (seq 0 (Z.to_nat (n - b))).

(** statslib_defs.hpp:40-44 and 79-83, statslib_options.hpp:99-100; [omp] is
    omp_get_max_threads() *)
Definition n_threads (omp : Z) : Z := Z.min omp 4.
Definition n_per_block (omp num : Z) : Z := num / n_threads omp.
Definition n_remainder (omp num : Z) : Z := num mod n_threads omp.

(** the test at lines 46 and 85 *)
Definition parallel (omp num : Z) : bool := 4 <? n_per_block omp num.

(** the output indices of block [j], lines 51-54 and 98-101 *)
Definition block (omp num j : Z) : list Z :=
  map (fun i => uadd i (umul j (n_per_block omp num))) (upto 0 (n_per_block omp num)).
Definition blocks (omp num : Z) : list (list Z) := map (block omp num) (upto 0 (n_threads omp)).

(** the indices of the trailing loop, lines 58-64 and 105-111 *)
Definition tail (omp num : Z) : list Z :=
  if 0 <? n_remainder omp num
  then upto (usub (usub num (n_remainder omp num)) 1) num
  else [].

Inductive outcome (A : Type) : Type := Ok (a : A) | UB.
Arguments Ok {A} a.
Arguments UB {A}.

Definition set_nth {B} (m : list B) (k : nat) (b : B) : list B := firstn k m ++ b :: skipn (S k) m.

(** vals_out[i] = b *)
Definition store {B} (m : list B) (i : Z) (b : B) : outcome (list B) :=
  if (0 <=? i) && (i <? Z.of_nat (length m)) then Ok (set_nth m (Z.to_nat i) b) else UB.

(** vals_in[i] *)
Definition load {A} (v : list A) (i : Z) : option A :=
  if 0 <=? i then nth_error v (Z.to_nat i) else None.

Section Machine.
Context {L E B : Type} (start : Z -> option L) (rstep : L -> E -> (L + B) * E).

(** A loop that has the indices [todo] left, between two iterations or inside the call for [i]. *)
Inductive thread := Idle (todo : list Z) | Busy (i : Z) (todo : list Z) (l : L).

Definition finished (t : thread) : Prop := t = Idle [].

Definition thread_step (t : thread) (e : E) (m : list B) : outcome (thread * E * list B) :=
  match t with
  | Idle [] => Ok (t, e, m)
  | Idle (i :: todo) =>
      match start i with Some l => Ok (Busy i todo l, e, m) | None => UB end
  | Busy i todo l =>
      match rstep l e with
      | (inl l', e') => Ok (Busy i todo l', e', m)
      | (inr b, e') => match store m i b with Ok m' => Ok (Idle todo, e', m') | UB => UB end
      end
  end.

(** Thread [k] owns engine [k]; vals_out is shared. *)
Definition state : Type := list (thread * E) * list B.

Definition pick (k : nat) (s : state) : outcome state :=
  match nth_error (fst s) k with
  | None => Ok s
  | Some (t, e) =>
      match thread_step t e (snd s) with
      | Ok (t', e', m') => Ok (set_nth (fst s) k (t', e'), m')
      | UB => UB
      end
  end.

(** A schedule names the thread that moves next. *)
Fixpoint run (sched : list nat) (s : state) : outcome state :=
  match sched with
  | [] => Ok s
  | k :: sched' => match pick k s with Ok s' => run sched' s' | UB => UB end
  end.

Definition init (loops : list (list Z)) (es : list E) (m : list B) : state :=
  (combine (map Idle loops) es, m).

Definition all_finished (s : state) : Prop := Forall (fun te => finished (fst te)) (fst s).

(** The possible ends of running the loops concurrently: undefined behaviour under some
    schedule, or the engines and memory when all of them have finished. *)
Inductive exec (loops : list (list Z)) (es : list E) (m : list B) : outcome (list E * list B) -> Prop :=
| exec_done sched s : run sched (init loops es m) = Ok s -> all_finished s ->
    exec loops es m (Ok (map snd (fst s), snd s))
| exec_ub sched : run sched (init loops es m) = UB -> exec loops es m UB.

(** What memory accesses the next step of thread [k] makes. *)
Inductive loc := Engine (k : nat) | Out (i : Z).
Definition accesses (k : nat) (t : thread) : list loc :=
  match t with Idle _ => [] | Busy i _ _ => [Engine k; Out i] end.

End Machine.

(** EVAL_DIST_FN_VEC.  The scalar function has no engine: E = unit.
    statslib_defs.hpp:125-132 *)
Section Eval.
Context {A L B : Type} (call : A -> L) (fstep : L -> L + B).
Definition estart (vals_in : list A) (i : Z) : option L := option_map call (load vals_in i).
Definition estep (l : L) (e : unit) : (L + B) * unit := (fstep l, tt).

Definition eval_serial (vals_in : list A) (num : Z) (m : list B) (r : outcome (list B)) : Prop :=
  exists r', exec (estart vals_in) estep [upto 0 num] [tt] m r' /\
    r = match r' with Ok (_, m') => Ok m' | UB => UB end.

(** statslib_defs.hpp:37-72 *)
Inductive eval_omp (omp : Z) (vals_in : list A) (num : Z) (m : list B) : outcome (list B) -> Prop :=
| eo_ub : parallel omp num = true ->
    exec (estart vals_in) estep (blocks omp num) (map (fun _ => tt) (blocks omp num)) m UB ->
    eval_omp omp vals_in num m UB
| eo_par es m1 r : parallel omp num = true ->
    exec (estart vals_in) estep (blocks omp num) (map (fun _ => tt) (blocks omp num)) m (Ok (es, m1)) ->
    exec (estart vals_in) estep [tail omp num] [tt] m1 r ->
    eval_omp omp vals_in num m (match r with Ok (_, m') => Ok m' | UB => UB end)
| eo_ser r : parallel omp num = false -> eval_serial vals_in num m r -> eval_omp omp vals_in num m r.

(** Containers.  STDVEC_DIST_FN (lines 149-156) allocates x.size() elements; ARMA_DIST_FN (158-165)
    and EIGEN_DIST_FN (185-192) allocate rows x columns elements and pass the element count; the
    data of a dense matrix is one contiguous array of rows*cols elements.  [fill0] is what the
    allocation leaves in the elements.  Blaze matrices go through blaze::map (178-183), which is
    outside the model.  [omp] is [None] without OpenMP. *)
Record matrix (X : Type) := Mat { m_rows : Z; m_cols : Z; m_data : list X }.
Arguments Mat {X} _ _ _.
Arguments m_rows {X} _.
Arguments m_cols {X} _.
Arguments m_data {X} _.

Definition eval_vec (omp : option Z) (vals_in : list A) (num : Z) (m : list B) (r : outcome (list B)) : Prop :=
  match omp with Some k => eval_omp k vals_in num m r | None => eval_serial vals_in num m r end.

Definition stdvec_fn (omp : option Z) (fill0 : list B) (x : list A) (r : outcome (list B)) : Prop :=
  length fill0 = length x /\ eval_vec omp x (Z.of_nat (length x)) fill0 r.

Definition mat_fn (omp : option Z) (fill0 : list B) (X : matrix A) (r : outcome (matrix B)) : Prop :=
  Z.of_nat (length fill0) = m_rows X * m_cols X /\
  exists r', eval_vec omp (m_data X) (m_rows X * m_cols X) fill0 r' /\
    r = match r' with Ok d => Ok (Mat (m_rows X) (m_cols X) d) | UB => UB end.
End Eval.
Arguments Mat {X} _ _ _.
Arguments m_rows {X} _.
Arguments m_cols {X} _.
Arguments m_data {X} _.

(** RAND_DIST_FN_VEC.  [l0] is the scalar call about to start, [uni] one call of
    runif(0.0,1.0,engine_0), [seed k n u] the value computed from it by generate_seed_value
    (seed_values.hpp:29-34), and [mk] the constructor rand_engine_t(seed). *)
Section Rand.
Context {L E B U : Type} (l0 : L) (rstep : L -> E -> (L + B) * E).
Context (uni : E -> U * E) (seed : Z -> Z -> U -> Z) (mk : Z -> E).

Definition rstart (i : Z) : option L := Some l0.

(** lines 87-93 *)
Fixpoint seed_loop (ks : list Z) (n : Z) (e0 : E) : list E * E :=
  match ks with
  | [] => ([], e0)
  | k :: ks' =>
      let '(u, e1) := uni e0 in
      let '(es, e2) := seed_loop ks' n e1 in
      (mk (seed k n u) :: es, e2)
  end.
Definition seeded (omp : Z) (e0 : E) : list E * E :=
  seed_loop (upto 0 (n_threads omp)) (n_threads omp) e0.

(** statslib_defs.hpp:134-141: final engine_0 and vals_out *)
Definition rand_serial (num : Z) (e0 : E) (m : list B) (r : outcome (E * list B)) : Prop :=
  exists r', exec rstart rstep [upto 0 num] [e0] m r' /\
    r = match r' with Ok (es, m') => Ok (hd e0 es, m') | UB => UB end.

(** statslib_defs.hpp:76-119 *)
Inductive rand_omp (omp num : Z) (e0 : E) (m : list B) : outcome (E * list B) -> Prop :=
| ro_ub : parallel omp num = true ->
    exec rstart rstep (blocks omp num) (fst (seeded omp e0)) m UB ->
    rand_omp omp num e0 m UB
| ro_par es m1 r : parallel omp num = true ->
    exec rstart rstep (blocks omp num) (fst (seeded omp e0)) m (Ok (es, m1)) ->
    exec rstart rstep [tail omp num] [hd e0 es] m1 r ->
    rand_omp omp num e0 m
      (match r with Ok (_, m') => Ok (snd (seeded omp e0), m') | UB => UB end)
| ro_ser r : parallel omp num = false -> rand_serial num e0 m r -> rand_omp omp num e0 m r.

Definition rand_vec (omp : option Z) (num : Z) (e0 : E) (m : list B) (r : outcome (E * list B)) : Prop :=
  match omp with Some k => rand_omp k num e0 m r | None => rand_serial num e0 m r end.

(** GEN_MAT_RAND_FN (213-221) with STDVEC_RAND_DIST_FN (223-226): resize(mat_out,n,k) makes
    n*k elements, the product taken in ullint_t (resize.hpp:28-36), and fills X.size() of them.
    For Armadillo and Eigen MAIN_MAT_RAND_DIST_FN (238-242) passes n_rows*spacing = rows*cols. *)
Definition gen_vec (omp : option Z) (n k : Z) (e0 : E) (fill0 : list B) (r : outcome (E * list B)) : Prop :=
  Z.of_nat (length fill0) = umul n k /\ rand_vec omp (umul n k) e0 fill0 r.
End Rand.
