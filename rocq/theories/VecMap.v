(** Corollaries of VecThm: total scalar functions, absence of undefined behaviour, and the
    element count of the generators. *)
From Coq Require Import ZArith List Lia Bool.
From Verif Require Import Vec SpecVec VecProof VecPlan VecThm Threads.
Import ListNotations.
Local Open Scope Z_scope.

(** a scalar function without visible intermediate states *)
Definition once {A B} (f : A -> B) (a : A) : A + B := inr (f a).
Lemma evaluates_once {A B} (f : A -> B) a b : evaluates (fun x => x) (once f) a b <-> b = f a.
Proof.
  unfold evaluates. split.
  - intros H. inversion H as [? ? ? ? Q|? ? ? ? ? ? Q]; subst; unfold estep, once in Q; congruence.
  - intros ->. now apply ret_now.
Qed.
Lemma forall2_map {A B} (f : A -> B) x out : Forall2 (evaluates (fun x => x) (once f)) x out <-> out = map f x.
Proof.
  split.
  - induction 1 as [|a b x out H _ IH]; cbn; auto. apply evaluates_once in H. now subst.
  - intros ->. induction x; cbn; constructor; auto. now apply evaluates_once.
Qed.

Lemma stdvec_map {A B} (f : A -> B) omp fill0 x r : omp_ok omp -> Z.of_nat (length x) < W64 ->
  stdvec_fn (fun a => a) (once f) omp fill0 x r -> r = Ok (map f x).
Proof. intros Ho Hx H. destruct (stdvec_ok _ _ _ _ _ _ Ho Hx H) as (out & -> & Q). apply forall2_map in Q. now subst. Qed.
Lemma stdvec_map_exists {A B} (f : A -> B) omp fill0 x : omp_ok omp -> Z.of_nat (length x) < W64 ->
  length fill0 = length x -> stdvec_fn (fun a => a) (once f) omp fill0 x (Ok (map f x)).
Proof.
  intros Ho Hx L. destruct (eval_vec_exists (fun a => a) (once f) omp x fill0 (map f x)) as (r & X); auto.
  { now apply forall2_map. }
  assert (H : stdvec_fn (fun a => a) (once f) omp fill0 x r) by (split; auto).
  now rewrite (stdvec_map f omp fill0 x r Ho Hx H) in H.
Qed.
Lemma mat_map {A B} (f : A -> B) omp fill0 X r : omp_ok omp ->
  Z.of_nat (length (m_data X)) = m_rows X * m_cols X -> m_rows X * m_cols X < W64 ->
  mat_fn (fun a => a) (once f) omp fill0 X r -> r = Ok (Mat (m_rows X) (m_cols X) (map f (m_data X))).
Proof.
  intros Ho Hd Hx H. destruct (mat_ok _ _ _ _ _ _ Ho Hd Hx H) as ([n k d] & -> & En & Ek & Q).
  apply forall2_map in Q. cbn in *. now subst.
Qed.

Lemma eval_no_ub {A L B} (call : A -> L) (fstep : L -> L + B) omp v m : omp_ok omp -> Z.of_nat (length v) < W64 ->
  length m = length v -> ~ eval_vec call fstep omp v (Z.of_nat (length v)) m UB.
Proof. intros Ho Hv L1 H. destruct (eval_vec_ok _ _ _ _ _ _ Ho Hv L1 H) as (out & Q & _). discriminate. Qed.

Section R.
Context {L E B U : Type} (l0 : L) (rstep : L -> E -> (L + B) * E).
Context (uni : E -> U * E) (seed : Z -> Z -> U -> Z) (mk : Z -> E).

Lemma rand_vec_len omp num e0 m r : omp_ok omp -> 0 <= num < W64 -> Z.of_nat (length m) = num ->
  rand_vec l0 rstep uni seed mk omp num e0 m r -> exists e' out, r = Ok (e', out) /\ Z.of_nat (length out) = num.
Proof.
  intros Ho Hn Lm X.
  assert (ser : forall r, rand_serial l0 rstep num e0 m r -> exists e' out, r = Ok (e', out) /\ Z.of_nat (length out) = num).
  { intros r' X'. destruct (rand_serial_ok l0 rstep num e0 m r') as (out & e' & -> & C); auto; [lia|].
    exists e', out. split; auto. apply calls_len in C. lia. }
  destruct omp as [omp|]; cbn in *; [|now apply ser].
  destruct (parallel omp num) eqn:P.
  - destruct (rand_omp_ok l0 rstep uni seed mk omp num e0 m r) as (out & -> & Fl); auto.
    eexists. exists out. split; [reflexivity|].
    apply filled_len in Fl.
    + rewrite Fl, seeded_len by auto. pose proof (num_split omp num Ho). pose proof (nt_range omp Ho).
      pose proof (rem_range omp num Ho). pose proof (npb_pos omp num Ho Hn). nia.
    + pose proof (par_npb omp num P). lia.
    + rewrite seeded_len by auto. pose proof (nt_range omp Ho). lia.
  - inversion X; subst; try congruence. now apply ser.
Qed.
Lemma rand_no_ub omp num e0 m : omp_ok omp -> 0 <= num < W64 -> Z.of_nat (length m) = num ->
  ~ rand_vec l0 rstep uni seed mk omp num e0 m UB.
Proof. intros Ho Hn Lm X. destruct (rand_vec_len _ _ _ _ _ Ho Hn Lm X) as (e' & out & Q & _). discriminate. Qed.

(** nothing of the old contents remains *)
Lemma fill_overwrites omp num e0 m1 m2 r1 r2 : 1 <= omp -> 0 <= num < W64 ->
  Z.of_nat (length m1) = num -> Z.of_nat (length m2) = num ->
  rand_vec l0 rstep uni seed mk (Some omp) num e0 m1 r1 ->
  rand_vec l0 rstep uni seed mk (Some omp) num e0 m2 r2 -> r1 = r2.
Proof.
  intros Ho Hn L1 L2 X1 X2. cbn in *. destruct (parallel omp num) eqn:P.
  - destruct (rand_omp_ok l0 rstep uni seed mk omp num e0 m1 r1) as (o1 & -> & F1); auto.
    destruct (rand_omp_ok l0 rstep uni seed mk omp num e0 m2 r2) as (o2 & -> & F2); auto.
    now rewrite (filled_det _ _ _ _ _ _ _ F1 F2).
  - inversion X1 as [| |? ? Y1]; inversion X2 as [| |? ? Y2]; try congruence.
    destruct (rand_serial_ok l0 rstep num e0 m1 r1) as (o1 & e1 & -> & C1); auto; [lia|].
    destruct (rand_serial_ok l0 rstep num e0 m2 r2) as (o2 & e2 & -> & C2); auto; [lia|].
    destruct (calls_det _ _ _ _ _ _ _ _ C1 C2) as (-> & ->). reflexivity.
Qed.

(** serial fill with a sampler that is a function of the engine state *)
Lemma gen_len omp n k e0 fill0 r : omp_ok omp -> 0 <= n -> 0 <= k -> n * k < W64 ->
  gen_vec l0 rstep uni seed mk omp n k e0 fill0 r ->
  exists e' out, r = Ok (e', out) /\ Z.of_nat (length out) = n * k.
Proof.
  intros Ho Hn Hk Hl (L1 & X). assert (Q : umul n k = n * k) by (unfold umul; apply Z.mod_small; nia).
  rewrite Q in *. eapply rand_vec_len; eauto. nia.
Qed.
End R.

Lemma serial_total {E B U} (f : E -> B * E) (uni : E -> U * E) seed mk num e0 m r : 0 <= num < W64 -> Z.of_nat (length m) = num ->
  rand_vec tt (step1 f) uni seed mk None num e0 m r ->
  r = Ok (snd (advance f (Z.to_nat num) e0), fst (advance f (Z.to_nat num) e0)).
Proof.
  intros Hn Lm X. cbn in X. destruct (rand_serial_ok tt (step1 f) num e0 m r) as (out & e' & -> & C); auto; [lia|].
  apply calls_step1 in C. now rewrite C.
Qed.
Lemma omp_small_total {E B U} (f : E -> B * E) (uni : E -> U * E) seed mk omp num e0 m r : 1 <= omp -> 0 <= num < W64 ->
  parallel omp num = false -> Z.of_nat (length m) = num ->
  rand_vec tt (step1 f) uni seed mk (Some omp) num e0 m r ->
  r = Ok (snd (advance f (Z.to_nat num) e0), fst (advance f (Z.to_nat num) e0)).
Proof.
  intros Ho Hn P Lm X. cbn in X. inversion X; subst; try congruence.
  eapply (serial_total f uni seed mk); eauto.
Qed.

(** the product of the two sizes wraps *)
Lemma gen_len_refuted {L E B U} (l0 : L) (rstep : L -> E -> (L + B) * E) (uni : E -> U * E) (seed : Z -> Z -> U -> Z) (mk : Z -> E) (e0 : E) :
  exists n k, 0 < n < W64 /\ 0 < k < W64 /\ gen_vec l0 rstep uni seed mk None n k e0 [] (Ok (e0, [])).
Proof.
  exists (2 ^ 32), (2 ^ 32). split; [unfold W64; lia|]. split; [unfold W64; lia|].
  split; [reflexivity|]. exists (Ok ([e0], [])). split; [|reflexivity].
  apply (exec_done _ _ [upto 0 0] [e0] [] [] ([(Idle [], e0)], [])); [reflexivity|]. repeat constructor.
Qed.
