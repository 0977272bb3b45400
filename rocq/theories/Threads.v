(** What the number of threads changes (C34), and samplers that are plain functions of the
    engine state (C31). *)
From Coq Require Import ZArith List Lia Bool.
From Verif Require Import Num B64 Rand Vec SpecVec VecProof VecPlan VecThm Seed MT.
From Flocq Require Import IEEE754.BinarySingleNaN.
Import ListNotations.
Local Open Scope Z_scope.

Section Total.
Context {E B : Type} (f : E -> B * E).
(** a sampler without visible intermediate states *)
Definition step1 (_ : unit) (e : E) : (unit + B) * E := (inr (fst (f e)), snd (f e)).

Lemma returns_step1 l e b e' : returns step1 l e b e' <-> f e = (b, e').
Proof.
  split.
  - intros H. inversion H as [? ? ? ? Q|? ? ? ? ? ? Q]; subst; unfold step1 in Q; [|discriminate].
    destruct (f e). cbn in Q. congruence.
  - intros H. apply ret_now. unfold step1. now rewrite H.
Qed.
Lemma calls_step1 n e bs e' : calls tt step1 n e bs e' <-> advance f n e = (bs, e').
Proof.
  revert e bs. induction n as [|n IH]; intros e bs.
  - split; intros H; [inversion H; reflexivity|]. cbn in H. injection H as <- <-. constructor.
  - cbn. destruct (advance f n (snd (f e))) as [us e1] eqn:A. split.
    + intros H. inversion H as [|? ? ? ? ? ? R C]; subst. apply returns_step1 in R. apply IH in C. rewrite R in *.
      cbn in *. congruence.
    + intros H. injection H as <- <-. econstructor; [apply returns_step1; apply surjective_pairing|]. now apply IH.
Qed.
Lemma returns_total : forall e, exists b e', returns step1 tt e b e'.
Proof. intros e. exists (fst (f e)), (snd (f e)). apply returns_step1. apply surjective_pairing. Qed.

(** the first element of a parallel fill without remainder is the first draw of the first engine *)
Lemma filled_first n e es out : filled tt step1 (S n) 0 (e :: es) out -> nth_error out 0 = Some (fst (f e)).
Proof.
  intros (bss & es' & H & ->). inversion H as [|? ? ? ? ? ? C _]; subst. apply calls_step1 in C.
  cbn in C. destruct (advance f n (snd (f e))). injection C as <- _. reflexivity.
Qed.
End Total.

Section Same.
Context {L E B U : Type} (l0 : L) (rstep : L -> E -> (L + B) * E).
Context (uni : E -> U * E) (seed : Z -> Z -> U -> Z) (mk : Z -> E).
Notation rv := (rand_vec l0 rstep uni seed mk).

(** The fill depends on the thread count only through min(threads, 4). *)
Lemma fill_same_threads omp1 omp2 num e0 m r1 r2 : 1 <= omp1 -> 1 <= omp2 -> n_threads omp1 = n_threads omp2 ->
  0 <= num < W64 -> Z.of_nat (length m) = num ->
  rv (Some omp1) num e0 m r1 -> rv (Some omp2) num e0 m r2 -> r1 = r2.
Proof.
  intros H1 H2 Q Hn Lm X1 X2.
  assert (P : parallel omp1 num = parallel omp2 num) by (unfold parallel, n_per_block; now rewrite Q).
  cbn in X1, X2. destruct (parallel omp1 num) eqn:P1.
  - destruct (rand_omp_ok l0 rstep uni seed mk omp1 num e0 m r1) as (o1 & -> & F1); auto.
    destruct (rand_omp_ok l0 rstep uni seed mk omp2 num e0 m r2) as (o2 & -> & F2); auto.
    assert (S : seeded uni seed mk omp1 e0 = seeded uni seed mk omp2 e0) by (unfold seeded; now rewrite Q).
    unfold n_per_block, n_remainder in *. rewrite S, Q in *. now rewrite (filled_det _ _ _ _ _ _ _ F1 F2).
  - inversion X1; inversion X2; subst; try congruence.
    eapply (rand_vec_det l0 rstep uni seed mk None); eauto. exact I.
Qed.
Lemma fill_four omp1 omp2 num e0 m r1 r2 : 4 <= omp1 -> 4 <= omp2 ->
  0 <= num < W64 -> Z.of_nat (length m) = num ->
  rv (Some omp1) num e0 m r1 -> rv (Some omp2) num e0 m r2 -> r1 = r2.
Proof. intros. eapply (fill_same_threads omp1 omp2); eauto; try lia. unfold n_threads. lia. Qed.
(** Below the threshold the thread count does not matter at all, and the fill is the serial one. *)
Lemma fill_small omp num e0 m r1 r2 : 1 <= omp -> parallel omp num = false ->
  0 <= num < W64 -> Z.of_nat (length m) = num ->
  rv (Some omp) num e0 m r1 -> rv None num e0 m r2 -> r1 = r2.
Proof.
  intros H1 P Hn Lm X1 X2. cbn in *. inversion X1; subst; try congruence.
  eapply (rand_vec_det l0 rstep uni seed mk None); eauto. exact I.
Qed.
Lemma first_engine omp e0 : 1 <= omp ->
  exists es, fst (seeded uni seed mk omp e0) = mk (seed 0 (n_threads omp) (fst (uni e0))) :: es.
Proof.
  intros Ho. pose proof (nt_range omp Ho) as Hn. rewrite (proj2 (seeded_advance _ _ _ omp e0 Ho)).
  destruct (Z.to_nat (n_threads omp)) as [|n] eqn:Q; [lia|]. cbn [advance].
  destruct (advance uni n (snd (uni e0))) as [us e']. unfold upto. replace (n_threads omp - 0) with (n_threads omp) by lia.
  rewrite Q. cbn. eexists. reflexivity.
Qed.
Lemma not_parallel omp num : 1 <= omp -> 0 <= num < 5 -> parallel omp num = false.
Proof.
  intros Ho Hn. unfold parallel, n_per_block. apply Z.ltb_ge. pose proof (nt_range omp Ho).
  assert (num / n_threads omp < 5); [|lia]. apply Z.div_lt_upper_bound; lia.
Qed.
End Same.

(** runif<std::vector<double>>(10,1,0.0,1.0,seed) with 1 and with 2 threads, mt19937_64 *)
Section Refute.
Variable F : TF.
Definition run01 : mt -> b64 * mt := runif01 (N := B64_Num F) mt_rng.
Definition seedZ (k n : Z) (u : b64) : Z := match b64_seed F k n u with Some z => z | None => 0 end.

Lemma fill_refuted : exists (s num omp1 omp2 : Z) (m out1 out2 : list b64) (e1 e2 : mt),
  1 <= omp1 /\ 1 <= omp2 /\ 0 <= num < W64 /\ Z.of_nat (length m) = num /\
  rand_vec tt (step1 run01) run01 seedZ mt_seed (Some omp1) num (mt_seed s) m (Ok (e1, out1)) /\
  rand_vec tt (step1 run01) run01 seedZ mt_seed (Some omp2) num (mt_seed s) m (Ok (e2, out2)) /\
  out1 <> out2.
Proof.
  set (m := repeat (bofZ 0) 10).
  assert (Ex : forall omp, 1 <= omp -> exists r, rand_vec tt (step1 run01) run01 seedZ mt_seed (Some omp) 10 (mt_seed 1) m r).
  { intros omp Ho. apply rand_vec_exists; auto. - apply returns_total. - unfold W64. lia. }
  destruct (Ex 1 ltac:(lia)) as (r1 & X1). destruct (Ex 2 ltac:(lia)) as (r2 & X2).
  pose proof (rand_omp_ok tt (step1 run01) run01 seedZ mt_seed 1 10 (mt_seed 1) m r1 ltac:(lia) ltac:(unfold W64; lia) eq_refl eq_refl X1) as (o1 & Q1 & F1).
  pose proof (rand_omp_ok tt (step1 run01) run01 seedZ mt_seed 2 10 (mt_seed 1) m r2 ltac:(lia) ltac:(unfold W64; lia) eq_refl eq_refl X2) as (o2 & Q2 & F2).
  rewrite Q1 in X1. rewrite Q2 in X2.
  exists 1, 10, 1, 2, m, o1, o2. eexists. eexists.
  split; [lia|]. split; [lia|]. split; [unfold W64; lia|]. split; [reflexivity|].
  split; [exact X1|]. split; [exact X2|].
  destruct (first_engine run01 seedZ mt_seed 1 (mt_seed 1) ltac:(lia)) as (es1 & S1).
  destruct (first_engine run01 seedZ mt_seed 2 (mt_seed 1) ltac:(lia)) as (es2 & S2).
  rewrite S1 in F1. rewrite S2 in F2.
  change (Z.to_nat (n_remainder 1 10)) with 0%nat in F1. change (Z.to_nat (n_remainder 2 10)) with 0%nat in F2.
  change (Z.to_nat (n_per_block 1 10)) with 10%nat in F1. change (Z.to_nat (n_per_block 2 10)) with 5%nat in F2.
  apply (filled_first run01 9) in F1. apply (filled_first run01 4) in F2.
  intros Q. rewrite Q in F1. rewrite F1 in F2. assert (F3 : fst (run01 (mt_seed (seedZ 0 (n_threads 1) (fst (run01 (mt_seed 1)))))) = fst (run01 (mt_seed (seedZ 0 (n_threads 2) (fst (run01 (mt_seed 1))))))) by congruence.
  clear F1 F2 Q S1 S2 X1 X2 Q1 Q2 Ex.
  apply (f_equal B2SF) in F3. revert F3. vm_compute. discriminate.
Qed.
End Refute.
